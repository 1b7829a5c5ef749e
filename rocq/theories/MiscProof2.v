(* Visit and the instance list. *)
From Verif Require Import MiscModel MiscSpec.
From Coq Require Import Arith List ZArith Lia.
Import ListNotations.
Open Scope nat_scope.

(* ---- Visit ---- *)
Lemma v_grows st l st' : vstep st l = Some st' -> exists es, vhist st' = vhist st ++ es.
Proof.
  unfold vstep. destruct (vcrash st); [discriminate|]. destruct l as [f m|g s f|g v|g]; [|destruct (pc st g)..]; try discriminate.
  - intros H; injection H as <-. eexists; reflexivity.
  - destruct (vis st s f); intros H; injection H as <-; eexists; reflexivity.
  - destruct (reg st f); intros H; injection H as <-; try (eexists; reflexivity). exists []. symmetry. apply app_nil_r.
  - intros H; injection H as <-. eexists; reflexivity.
Qed.
Lemma latest_snoc f h e : latest f (h ++ [e]) = match e with ERegister f' m => if zlist_eqb f' f then m else latest f h | _ => latest f h end.
Proof. unfold latest. rewrite fold_left_app. destruct e; reflexivity. Qed.
Lemma latest_app f h es : (forall f' m, ~ In (ERegister f' m) es) -> latest f (h ++ es) = latest f h.
Proof.
  revert h. induction es as [|e es IH]; intros h N; [rewrite app_nil_r; reflexivity|]. change (e :: es) with ([e] ++ es). rewrite app_assoc, IH.
  - rewrite latest_snoc. destruct e; auto. exfalso. eapply N. left. reflexivity.
  - intros f' m H. apply (N f' m). right; exact H.
Qed.
(* what a call in progress knows *)
Definition pcok (st : vst) : Prop := forall g s f v, pc st g = VMade s f v -> exists m, In (EMade g s f m v) (vhist st).
Definition visok (st : vst) : Prop := forall s f v, vis st s f = Some v -> exists g m, In (EMade g s f m (Some v)) (vhist st).
Definition madeok (st : vst) : Prop := forall a g s f m v b, vhist st = a ++ EMade g s f m v :: b -> latest f a = MFunc m.
Definition retok (st : vst) : Prop := forall a g s f v b, vhist st = a ++ EVisit g s f (Some v) :: b -> exists g' m, In (EMade g' s f m (Some v)) a.

Lemma app_tail {A} (h es a b : list A) x : h ++ es = a ++ x :: b -> (exists b', h = a ++ x :: b') \/ (exists a', a = h ++ a' /\ es = a' ++ x :: b).
Proof.
  revert a. induction h as [|y h IH]; intros a H; [right; exists a; auto|]. destruct a as [|z a]; cbn in H; injection H as -> H; [left; exists h; reflexivity|].
  destruct (IH _ H) as [[b' ->]|[a' [-> ->]]]; [left; exists b'; reflexivity|right; exists a'; auto].
Qed.
Lemma one_tail {A} (e x : A) a b : [e] = a ++ x :: b -> a = [] /\ x = e /\ b = [].
Proof. destruct a as [|? [|]]; cbn; intros H; try discriminate; injection H as <- <-; auto. Qed.
Lemma two_tail {A} (e e' x : A) a b : [e; e'] = a ++ x :: b -> (a = [] /\ x = e) \/ (a = [e] /\ x = e').
Proof. destruct a as [|? [|? [|]]]; cbn; intros H; try discriminate; injection H; intros; subst; auto. Qed.

Lemma v_base ls st : exec vstep vinit ls = Some st -> pcok st /\ visok st /\ madeok st /\ retok st /\ (forall f, reg st f = latest f (vhist st)).
Proof.
  apply (exec_inv vstep (fun st => pcok st /\ visok st /\ madeok st /\ retok st /\ forall f, reg st f = latest f (vhist st))).
  2: { repeat split; try (intros ? **; discriminate); intros [|] **; discriminate. }
  clear. intros st l st' (P & V & M & R & L) H.
  assert (L' : forall f, reg st' f = latest f (vhist st')).
  { unfold vstep in H. destruct (vcrash st); [discriminate|]. destruct l as [f0 m|g s f0|g v|g]; [|destruct (pc st g)..]; try discriminate.
    - injection H as <-. cbn [reg vhist]. intros f. rewrite latest_snoc. unfold updn. destruct (zlist_eqb_spec f f0) as [->|N]; [rewrite zlist_refl; reflexivity|].
      destruct (zlist_eqb_spec f0 f); [congruence|]. apply L.
    - destruct (vis st s f0); injection H as <-; cbn [reg vhist]; intros; rewrite latest_app; auto; cbn; intuition discriminate.
    - destruct (reg st f); injection H as <-; cbn [reg vhist]; intros; rewrite ?latest_app; auto; cbn; intuition discriminate.
    - injection H as <-. cbn [reg vhist]. intros; rewrite latest_app; auto; cbn; intuition discriminate. }
  destruct (v_grows _ _ _ H) as [es Hes].
  split; [|split; [|split; [|split; [|exact L']]]].
  - intros g s f v E. unfold vstep in H. destruct (vcrash st); [discriminate|]. destruct l as [f0 m|g0 s0 f0|g0 v0|g0]; [|destruct (pc st g0) eqn:Eg..]; try discriminate.
    + injection H as <-. cbn in *. destruct (P _ _ _ _ E) as [m' ?]. exists m'. apply in_or_app; auto.
    + destruct (vis st s0 f0); injection H as <-; cbn in *.
      * destruct (P _ _ _ _ E) as [m' ?]. exists m'. apply in_or_app; auto.
      * unfold updp in E. destruct (g =? g0); [discriminate|]. destruct (P _ _ _ _ E) as [m' ?]. exists m'. apply in_or_app; auto.
    + destruct (reg st f0); injection H as <-; cbn in *.
      * unfold updp in E. destruct (g =? g0); [discriminate|]. destruct (P _ _ _ _ E) as [m' ?]. exists m'. apply in_or_app; auto.
      * unfold updp in E. destruct (Nat.eqb_spec g g0) as [->|N].
        -- injection E as <- <- <-. exists m. apply in_or_app; cbn; auto.
        -- destruct (P _ _ _ _ E) as [m' ?]. exists m'. apply in_or_app; auto.
      * eauto.
    + injection H as <-. cbn in *. unfold updp in E. destruct (g =? g0); [discriminate|]. destruct (P _ _ _ _ E) as [m' ?]. exists m'. apply in_or_app; auto.
  - intros s f v E.
    assert (X : vis st s f = Some v \/ exists g, pc st g = VMade s f (Some v)).
    { unfold vstep in H. destruct (vcrash st); [discriminate|]. destruct l as [f0 m|g0 s0 f0|g0 v0|g0]; [|destruct (pc st g0) eqn:Eg..]; try discriminate.
      - injection H as <-. auto.
      - destruct (vis st s0 f0); injection H as <-; auto.
      - destruct (reg st f0); injection H as <-; auto.
      - injection H as <-. cbn in E. unfold updp, updn in E. destruct (Nat.eqb_spec s s0) as [->|N]; auto.
        destruct (zlist_eqb_spec f f0) as [->|N]; auto. subst v0. eauto. }
    rewrite Hes. destruct X as [X|[g X]]; [destruct (V _ _ _ X) as (g' & m & X')|destruct (P _ _ _ _ X) as (m & X')]; do 2 eexists; apply in_or_app; left; eauto.
  - intros a g s f m v b E. rewrite Hes in E. apply app_tail in E as [[b' E]|[a' [-> E]]]; [eapply M; eauto|].
    unfold vstep in H. destruct (vcrash st); [discriminate|]. destruct l as [f0 m0|g0 s0 f0|g0 v0|g0]; [|destruct (pc st g0) eqn:Eg..]; try discriminate.
    + injection H as <-. cbn in Hes. apply app_inv_head in Hes. subst es. apply one_tail in E as (_ & E & _). discriminate.
    + destruct (vis st s0 f0); injection H as <-; cbn in Hes; apply app_inv_head in Hes; subst es.
      * apply two_tail in E as [[_ E]|[_ E]]; discriminate.
      * apply one_tail in E as (_ & E & _). discriminate.
    + destruct (reg st f0) eqn:Er; injection H as <-; cbn in Hes.
      * apply app_inv_head in Hes; subst es. apply one_tail in E as (_ & E & _). discriminate.
      * apply app_inv_head in Hes; subst es. apply one_tail in E as (-> & E & _). injection E as <- <- <- -> <-. rewrite app_nil_r, <- L. exact Er.
      * rewrite <- app_nil_r in Hes at 1. apply app_inv_head in Hes; subst es. destruct a'; discriminate.
    + injection H as <-. cbn in Hes. apply app_inv_head in Hes. subst es. apply one_tail in E as (_ & E & _). discriminate.
  - intros a g s f v b E. rewrite Hes in E. apply app_tail in E as [[b' E]|[a' [-> E]]]; [eapply R; eauto|].
    assert (X : vis st s f = Some v \/ exists g, pc st g = VMade s f (Some v)).
    { unfold vstep in H. destruct (vcrash st); [discriminate|]. destruct l as [f0 m0|g0 s0 f0|g0 v0|g0]; [|destruct (pc st g0) eqn:Eg..]; try discriminate.
      - injection H as <-. cbn in Hes. apply app_inv_head in Hes. subst es. apply one_tail in E as (_ & E & _). discriminate.
      - destruct (vis st s0 f0) eqn:Ev; injection H as <-; cbn in Hes; apply app_inv_head in Hes; subst es.
        + apply two_tail in E as [[_ E]|[_ E]]; [discriminate|]. injection E as <- <- <- ->. auto.
        + apply one_tail in E as (_ & E & _). discriminate.
      - destruct (reg st f0) eqn:Er; injection H as <-; cbn in Hes.
        + apply app_inv_head in Hes; subst es. apply one_tail in E as (_ & E & _). discriminate.
        + apply app_inv_head in Hes; subst es. apply one_tail in E as (_ & E & _). discriminate.
        + rewrite <- app_nil_r in Hes at 1. apply app_inv_head in Hes; subst es. destruct a'; discriminate.
      - injection H as <-. cbn in Hes. apply app_inv_head in Hes. subst es. apply one_tail in E as (_ & E & _). injection E as <- <- <- <-. eauto. }
    destruct X as [X|[g' X]]; [destruct (V _ _ _ X) as (g' & m & X')|destruct (P _ _ _ _ X) as (m & X')]; do 2 eexists; apply in_or_app; left; eauto.
Qed.

(* serial visits *)
Definition busy (st : vst) (s : nat) (f : name) (g : nat) : Prop := pc st g = VMiss s f \/ exists v, pc st g = VMade s f v.
Definition opened (s : nat) (f : name) (st : vst) : Prop := forall g, busy st s f g ->
  exists a b, vhist st = a ++ EStart g s f :: b /\ forall r, ~ In (EVisit g s f r) b.
Lemma serial_prefix s f h es : serial s f (h ++ es) -> serial s f h.
Proof. intros H a b c g g' E. apply (H a b (c ++ es) g g'). rewrite E. rewrite <- app_assoc. cbn. rewrite <- app_assoc. reflexivity. Qed.

Lemma v_inv st l st' : vstep st l = Some st' ->
  (exists f m, l = LRegister f m /\ reg st' = updn (reg st) f m /\ vis st' = vis st /\ pc st' = pc st /\ vhist st' = vhist st ++ [ERegister f m]) \/
  (exists g s f v, l = LVisit g s f /\ pc st g = VIdle /\ vis st s f = Some v /\ reg st' = reg st /\ vis st' = vis st /\ pc st' = pc st /\ vhist st' = vhist st ++ [EStart g s f; EVisit g s f (Some v)]) \/
  (exists g s f, l = LVisit g s f /\ pc st g = VIdle /\ vis st s f = None /\ reg st' = reg st /\ vis st' = vis st /\ pc st' = updp (pc st) g (VMiss s f) /\ vhist st' = vhist st ++ [EStart g s f]) \/
  (exists g s f v, l = LTry g v /\ pc st g = VMiss s f /\ reg st f = MNil /\ reg st' = reg st /\ vis st' = vis st /\ pc st' = updp (pc st) g VIdle /\ vhist st' = vhist st ++ [EVisit g s f None]) \/
  (exists g s f v m, l = LTry g v /\ pc st g = VMiss s f /\ reg st f = MFunc m /\ reg st' = reg st /\ vis st' = vis st /\ pc st' = updp (pc st) g (VMade s f v) /\ vhist st' = vhist st ++ [EMade g s f m v]) \/
  (exists g s f v, l = LTry g v /\ pc st g = VMiss s f /\ reg st f = MWrong /\ vcrash st' = true /\ reg st' = reg st /\ vis st' = vis st /\ pc st' = pc st /\ vhist st' = vhist st) \/
  (exists g s f v, l = LStore g /\ pc st g = VMade s f v /\ reg st' = reg st /\ vis st' = updp (vis st) s (updn (vis st s) f v) /\ pc st' = updp (pc st) g VIdle /\ vhist st' = vhist st ++ [EVisit g s f v]).
Proof.
  unfold vstep. destruct (vcrash st); [discriminate|]. destruct l as [f m|g s f|g v|g].
  - intros H; injection H as <-. left. eauto 10.
  - destruct (pc st g) eqn:E; try discriminate. destruct (vis st s f) eqn:V; intros H; injection H as <-; right; [left|right; left]; eauto 20.
  - destruct (pc st g) eqn:E; try discriminate. destruct (reg st f) eqn:V; intros H; injection H as <-; do 3 right; [left|right; left|do 2 right; left]; eauto 20.
  - destruct (pc st g) eqn:E; try discriminate. intros H; injection H as <-. do 6 right. eauto 20.
Qed.

Lemma opened_step s f st l st' : opened s f st -> vstep st l = Some st' -> opened s f st'.
Proof.
  intros O H g B.
  assert (X : (busy st s f g /\ exists es, vhist st' = vhist st ++ es /\ (forall r, ~ In (EVisit g s f r) es)) \/ vhist st' = vhist st ++ [EStart g s f]).
  { apply v_inv in H as [H|[H|[H|[H|[H|[H|H]]]]]]; decompose record H; clear H; subst; unfold busy in *;
      repeat match goal with E : pc st' = _ |- _ => rewrite E in B; clear E | E : vhist st' = _ |- _ => rewrite E; clear E end.
    - left. split; auto. eexists; split; [reflexivity|]. cbn. intuition discriminate.
    - left. split; auto. eexists; split; [reflexivity|]. cbn. intros r [E|[E|[]]]; [discriminate|]. injection E as -> -> -> _.
      match goal with I : pc st _ = VIdle |- _ => rewrite I in B end. destruct B as [B|[? B]]; discriminate.
    - unfold updp in B. destruct (Nat.eqb_spec g x) as [->|N].
      + destruct B as [B|[? B]]; [injection B as -> ->; auto|discriminate].
      + left. split; auto. eexists; split; [reflexivity|]. cbn. intuition discriminate.
    - unfold updp in B. destruct (Nat.eqb_spec g x) as [->|N]; [destruct B as [B|[? B]]; discriminate|].
      left. split; auto. eexists; split; [reflexivity|]. cbn. intros r [E|[]]. congruence.
    - unfold updp in B. destruct (Nat.eqb_spec g x) as [->|N].
      + left. split; [|eexists; split; [reflexivity|]; cbn; intuition discriminate]. destruct B as [B|[? B]]; [discriminate|]. injection B as -> -> ->. auto.
      + left. split; auto. eexists; split; [reflexivity|]. cbn. intuition discriminate.
    - left. split; auto. exists []. split; [symmetry; apply app_nil_r|auto].
    - unfold updp in B. destruct (Nat.eqb_spec g x) as [->|N]; [destruct B as [B|[? B]]; discriminate|].
      left. split; auto. eexists; split; [reflexivity|]. cbn. intros r [E|[]]. congruence. }
  destruct X as [[B0 (es & E & N)]|E].
  - destruct (O _ B0) as (a & b & Ea & Nb). exists a, (b ++ es). rewrite E, Ea, <- app_assoc. split; [reflexivity|].
    intros r Hr. apply in_app_or in Hr as [Hr|Hr]; [eapply Nb|eapply N]; eauto.
  - exists (vhist st), []. split; [exact E|auto].
Qed.

Record seq (s : nat) (f : name) (st : vst) : Prop := {
  q_open : opened s f st;
  q_miss : forall g, busy st s f g -> vis st s f = None;
  q_one : forall g g', busy st s f g -> busy st s f g' -> g = g';
  q_ret : forall g v, In (EVisit g s f (Some v)) (vhist st) -> vis st s f = Some v;
  q_made : forall g m v, In (EMade g s f m (Some v)) (vhist st) -> vis st s f = Some v \/ pc st g = VMade s f (Some v) }.

Lemma seq_step s f st l st' : seq s f st -> vstep st l = Some st' -> serial s f (vhist st') -> seq s f st'.
Proof.
  intros Q H S. assert (O := opened_step _ _ _ _ _ (q_open _ _ _ Q) H).
  assert (Nobusy : forall g e, vhist st' = vhist st ++ EStart g s f :: e -> forall g', ~ busy st s f g').
  { intros g e E g' B. destruct (q_open _ _ _ Q _ B) as (a & b & Ea & Nb). rewrite E, Ea in S.
    destruct (S a b e g' g) as [r Hr]; [rewrite <- app_assoc; reflexivity|]. exact (Nb r Hr). }
  destruct Q as [_ M U R D].
  apply v_inv in H as [H|[H|[H|[H|[H|[H|H]]]]]].
  - destruct H as (f0 & m & -> & E1 & E2 & E3 & E4). split; auto; unfold busy; rewrite ?E2, ?E3, ?E4; auto.
    + intros g v Hi. apply in_app_or in Hi as [Hi|[Hi|[]]]; [eauto|discriminate].
    + intros g m' v Hi. apply in_app_or in Hi as [Hi|[Hi|[]]]; [eauto|discriminate].
  - destruct H as (g0 & s0 & f0 & v0 & -> & I & V & E1 & E2 & E3 & E4). split; auto; unfold busy; rewrite ?E2, ?E3, ?E4; auto.
    + intros g v Hi. apply in_app_or in Hi as [Hi|[Hi|[Hi|[]]]]; [eauto|discriminate|]. injection Hi as -> -> -> ->. exact V.
    + intros g m' v Hi. apply in_app_or in Hi as [Hi|[Hi|[Hi|[]]]]; [eauto|discriminate|discriminate].
  - destruct H as (g0 & s0 & f0 & -> & I & V & E1 & E2 & E3 & E4).
    assert (B' : forall g, busy st' s f g -> (busy st s f g /\ g <> g0) \/ (g = g0 /\ s0 = s /\ f0 = f)).
    { unfold busy. rewrite E3. intros g. unfold updp. destruct (Nat.eqb_spec g g0) as [->|N]; [|auto]. intros [B|[? B]]; [injection B as -> ->; auto|discriminate]. }
    split; auto; rewrite ?E2, ?E4.
    + intros g B. destruct (B' _ B) as [[B0 _]|(-> & -> & ->)]; eauto.
    + intros g g' B1 B2. destruct (B' _ B1) as [[B3 N]|(-> & -> & ->)], (B' _ B2) as [[B4 N']|(-> & ? & ?)]; auto; subst; exfalso; eapply Nobusy; eauto.
    + intros g v Hi. apply in_app_or in Hi as [Hi|[Hi|[]]]; [eauto|discriminate].
    + intros g m' v Hi. apply in_app_or in Hi as [Hi|[Hi|[]]]; [|discriminate]. destruct (D _ _ _ Hi) as [X|X]; auto. right. rewrite E3, updp_other; auto. congruence.
  - destruct H as (g0 & s0 & f0 & v0 & -> & I & V & E1 & E2 & E3 & E4).
    assert (B' : forall g, busy st' s f g -> busy st s f g).
    { unfold busy. rewrite E3. intros g. unfold updp. destruct (Nat.eqb_spec g g0) as [->|N]; [|auto]. intros [B|[? B]]; discriminate. }
    split; auto; rewrite ?E2, ?E4; eauto.
    + intros g v Hi. apply in_app_or in Hi as [Hi|[Hi|[]]]; [eauto|discriminate].
    + intros g m' v Hi. apply in_app_or in Hi as [Hi|[Hi|[]]]; [|discriminate]. destruct (D _ _ _ Hi) as [X|X]; auto. right. rewrite E3, updp_other; auto. congruence.
  - destruct H as (g0 & s0 & f0 & v0 & m0 & -> & I & V & E1 & E2 & E3 & E4).
    assert (B' : forall g, busy st' s f g -> busy st s f g).
    { unfold busy. rewrite E3. intros g. unfold updp. destruct (Nat.eqb_spec g g0) as [->|N]; [|auto]. intros [B|[? B]]; [discriminate|]. injection B as -> -> ->. auto. }
    split; auto; rewrite ?E2, ?E4; eauto.
    + intros g v Hi. apply in_app_or in Hi as [Hi|[Hi|[]]]; [eauto|discriminate].
    + intros g m' v Hi. rewrite E3. apply in_app_or in Hi as [Hi|[Hi|[]]].
      * destruct (D _ _ _ Hi) as [X|X]; auto. right. rewrite updp_other; auto. congruence.
      * injection Hi as <- <- <- <- ->. right. apply updp_same.
  - destruct H as (g0 & s0 & f0 & v0 & -> & I & V & _ & E1 & E2 & E3 & E4). split; auto; unfold busy; rewrite ?E2, ?E3, ?E4; auto.
  - destruct H as (g0 & s0 & f0 & v0 & -> & I & E1 & E2 & E3 & E4).
    assert (B' : forall g, busy st' s f g -> busy st s f g /\ g <> g0).
    { unfold busy. rewrite E3. intros g. unfold updp. destruct (Nat.eqb_spec g g0) as [->|N]; [|auto]. intros [B|[? B]]; discriminate. }
    assert (Vs : (s0 = s /\ f0 = f /\ vis st' s f = v0) \/ ((s0 <> s \/ f0 <> f) /\ vis st' s f = vis st s f)).
    { rewrite E2. unfold updp. destruct (Nat.eqb_spec s s0) as [->|N]; [|right; auto]. destruct (updn_case (vis st s0) f0 v0 f) as [[-> X]|[N X]]; auto. }
    destruct Vs as [(-> & -> & Vs)|[N Vs]].
    + assert (B0 : busy st s f g0) by (right; eauto).
      split; auto; rewrite ?Vs, ?E4.
      * intros g B. destruct (B' _ B) as [B1 N]. exfalso. apply N. eauto.
      * intros g g' B1 B2. destruct (B' _ B1), (B' _ B2). eauto.
      * intros g v Hi. apply in_app_or in Hi as [Hi|[Hi|[]]]; [|congruence]. apply R in Hi. rewrite (M _ B0) in Hi. discriminate.
      * intros g m' v Hi. apply in_app_or in Hi as [Hi|[Hi|[]]]; [|discriminate]. destruct (D _ _ _ Hi) as [X|X].
        -- rewrite (M _ B0) in X. discriminate.
        -- assert (g = g0) by (apply U; [right; eauto|auto]). subst g. left. congruence.
    + split; auto; rewrite ?Vs, ?E4.
      * intros g B. destruct (B' _ B) as [B1 _]. eauto.
      * intros g g' B1 B2. destruct (B' _ B1), (B' _ B2). eauto.
      * intros g v Hi. apply in_app_or in Hi as [Hi|[Hi|[]]]; [eauto|]. injection Hi as <- -> -> ->. destruct N; congruence.
      * intros g m' v Hi. apply in_app_or in Hi as [Hi|[Hi|[]]]; [|discriminate]. destruct (D _ _ _ Hi) as [X|X]; auto.
        right. rewrite E3, updp_other; auto. intros ->. rewrite I in X. injection X as -> -> _. destruct N; congruence.
Qed.
Lemma seq_init s f : seq s f vinit.
Proof. split; cbn; try tauto; intros g; unfold busy; cbn; try (intros [H|[? H]]; discriminate). intros g' [H|[? H]]; discriminate. Qed.
Lemma seq_reach s f ls st : exec vstep vinit ls = Some st -> serial s f (vhist st) -> seq s f st.
Proof.
  revert st. induction ls as [|l ls IH] using rev_ind; intros st E S; [injection E as <-; apply seq_init|].
  apply exec_split in E as (m & E1 & E2). cbn in E2. destruct (vstep m l) as [m'|] eqn:El; [|discriminate]. injection E2 as <-.
  eapply seq_step; eauto. apply IH; auto. destruct (v_grows _ _ _ El) as [es Hes]. rewrite Hes in S. eapply serial_prefix; eauto.
Qed.

Lemma same_proxy ls st s f : exec vstep vinit ls = Some st -> serial s f (vhist st) ->
  forall a g v b, vhist st = a ++ EVisit g s f (Some v) :: b -> forall g' r, In (EVisit g' s f r) b -> r = Some v.
Proof.
  intros E S a g v b H g' r Hr. apply in_split in Hr as (b1 & b2 & ->).
  assert (H' : vhist st = (a ++ EVisit g s f (Some v) :: b1) ++ EVisit g' s f r :: b2) by (rewrite H, <- app_assoc; reflexivity).
  destruct (origin vstep vhist v_grows _ _ _ E _ _ _ H' (Nat.le_0_l _)) as (ls1 & l & ls2 & s1 & s2 & es1 & es2 & -> & A & B & C & F & G).
  assert (S2 : serial s f (vhist s2)).
  { destruct (exec_grows vstep vhist v_grows _ _ _ C) as [t Ht]. rewrite Ht in S. eapply serial_prefix; eauto. }
  assert (Q : seq s f s1). { eapply seq_reach; eauto. rewrite G in S2. eapply serial_prefix; eauto. }
  assert (D : exists e3, vhist s1 = a ++ EVisit g s f (Some v) :: e3).
  { symmetry in F. apply app_tail in F as [[b' F]|[a' [-> F]]]; [eauto|]. exfalso.
    (* the step emitted two results *)
    subst es1. apply v_inv in B as [B|[B|[B|[B|[B|[B|B]]]]]]; decompose record B; clear B; subst;
      match goal with X : vhist s2 = _ |- _ => rewrite X in G end;
      match type of G with
      | vhist s1 ++ _ = _ => apply app_inv_head in G
      | _ => rewrite <- app_nil_r in G at 1; apply app_inv_head in G
      end; (destruct a'; [try discriminate G|]); apply (f_equal (@length _)) in G; repeat (cbn in G; rewrite ?app_length in G); lia. }
  destruct D as [e3 D]. assert (V : vis s1 s f = Some v) by (eapply (q_ret _ _ _ Q); rewrite D; apply in_or_app; right; left; reflexivity).
  apply v_inv in B as [B|[B|[B|[B|[B|[B|B]]]]]]; decompose record B; clear B; subst;
      match goal with X : vhist s2 = _ |- _ => rewrite X in G end;
      match type of G with
      | vhist s1 ++ _ = _ => apply app_inv_head in G
      | _ => rewrite <- app_nil_r in G at 1; apply app_inv_head in G
      end; symmetry in G.
  all: try (symmetry in G; apply one_tail in G as (_ & G & _); discriminate G).
  - symmetry in G. apply two_tail in G as [[_ G]|[_ G]]; [discriminate|]. injection G as -> -> -> ->. congruence.
  - symmetry in G; apply one_tail in G as (_ & G & _). injection G as -> -> -> ->. exfalso. rewrite (q_miss _ _ _ Q x) in V; [discriminate|]. left; auto.
  - destruct es1; discriminate.
  - symmetry in G; apply one_tail in G as (_ & G & _). injection G as -> -> -> ->. exfalso. rewrite (q_miss _ _ _ Q x) in V; [discriminate|]. right; eauto.
Qed.

Lemma made_once ls st s f : exec vstep vinit ls = Some st -> serial s f (vhist st) ->
  forall a g m v b, vhist st = a ++ EMade g s f m (Some v) :: b -> forall g' m' v', ~ In (EMade g' s f m' v') b.
Proof.
  intros E S a g m v b H g' m' v' Hr. apply in_split in Hr as (b1 & b2 & ->).
  assert (H' : vhist st = (a ++ EMade g s f m (Some v) :: b1) ++ EMade g' s f m' v' :: b2) by (rewrite H, <- app_assoc; reflexivity).
  destruct (origin vstep vhist v_grows _ _ _ E _ _ _ H' (Nat.le_0_l _)) as (ls1 & l & ls2 & s1 & s2 & es1 & es2 & -> & A & B & C & F & G).
  assert (S2 : serial s f (vhist s2)).
  { destruct (exec_grows vstep vhist v_grows _ _ _ C) as [t Ht]. rewrite Ht in S. eapply serial_prefix; eauto. }
  assert (Q : seq s f s1). { eapply seq_reach; eauto. rewrite G in S2. eapply serial_prefix; eauto. }
  assert (X : pc s1 g' = VMiss s f /\ es1 = []).
  { apply v_inv in B as [B|[B|[B|[B|[B|[B|B]]]]]]; decompose record B; clear B; subst;
      match goal with X : vhist s2 = _ |- _ => rewrite X in G end;
      match type of G with
      | vhist s1 ++ _ = _ => apply app_inv_head in G
      | _ => rewrite <- app_nil_r in G at 1; apply app_inv_head in G
      end.
    all: try (apply one_tail in G as (-> & G & _); try discriminate G).
    - apply two_tail in G as [[_ G]|[_ G]]; discriminate.
    - injection G as -> -> -> -> ->. auto.
    - destruct es1; discriminate. }
  destruct X as [X ->]. rewrite app_nil_r in F.
  assert (D : In (EMade g s f m (Some v)) (vhist s1)) by (rewrite <- F; apply in_or_app; right; left; reflexivity).
  assert (Bz : busy s1 s f g') by (left; exact X).
  destruct (q_made _ _ _ Q _ _ _ D) as [V|V]; [rewrite (q_miss _ _ _ Q _ Bz) in V; discriminate|].
  assert (g = g') by (apply (q_one _ _ _ Q); [right; eauto|exact Bz]). subst. congruence.
Qed.

Lemma latest_in f h : latest f h <> MNil -> In (ERegister f (latest f h)) h.
Proof.
  induction h as [|e h IH] using rev_ind; [intros X; exfalso; apply X; reflexivity|]. rewrite latest_snoc. intros N. apply in_or_app.
  destruct e as [f' m| | |]; auto. destruct (zlist_eqb_spec f' f) as [->|]; auto. right. left. reflexivity.
Qed.
Lemma made_registered ls st : exec vstep vinit ls = Some st -> forall a g s f m v b, vhist st = a ++ EMade g s f m v :: b -> latest f a = MFunc m.
Proof. intros E. exact (proj1 (proj2 (proj2 (v_base _ _ E)))). Qed.
Lemma returned_made ls st : exec vstep vinit ls = Some st -> forall a g s f v b, vhist st = a ++ EVisit g s f (Some v) :: b ->
  exists a1 g' m b1, a = a1 ++ EMade g' s f m (Some v) :: b1 /\ latest f a1 = MFunc m.
Proof.
  intros E a g s f v b H. destruct (v_base _ _ E) as (_ & _ & M & R & _). destruct (R _ _ _ _ _ _ H) as (g' & m & I).
  apply in_split in I as (a1 & b1 & ->). exists a1, g', m, b1. split; auto. eapply (M a1 g' s f m (Some v)). rewrite H, <- app_assoc. reflexivity.
Qed.
Lemma nil_without_maker ls st : exec vstep vinit ls = Some st -> forall a g s f r b, vhist st = a ++ EVisit g s f r :: b ->
  (forall m, ~ In (ERegister f (MFunc m)) a) -> r = None.
Proof.
  intros E a g s f [v|] b H N; [|reflexivity]. destruct (returned_made _ _ E _ _ _ _ _ _ H) as (a1 & g' & m & b1 & -> & L).
  exfalso. apply (N m). apply in_or_app. left. rewrite <- L. apply latest_in. congruence.
Qed.
Lemma right_types_no_panic ls st : exec vstep vinit ls = Some st -> (forall f, ~ In (ERegister f MWrong) (vhist st)) -> vcrash st = false.
Proof.
  intros E N. destruct ls as [|l ls] using rev_ind; [injection E as <-; reflexivity|]. clear IHls.
  apply exec_split in E as (m & E1 & E2). cbn in E2. destruct (vstep m l) as [m'|] eqn:El; [|discriminate]. injection E2 as <-.
  destruct (v_base _ _ E1) as (_ & _ & _ & _ & L). unfold vstep in El. destruct (vcrash m); [discriminate|].
  destruct l as [f0 m0|g s f0|g v|g]; [|destruct (pc m g)..]; try discriminate.
  - injection El as <-; reflexivity.
  - destruct (vis m s f0); injection El as <-; reflexivity.
  - destruct (reg m f) eqn:R; injection El as <-; try reflexivity. exfalso. apply (N f). cbn. rewrite L in R. rewrite <- R. apply latest_in. congruence.
  - injection El as <-; reflexivity.
Qed.

(* a visit that began and did not return is in progress *)
Definition begun (g s : nat) (f : name) (h : list vev) : Prop := exists a b, h = a ++ EStart g s f :: b /\ forall r, ~ In (EVisit g s f r) b.
Lemma begun_busy ls st g s f : exec vstep vinit ls = Some st -> begun g s f (vhist st) -> busy st s f g.
Proof.
  revert st. induction ls as [|l ls IH] using rev_ind; intros st E (a & b & H & N).
  - injection E as <-. destruct a; discriminate.
  - apply exec_split in E as (m & E1 & E2). cbn in E2. destruct (vstep m l) as [m'|] eqn:El; [|discriminate]. injection E2 as <-.
    specialize (IH _ E1).
    assert (K : forall es, vhist m' = vhist m ++ es -> (~ exists b', vhist m = a ++ EStart g s f :: b') -> exists a', es = a' ++ EStart g s f :: b).
    { intros es Hes X. rewrite H in Hes. symmetry in Hes. apply app_tail in Hes as [[b' Hes]|[a' [_ Hes]]]; [exfalso; eauto|eauto]. }
    assert (K2 : forall es, vhist m' = vhist m ++ es -> (exists b', vhist m = a ++ EStart g s f :: b') -> begun g s f (vhist m) /\ forall r, ~ In (EVisit g s f r) es).
    { intros es Hes [b' X]. assert (b = b' ++ es). { rewrite X in Hes. rewrite Hes in H. rewrite <- app_assoc in H. apply app_inv_head in H. cbn in H. injection H as <-. reflexivity. }
      subst b. split; [exists a, b'; split; auto; intros r Hr|intros r Hr]; apply (N r); apply in_or_app; auto. }
    destruct (v_grows _ _ _ El) as [es Hes].
    assert (Dc : (exists b', vhist m = a ++ EStart g s f :: b') \/ ~ (exists b', vhist m = a ++ EStart g s f :: b')).
    { rewrite Hes in H. apply app_tail in H as [X|[a' [-> X]]]; auto. right. intros [b' Y]. apply (f_equal (@length _)) in Y. rewrite !app_length in Y. cbn in Y. lia. }
    destruct Dc as [Dc|Dc].
    + destruct (K2 _ Hes Dc) as [Bg Ne]. apply IH in Bg. unfold busy in *.
      apply v_inv in El as [B|[B|[B|[B|[B|[B|B]]]]]]; decompose record B; clear B; subst;
        repeat match goal with X : pc m' = _ |- _ => rewrite X; clear X | X : vhist m' = _ |- _ => rewrite X in Hes; clear X end.
      * auto.
      * auto.
      * rewrite updp_other; auto. intros ->. destruct Bg as [Bg|[? Bg]]; congruence.
      * apply app_inv_head in Hes. subst es. destruct (Nat.eq_dec g x) as [->|Nx]; [|rewrite updp_other; auto]. exfalso.
        destruct Bg as [Bg|[? Bg]]; [|congruence]. eapply Ne. left. f_equal; congruence.
      * destruct (Nat.eq_dec g x) as [->|Nx]; [|rewrite updp_other; auto]. rewrite updp_same. destruct Bg as [Bg|[? Bg]]; [|congruence].
        right. exists x2. congruence.
      * auto.
      * apply app_inv_head in Hes. subst es. destruct (Nat.eq_dec g x) as [->|Nx]; [|rewrite updp_other; auto]. exfalso.
        destruct Bg as [Bg|[? Bg]]; [congruence|]. rewrite Bg in *. eapply Ne. left. f_equal; congruence.
    + destruct (K _ Hes Dc) as [a' ->]. unfold busy.
      apply v_inv in El as [B|[B|[B|[B|[B|[B|B]]]]]]; decompose record B; clear B; subst l;
        repeat match goal with X : pc m' = _ |- _ => rewrite X; clear X | X : vhist m' = _ |- _ => rewrite X in Hes; clear X end;
        match type of Hes with
        | vhist m ++ _ = _ => apply app_inv_head in Hes
        | _ => rewrite <- app_nil_r in Hes at 1; apply app_inv_head in Hes
        end; try (apply one_tail in Hes as (_ & Hes & _); discriminate Hes).
      * exfalso. destruct a' as [|? [|? [|]]]; cbn in Hes; try discriminate. injection Hes as -> -> -> <-. eapply N. left. reflexivity.
      * apply one_tail in Hes as (_ & Hes & _). injection Hes as -> -> ->. left. apply updp_same.
      * destruct a'; discriminate.
Qed.
Lemma visit_returns ls st g s f v : exec vstep vinit ls = Some st -> (forall f, ~ In (ERegister f MWrong) (vhist st)) -> begun g s f (vhist st) ->
  exists more st' es r, length more <= 2 /\ Forall (fun l => l = LTry g v \/ l = LStore g) more /\ exec vstep st more = Some st' /\
    vhist st' = vhist st ++ es ++ [EVisit g s f r].
Proof.
  intros E N B. assert (C := right_types_no_panic _ _ E N). apply (begun_busy _ _ _ _ _ E) in B. destruct (v_base _ _ E) as (_ & _ & _ & _ & L).
  destruct B as [B|[w B]].
  - destruct (reg st f) eqn:R.
    + exists [LTry g v]. cbn. unfold vstep. rewrite C, B, R. do 3 eexists. split; [lia|]. split; [repeat constructor|]. split; [reflexivity|].
      cbn. apply (f_equal (app (vhist st))). exact (eq_refl ([] ++ [_])).
    + exists [LTry g v; LStore g]. cbn [exec]. unfold vstep at 1. rewrite C, B, R. unfold vstep. cbn [vcrash pc]. rewrite updp_same. do 3 eexists. split; [cbn; lia|].
      split; [apply Forall_cons; auto|]. split; [reflexivity|]. cbn [vhist]. rewrite <- app_assoc. reflexivity.
    + exfalso. apply (N f). rewrite L in R. rewrite <- R. apply latest_in. congruence.
  - exists [LStore g]. cbn. unfold vstep. rewrite C, B. do 3 eexists. split; [lia|]. split; [auto|]. split; [reflexivity|].
    cbn. apply (f_equal (app (vhist st))). exact (eq_refl ([] ++ [_])).
Qed.
Lemma fresh_slot_latest ls st g s f m v : exec vstep vinit ls = Some st -> vcrash st = false ->
  (forall g' m' v', ~ In (EMade g' s f m' (Some v')) (vhist st)) -> pc st g = VIdle -> latest f (vhist st) = MFunc m ->
  exists st', exec vstep st [LVisit g s f; LTry g v; LStore g] = Some st' /\ vhist st' = vhist st ++ [EStart g s f; EMade g s f m v; EVisit g s f v].
Proof.
  intros E C N I Lm. destruct (v_base _ _ E) as (_ & V & _ & _ & L).
  assert (Vn : vis st s f = None). { destruct (vis st s f) as [w|] eqn:Ew; auto. destruct (V _ _ _ Ew) as (g' & m' & X). exfalso. eapply N; eauto. }
  cbn [exec]. unfold vstep at 1. rewrite C, I, Vn. unfold vstep at 1. cbn [vcrash pc reg]. rewrite updp_same, L, Lm.
  unfold vstep. cbn [vcrash pc reg]. rewrite updp_same. eexists. split; [reflexivity|]. cbn [vhist]. rewrite <- !app_assoc. reflexivity.
Qed.

(* ---- the instance list ---- *)
Lemma waiting_snoc h e : waiting (h ++ [e]) = match e with EWait i => waiting h ++ [i] | EDestroyed _ => [] | _ => waiting h end.
Proof. unfold waiting. rewrite fold_left_app. reflexivity. Qed.
Lemma r_inv st l st' : rstep st l = Some st' -> rcrash st = false /\
  ((exists i, l = LWait i /\ insts st' = insts st ++ [i] /\ dpcs st' = dpcs st /\ rcrash st' = false /\ rhist st' = rhist st ++ [EWait i]) \/
   (exists g, l = LDestroy g /\ dpcs st g = DIdle /\ insts st' = insts st /\ dpcs st' = updp (dpcs st) g (DAt (length (insts st))) /\ rcrash st' = false /\ rhist st' = rhist st ++ [EDestroy g]) \/
   (exists g i x, l = LClose g /\ dpcs st g = DAt (S i) /\ nth_error (insts st) i = Some x /\ insts st' = insts st /\ dpcs st' = updp (dpcs st) g (DAt i) /\ rcrash st' = false /\ rhist st' = rhist st ++ [EClose g x]) \/
   (exists g i, l = LClose g /\ dpcs st g = DAt (S i) /\ nth_error (insts st) i = None /\ insts st' = insts st /\ dpcs st' = dpcs st /\ rcrash st' = true /\ rhist st' = rhist st) \/
   (exists g, l = LClose g /\ dpcs st g = DAt 0 /\ insts st' = [] /\ dpcs st' = updp (dpcs st) g DIdle /\ rcrash st' = false /\ rhist st' = rhist st ++ [EDestroyed g])).
Proof.
  unfold rstep. destruct (rcrash st); [discriminate|]. destruct l as [i|g|g].
  - intros H; injection H as <-. split; auto. left. eauto 10.
  - destruct (dpcs st g) eqn:E; [|discriminate]. intros H; injection H as <-. split; auto. right; left. eauto 10.
  - destruct (dpcs st g) as [|[|i]] eqn:E; [discriminate| |].
    + intros H; injection H as <-. split; auto. do 4 right. eauto 10.
    + destruct (nth_error (insts st) i) eqn:En; intros H; injection H as <-; split; auto; do 2 right; [left|right; left]; eauto 15.
Qed.
Lemma r_grows st l st' : rstep st l = Some st' -> exists es, rhist st' = rhist st ++ es.
Proof.
  intros H. apply r_inv in H as [_ [H|[H|[H|[H|H]]]]]; decompose record H; clear H; match goal with X : rhist st' = _ |- _ => rewrite X end; try (eexists; reflexivity).
  exists []. symmetry. apply app_nil_r.
Qed.
Definition own (g : nat) (e : rev_) : Prop := exists i, e = EClose g i.
(* a destroy in progress *)
Definition running (st : rst) : Prop := forall g i, dpcs st g = DAt i -> exists a b, rhist st = a ++ EDestroy g :: b /\
  (~ In (EDestroy g) b) /\ (~ In (EDestroyed g) b) /\ ((forall g', ~ In (EDestroyed g') b) -> i <= length (insts st)) /\
  (Forall (own g) b -> insts st = waiting a /\ i <= length (waiting a) /\ b = map (EClose g) (rev (skipn i (waiting a)))).

Lemma skipn_cons {A} (l : list A) i x : nth_error l i = Some x -> skipn i l = x :: skipn (S i) l.
Proof. revert i. induction l as [|y l IH]; intros [|i] H; try discriminate; cbn in *; [congruence|]. apply IH; exact H. Qed.
Lemma own_snoc g b e : Forall (own g) (b ++ [e]) -> Forall (own g) b /\ own g e.
Proof. rewrite Forall_app. intros [A B]. inversion_clear B. auto. Qed.

Lemma r_base ls st : exec rstep rinit ls = Some st -> insts st = waiting (rhist st) /\ running st.
Proof.
  apply (exec_inv rstep (fun st => insts st = waiting (rhist st) /\ running st)); [|split; [reflexivity|intros ? ? X; discriminate X]].
  clear. intros st l st' [W R] H. apply r_inv in H as [_ [H|[H|[H|[H|H]]]]].
  - destruct H as (i & -> & E1 & E2 & _ & E4). rewrite E1, E4. split; [rewrite waiting_snoc, W; reflexivity|].
    intros g k E. rewrite E2 in E. destruct (R _ _ E) as (a & b & A & B & C & D & F). exists a, (b ++ [EWait i]). rewrite E4, A, E1, <- app_assoc. split; [reflexivity|].
    split; [|split; [|split]].
    + rewrite in_app_iff. cbn. intuition discriminate.
    + rewrite in_app_iff. cbn. intuition discriminate.
    + intros N. rewrite app_length. cbn. assert (k <= length (insts st)); [|lia]. apply D. intros g' Hg. apply (N g'). apply in_or_app; auto.
    + intros X. apply own_snoc in X as [_ [? X]]. discriminate.
  - destruct H as (g0 & -> & I & E1 & E2 & _ & E4). rewrite E1, E4. split; [rewrite waiting_snoc, W; reflexivity|].
    intros g k E. rewrite E2 in E. unfold updp in E. destruct (Nat.eqb_spec g g0) as [->|N].
    + injection E as <-. exists (rhist st), []. rewrite E4, E1, <- W, skipn_all2 by lia. cbn. auto 10.
    + destruct (R _ _ E) as (a & b & A & B & C & D & F). exists a, (b ++ [EDestroy g0]). rewrite E4, A, E1, <- app_assoc. split; [reflexivity|].
      split; [|split; [|split]].
      * rewrite in_app_iff. cbn. intuition congruence.
      * rewrite in_app_iff. cbn. intuition discriminate.
      * intros X. apply D. intros g' Hg. apply (X g'). apply in_or_app; auto.
      * intros X. apply own_snoc in X as [_ [? X]]. discriminate.
  - destruct H as (g0 & i0 & x & -> & I & Nx & E1 & E2 & _ & E4). rewrite E1, E4. split; [rewrite waiting_snoc, W; reflexivity|].
    intros g k E. rewrite E2 in E. unfold updp in E. assert (exists k0, dpcs st g = DAt k0 /\ k <= k0 /\ (g = g0 -> k = i0 /\ k0 = S i0)) as (k0 & Ek & Le & Same).
    { destruct (Nat.eqb_spec g g0) as [->|N]; [|exists k; repeat split; auto; congruence]. injection E as <-. exists (S i0). auto. }
    destruct (R _ _ Ek) as (a & b & A & B & C & D & F). exists a, (b ++ [EClose g0 x]). rewrite E4, A, E1, <- app_assoc. split; [reflexivity|].
    split; [|split; [|split]].
    + rewrite in_app_iff. cbn. intuition discriminate.
    + rewrite in_app_iff. cbn. intuition discriminate.
    + intros X. assert (k0 <= length (insts st)); [|lia]. apply D. intros g' Hg. apply (X g'). apply in_or_app; auto.
    + intros X. apply own_snoc in X as [Xb [? Xe]]. injection Xe as <- <-. destruct (Same eq_refl) as [-> ->]. destruct (F Xb) as (F1 & F2 & F3).
      split; auto. split; [lia|]. rewrite F1 in Nx. rewrite (skipn_cons _ _ _ Nx), F3. cbn [rev]. rewrite map_app. reflexivity.
  - destruct H as (g0 & i0 & -> & I & Nx & E1 & E2 & _ & E4). unfold running. rewrite E1, E4, E2. split; [exact W|exact R].
  - destruct H as (g0 & -> & I & E1 & E2 & _ & E4). rewrite E1, E4. split; [rewrite waiting_snoc; reflexivity|].
    intros g k E. rewrite E2 in E. unfold updp in E. destruct (Nat.eqb_spec g g0) as [->|N]; [discriminate|].
    destruct (R _ _ E) as (a & b & A & B & C & D & F). exists a, (b ++ [EDestroyed g0]). rewrite E4, A, E1, <- app_assoc. split; [reflexivity|].
    split; [|split; [|split]].
    + rewrite in_app_iff. cbn. intuition discriminate.
    + rewrite in_app_iff. cbn. intuition congruence.
    + intros X. exfalso. apply (X g0). apply in_or_app. cbn. auto.
    + intros X. apply own_snoc in X as [_ [? X]]. discriminate.
Qed.

Lemma last_unique {A} (x : A) : forall a b a' b', a ++ x :: b = a' ++ x :: b' -> ~ In x b -> ~ In x b' -> a = a' /\ b = b'.
Proof.
  induction a as [|y a IH]; intros b a' b' H N N'; destruct a' as [|y' a']; cbn in H.
  - injection H as ->. auto.
  - injection H as <- ->. exfalso. apply N. apply in_or_app. right; left; reflexivity.
  - injection H as -> <-. exfalso. apply N'. apply in_or_app. right; left; reflexivity.
  - injection H as -> H. destruct (IH _ _ _ H N N') as [-> ->]. auto.
Qed.
Lemma destroy_closes ls st : exec rstep rinit ls = Some st -> forall a g b c, rhist st = a ++ EDestroy g :: b ++ EDestroyed g :: c ->
  (forall e, In e b -> exists i, e = EClose g i) -> b = map (EClose g) (rev (waiting a)).
Proof.
  intros E a g b c H O.
  assert (H' : rhist st = (a ++ EDestroy g :: b) ++ EDestroyed g :: c) by (rewrite H, <- app_assoc; reflexivity).
  destruct (origin rstep rhist r_grows _ _ _ E _ _ _ H' (Nat.le_0_l _)) as (ls1 & l & ls2 & s1 & s2 & es1 & es2 & -> & A & B & C & F & G).
  destruct (r_base _ _ A) as [_ R].
  assert (X : es1 = [] /\ dpcs s1 g = DAt 0).
  { apply r_inv in B as [_ [B|[B|[B|[B|B]]]]]; decompose record B; clear B; subst;
      match goal with X : rhist s2 = _ |- _ => rewrite X in G end;
      match type of G with
      | rhist s1 ++ _ = _ => apply app_inv_head in G
      | _ => rewrite <- app_nil_r in G at 1; apply app_inv_head in G
      end; try (apply one_tail in G as (-> & G & _); first [discriminate G|injection G as ->; auto]).
    destruct es1; discriminate. }
  destruct X as [-> X]. rewrite app_nil_r in F. destruct (R _ _ X) as (a' & b' & A1 & A2 & A3 & A4 & A5).
  assert (Nb : ~ In (EDestroy g) b) by (intros Y; destruct (O _ Y); discriminate).
  rewrite <- F in A1. destruct (last_unique _ _ _ _ _ A1 Nb A2) as [<- <-].
  destruct A5 as (_ & _ & A5); [apply Forall_forall; exact O|exact A5].
Qed.
Lemma destroy_panic ls st : exec rstep rinit ls = Some st -> rcrash st = true ->
  exists a g b g', rhist st = a ++ EDestroy g :: b /\ ~ In (EDestroyed g) b /\ In (EDestroyed g') b.
Proof.
  intros E C. destruct ls as [|l ls] using rev_ind; [injection E as <-; discriminate|]. clear IHls.
  apply exec_split in E as (m & E1 & E2). cbn in E2. destruct (rstep m l) as [m'|] eqn:El; [|discriminate]. injection E2 as <-.
  destruct (r_base _ _ E1) as [_ R]. apply r_inv in El as [_ [B|[B|[B|[B|B]]]]]; decompose record B; clear B; try congruence.
  match goal with X : dpcs m ?g = DAt (S ?i), Y : rhist m' = rhist m, Z : nth_error _ _ = None |- _ =>
    destruct (R _ _ X) as (a & b & A1 & A2 & A3 & A4 & A5); rewrite Y; exists a, g, b; apply nth_error_None in Z; rename X into Xg; rename Z into Zn end.
  assert (Dec : (exists g', In (EDestroyed g') b) \/ forall g', ~ In (EDestroyed g') b).
  { clear. induction b as [|e b [[g' IH]|IH]]; [right; intros g' []|left; exists g'; right; exact IH|].
    destruct e as [| | |g']; try (right; intros g'' [X|X]; [discriminate|exact (IH _ X)]). left. exists g'. left. reflexivity. }
  destruct Dec as [[g' Dg]|Dec]; [eauto|]. apply A4 in Dec. lia.
Qed.
Lemma close_loop g : forall i st, rcrash st = false -> dpcs st g = DAt i -> i <= length (insts st) ->
  exists st', exec rstep st (repeat (LClose g) (S i)) = Some st' /\
    rhist st' = rhist st ++ map (EClose g) (rev (firstn i (insts st))) ++ [EDestroyed g].
Proof.
  induction i as [|i IH]; intros st C D L.
  - cbn. unfold rstep. rewrite C, D. eexists. split; reflexivity.
  - change (repeat (LClose g) (S (S i))) with (LClose g :: repeat (LClose g) (S i)). cbn [exec]. unfold rstep at 1. rewrite C, D.
    destruct (nth_error (insts st) i) as [x|] eqn:E; [|apply nth_error_None in E; lia].
    destruct (IH (mkR (insts st) (updp (dpcs st) g (DAt i)) false (rhist st ++ [EClose g x]))) as (st' & E' & H'); [reflexivity|apply updp_same|cbn; lia|].
    exists st'. split; [exact E'|]. rewrite H'. cbn [rhist insts]. rewrite <- app_assoc. f_equal.
    assert (F : firstn (S i) (insts st) = firstn i (insts st) ++ [x]).
    { clear - E. revert i E. induction (insts st) as [|y l IH]; intros [|i] E; try discriminate; cbn in *; [congruence|]. f_equal. apply IH; exact E. }
    rewrite F, rev_app_distr. reflexivity.
Qed.
Lemma destroy_finishes ls st g : exec rstep rinit ls = Some st -> rcrash st = false -> dpcs st g = DIdle ->
  exists st', exec rstep st (LDestroy g :: repeat (LClose g) (S (length (waiting (rhist st))))) = Some st' /\
    rhist st' = rhist st ++ EDestroy g :: map (EClose g) (rev (waiting (rhist st))) ++ [EDestroyed g].
Proof.
  intros E C D. destruct (r_base _ _ E) as [W _]. cbn [exec]. unfold rstep at 1. rewrite C, D.
  destruct (close_loop g (length (insts st)) (mkR (insts st) (updp (dpcs st) g (DAt (length (insts st)))) false (rhist st ++ [EDestroy g]))) as (st' & E' & H');
    [reflexivity|apply updp_same|cbn; lia|]. exists st'. rewrite <- W. split; [exact E'|]. rewrite H'. cbn [rhist insts]. rewrite firstn_all, <- app_assoc. reflexivity.
Qed.

(* a check for [serial] *)
Fixpoint closes_before (s : nat) (f : name) (g : nat) (h : list vev) : bool :=
  match h with
  | [] => true
  | EVisit g' s' f' _ :: r => ((g' =? g) && (s' =? s) && zlist_eqb f' f) || closes_before s f g r
  | EStart _ s' f' :: r => negb ((s' =? s) && zlist_eqb f' f) && closes_before s f g r
  | _ :: r => closes_before s f g r
  end.
Fixpoint serialb (s : nat) (f : name) (h : list vev) : bool :=
  match h with
  | [] => true
  | EStart g s' f' :: r => (negb ((s' =? s) && zlist_eqb f' f) || closes_before s f g r) && serialb s f r
  | _ :: r => serialb s f r
  end.
Lemma closes_before_ok s f g g' b c : closes_before s f g (b ++ EStart g' s f :: c) = true -> exists r, In (EVisit g s f r) b.
Proof.
  induction b as [|e b IH]; cbn; [rewrite Nat.eqb_refl, zlist_refl; discriminate|].
  assert (K : forall P : Prop, (exists r, In (EVisit g s f r) b) -> exists r, e = EVisit g s f r \/ In (EVisit g s f r) b) by (intros _ [r H]; eauto).
  destruct e as [| |? ? ? ? ?|g0 s0 f0 r0]; intros H; try (apply (K True); auto; fail).
  - apply Bool.andb_true_iff in H as [_ H]. apply (K True); auto.
  - apply Bool.orb_true_iff in H as [H|H]; [|apply (K True); auto]. apply Bool.andb_true_iff in H as [H H3]. apply Bool.andb_true_iff in H as [H1 H2].
    apply Nat.eqb_eq in H1, H2. apply zlist_eqb_eq in H3. subst. eauto.
Qed.
Lemma serialb_ok s f h : serialb s f h = true -> serial s f h.
Proof.
  intros H a b c g g' ->. induction a as [|e a IH]; cbn in H.
  - rewrite Nat.eqb_refl, zlist_refl in H. cbn in H. apply Bool.andb_true_iff in H as [H _]. eapply closes_before_ok; eauto.
  - apply IH. destruct e; auto. apply Bool.andb_true_iff in H as [_ H]. exact H.
Qed.
