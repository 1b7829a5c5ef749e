(* Calls that wait are being looked for. *)
From Verif Require Import Lts GoVal Tables DockModel DockSpec DockProof DockProof2 DockProof3 DockProof4 SysModel SysSpec SysProof SysProof2 SysProof3 WorldModel WorldSpec WorldProof WorldProof2 WorldProof3.
From Verif Require HubModel HubSpec HubProof HubProof3.
From Coq Require Import Arith Bool List ZArith Lia.
Import ListNotations.
Open Scope nat_scope.

Section Dock.
Context {V : Type}.
Implicit Types d : dock V.
(* call c waits for its feature to be found *)
Definition pending d (c : nat) (q : request V) : Prop :=
  exists r, nth_error (calls d) c = Some r /\ c_req r = Some q /\ (c_pc r <> CPut /\ c_pc r <> CSet) /\ zget (rpcs d) (q_index q) = Some c.
(* a receive routine is about to commit call c, whose identifier is x *)
Definition stage (f : name) (c : nat) (x : Z) (h : hpc) : Prop :=
  match h with
  | RNext sl => In f sl
  | RIter g sl todo => In f sl \/ (g = f /\ In x todo)
  | RTested g sl todo c' | RCommit g sl todo c' => In f sl \/ (g = f /\ (In x todo \/ c' = c))
  | _ => False
  end.
Lemma zget_zput l k v x : zget (zput l k v) x = if (k =? x)%Z then Some v else zget l x.
Proof.
  induction l as [|[y w] l IH]; cbn; [reflexivity|]. destruct (Z.eqb_spec y k) as [->|N]; cbn.
  - destruct (k =? x)%Z; reflexivity.
  - destruct (Z.eqb_spec y x) as [->|N']; [|exact IH]. destruct (Z.eqb_spec k x); congruence.
Qed.
Lemma zget_zdel l k x c : zget (zdel l k) x = Some c -> zget l x = Some c.
Proof.
  induction l as [|[y w] l IH]; cbn; [discriminate|]. destruct (Z.eqb_spec y k) as [->|N]; cbn.
  - intros H. destruct (Z.eqb_spec k x) as [->|]; auto. exfalso. clear - H. induction l as [|[y w'] l IH]; cbn in H; [discriminate|].
    destruct (Z.eqb_spec y x) as [->|N]; cbn in H; auto. destruct (Z.eqb_spec y x); auto.
  - destruct (y =? x)%Z; auto.
Qed.
Lemma zget_key l x c : zget l x = Some c -> In x (map fst l).
Proof. induction l as [|[y w] l IH]; cbn; [discriminate|]. destruct (Z.eqb_spec y x); auto. Qed.

Lemma pend_step d l d' es c q : tr V d l d' -> hist d' = hist d ++ es -> state d' = Alive -> pending d' c q ->
  pending d c q \/ exists k, In (EQuery k (q_slot q)) es.
Proof.
  intros T G A (r & Hr & Hq & Hp & Hz). unfold pending.
  destruct T; proj; try discriminate; try (left; exists r; repeat split; tauto);
    try (apply set_nth_case in Hr as [[-> ->]|[N Hr]]; cbn [c_req c_pc] in *; [|left; exists r; repeat split; tauto]).
  - discriminate.
  - rewrite zget_zput in Hz. apply nth_snoc in Hr as [Hr|[-> ->]]; [|cbn in Hp; tauto].
    destruct (clock =? q_index q)%Z; [injection Hz as <-; apply nth_lt in Hr; lia|]. left. exists r. repeat split; tauto.
  - cbn in Hp. tauto.
  - discriminate.
  - apply app_inv_head in G. subst es. assert (q = q0) as -> by congruence. right. exists k. now left.
  - left. exists r0. repeat split; auto; congruence.
  - left. exists r0. repeat split; auto; congruence.
  - left. exists r0. repeat split; tauto.
  - left. exists r. repeat split; try tauto. eapply zget_zdel; eauto.
Qed.
Lemma stage_step d l d' es c q p : tr V d l d' -> hist d' = hist d ++ es -> state d' = Alive -> pending d c q -> pending d' c q ->
  stage (q_slot q) c (q_index q) (handlers d p) -> stage (q_slot q) c (q_index q) (handlers d' p) \/ exists k, In (EQuery k (q_slot q)) es.
Proof.
  intros T G A (r & Hr & Hq & Hp & Hz) (r' & Hr' & Hq' & _ & _) S.
  assert (F : forall i todo, i <> q_index q -> In (q_index q) todo -> In (q_index q) (filter (fun k => negb (k =? i)%Z) todo)).
  { intros i todo N K. apply filter_In. split; auto. destruct (Z.eqb_spec (q_index q) i); auto; congruence. }
  assert (U : forall p0 x, handlers d' = updp (handlers d) p0 x -> (p = p0 -> stage (q_slot q) c (q_index q) x \/ exists k, In (EQuery k (q_slot q)) es) ->
    stage (q_slot q) c (q_index q) (handlers d' p) \/ exists k, In (EQuery k (q_slot q)) es).
  { intros p0 x E X. rewrite E. unfold updp. destruct (Nat.eqb_spec p p0) as [->|]; auto. }
  destruct T; proj; try discriminate; auto; (eapply U; [reflexivity|]; intros ->);
    match goal with H : handlers _ _ = _ |- _ => rewrite H in S end; cbn [stage] in S; try contradiction.
  - destruct S as [->|S]; left; cbn; auto. right. split; auto. eapply zget_key; eauto.
  - destruct S as [S|[_ []]]. left. exact S.
  - left. cbn. destruct S as [S|[-> S]]; auto. right. split; auto. apply F; auto. intros ->. congruence.
  - left. cbn. destruct S as [S|[-> S]]; auto. right. split; auto. apply F; auto. intros ->. congruence.
  - left. cbn. destruct S as [S|[-> S]]; auto. right. split; auto. destruct (Z.eq_dec i (q_index q)) as [->|N]; [right; congruence|left; auto].
  - left. cbn. exact S.
  - left. cbn. destruct S as [S|[-> [S| ->]]]; auto. exfalso. congruence.
  - left. cbn. destruct S as [S|[-> [S| ->]]]; auto. exfalso. rewrite set_nth_same in Hr' by (eapply nth_lt; eauto). injection Hr' as <-. discriminate.
  - destruct S as [S|[-> [S| ->]]]; [left; cbn; auto|left; cbn; auto|]. right. apply app_inv_head in G. subst es. exists k. left. congruence.
  - left. cbn. destruct S as [S|[-> [S| ->]]]; auto. exfalso. congruence.
Qed.

(* the other stages *)
Lemma dial_step d l d' p a : tr V d l d' -> state d' = Alive -> handlers d p = ADial a -> handlers d' p = ADial a \/ l = HNet p true.
Proof.
  intros T A H. destruct T; proj; try discriminate; auto; unfold updp; destruct (Nat.eqb_spec p p0) as [->|]; auto; congruence.
Qed.
Lemma gsend_step d l d' es p sl : tr V d l d' -> hist d' = hist d ++ es -> handlers d p = GSend sl ->
  handlers d' p = GSend sl \/ exists ns acc, l = HSend p ns acc /\ In (ESend p (KReady ns) acc) es /\ reorders ns (collected d) = true.
Proof.
  intros T G H. destruct T; proj; auto; unfold updp; destruct (Nat.eqb_spec p p0) as [->|]; auto; try congruence.
  right. apply app_inv_head in G. subst es. exists ns, acc. repeat split; auto. now left.
Qed.
Lemma announce_step d l d' es p : tr V d l d' -> hist d' = hist d ++ es -> In (p, false) (announcers d) ->
  In (p, false) (announcers d') \/ exists ns acc, In (ESend p (KRegister ns) acc) es.
Proof.
  intros T G H. destruct T; proj; auto.
  - left. apply in_or_app. auto.
  - apply In_nth_error in H as [m Hm]. destruct (Nat.eq_dec m j) as [->|N].
    + right. apply app_inv_head in G. subst es. assert (p0 = p) as -> by congruence. exists ns, acc. now left.
    + left. eapply nth_error_In. rewrite set_nth_other; eauto.
Qed.
End Dock.

Section P.
Context {V : Type}.
Variables (carried : nat -> list (name * bool)).
Variable carry : nat -> nat -> list V -> option (list V).
Variables (black : list Z) (raddr : nat -> name).
Notation sys := (SysModel.sys V).
Notation wstep := (wstep carry black raddr).
Notation view := (@view V carry black raddr).
Notation leads := (leads carried raddr).
Implicit Types w : world V.

Definition meeting (s : sys) (i p j q : nat) (f : name) : Prop :=
  In (p, false) (announcers (sd s i)) \/ (exists ns, In (KRegister ns) (wire s j q)) \/ (exists sl, handlers (sd s j) q = GSend sl) \/
  (exists ns, In (KReady ns) (wire s i p) /\ In f ns).
Inductive seeking (E : nat -> nat -> wend) (L : list (nat * Z)) (s : sys) (i : nat) (f : name) : Prop :=
| sk_asked : In (HubModel.PQuery f) (hwire s i) -> seeking E L s i f
| sk_query t : (HubModel.queries (sh s) t = HubModel.QFetch i f \/ exists k, HubModel.queries (sh s) t = HubModel.QLook i f k) -> seeking E L s i f
| sk_address a : In (KAddress a) (wire s i 0) -> leads L a f -> seeking E L s i f
| sk_dial p a : handlers (sd s i) p = ADial a -> leads L a f -> seeking E L s i f
| sk_joined p j q : E i p = ToDock j q -> carries (carried j) f true -> meeting s i p j q f -> seeking E L s i f.
Definition sought E L (s : sys) i (c : nat) (q : request V) : Prop :=
  seeking E L s i (q_slot q) \/ exists p, stage (q_slot q) c (q_index q) (handlers (sd s i) p).

Lemma seek_dock E L s b l es s' i f : wired E hub_end -> dmove carry E s b l es s' -> healthy s' ->
  (forall q ns acc, l = HSend q ns acc -> forall f, carries (carried b) f true -> In f (collected (sd s b))) ->
  seeking E L s i f -> seeking E L s' i f \/ (b = i /\ exists p sl, handlers (sd s' i) p = RNext sl /\ In f sl) \/
    (b = i /\ exists p a, l = HNet p true /\ handlers (sd s i) p = ADial a /\ leads L a f).
Proof.
  intros W M H C S. assert (T := dm_tr _ _ _ _ _ _ _ M). assert (G := dm_hist _ _ _ _ _ _ _ M).
  assert (Acc : forall p k acc, In (ESend p k acc) es -> acc = true).
  { intros p k [] I; auto. exfalso. apply (h_taken _ H b p k). rewrite G. apply in_or_app. auto. }
  destruct S as [K|t K|a K Ld|p a K Ld|p j q Le Cf K].
  - left. apply sk_asked. eapply dm_hwire; eauto.
  - left. apply sk_query with t. rewrite (dm_hub _ _ _ _ _ _ _ M). auto.
  - destruct (dm_wire _ _ _ _ _ _ _ M _ _ _ K) as [K'|[-> ->]]; [left; eapply sk_address; eauto|].
    left. apply sk_dial with 0 a; auto. inversion T; subst; proj; [now rewrite updp_same|contradiction].
  - destruct (Nat.eq_dec i b) as [->|N]; [|left; apply sk_dial with p a; auto; rewrite (dm_other _ _ _ _ _ _ _ M); auto].
    destruct (dial_step _ _ _ _ _ T (h_alive _ H b) K) as [K'|K']; [left; eapply sk_dial; eauto|]. right. right. split; auto. exists p, a. auto.
  - assert (Done : meeting s' i p j q f -> seeking E L s' i f) by (intros; eapply sk_joined; eauto).
    destruct K as [K|[[ns K]|[[sl K]|(ns & K & Kf)]]].
    + left. apply Done. destruct (Nat.eq_dec i b) as [->|N]; [|left; rewrite (dm_other _ _ _ _ _ _ _ M); auto].
      destruct (announce_step _ _ _ _ _ T G K) as [K'|(ns & acc & K')]; [now left|]. assert (acc = true) as -> by eauto.
      right. left. exists ns. eapply dm_sent; eauto.
    + left. apply Done. destruct (dm_wire _ _ _ _ _ _ _ M _ _ _ K) as [K'|[-> ->]]; [right; left; eauto|].
      right. right. left. exists ns. inversion T; subst; proj; [now rewrite updp_same|contradiction].
    + left. apply Done. destruct (Nat.eq_dec j b) as [->|N]; [|right; right; left; exists sl; rewrite (dm_other _ _ _ _ _ _ _ M); auto].
      destruct (gsend_step _ _ _ _ _ _ T G K) as [K'|(ns & acc & -> & K' & R)]; [right; right; left; eauto|]. assert (acc = true) as -> by eauto.
      right. right. right. exists ns. split; [apply (dm_sent _ _ _ _ _ _ _ M q (KReady ns) i p (KReady ns) K'); [apply W, Le|reflexivity]|].
      apply reorders_perm in R. eapply Permutation.Permutation_in; [symmetry; exact R|]. eauto.
    + destruct (dm_wire _ _ _ _ _ _ _ M _ _ _ K) as [K'|[-> ->]]; [left; apply Done; right; right; right; eauto|].
      right. left. split; auto. exists p, ns. split; auto. inversion T; subst; proj; [now rewrite updp_same|contradiction].
Qed.
Lemma sought_dock E L s b l es s' : wired E hub_end -> dmove carry E s b l es s' -> healthy s' ->
  (forall q ns acc, l = HSend q ns acc -> forall f, carries (carried b) f true -> In f (collected (sd s b))) ->
  (forall i c q, pending (sd s i) c q -> sought E L s i c q) ->
  forall i c q, pending (sd s' i) c q -> sought E L s' i c q \/ (b = i /\ exists p a, l = HNet p true /\ handlers (sd s i) p = ADial a /\ leads L a (q_slot q)).
Proof.
  intros W M H C I i c q P. assert (T := dm_tr _ _ _ _ _ _ _ M). assert (G := dm_hist _ _ _ _ _ _ _ M).
  assert (Q : b = i -> (exists k, In (EQuery k (q_slot q)) es) -> sought E L s' i c q).
  { intros -> [k K]. left. apply sk_asked. eapply dm_asked; eauto. rewrite <- (h_asked _ H i k (q_slot q)); auto. rewrite G. apply in_or_app. auto. }
  assert (Old : pending (sd s i) c q \/ (b = i /\ exists k, In (EQuery k (q_slot q)) es)).
  { destruct (Nat.eq_dec i b) as [->|N]; [|left; rewrite (dm_other _ _ _ _ _ _ _ M) in P; auto].
    destruct (pend_step _ _ _ _ _ _ T G (h_alive _ H b) P); auto. }
  destruct Old as [Old|[Eb Old]]; [|left; auto].
  destruct (I _ _ _ Old) as [S|[p S]].
  - destruct (seek_dock _ _ _ _ _ _ _ _ _ W M H C S) as [S'|[(_ & p & sl & Hp & Hf)|X]]; [left; left; auto| |auto].
    left. right. exists p. rewrite Hp. exact Hf.
  - left. destruct (Nat.eq_dec i b) as [->|N]; [|right; exists p; rewrite (dm_other _ _ _ _ _ _ _ M); auto].
    destruct (stage_step _ _ _ _ _ _ _ T G (h_alive _ H b) Old P S) as [S'|S']; [right; eauto|auto].
Qed.
Lemma seek_hub E L s l es s' i f : HubProof3.qinv raddr (sh s) -> hmove black raddr s l es s' ->
  (forall t i f k host n, In (HubModel.EAnswer t i f k host n) (HubModel.hist (sh s')) -> leads L (hostport host n) f) ->
  seeking E L s i f -> seeking E L s' i f.
Proof.
  intros Qi M An S. assert (St := hm_step _ _ _ _ _ _ M). assert (Ed := hm_docks _ _ _ _ _ _ M).
  destruct S as [K|t K|a K Ld|p a K Ld|p j q Le Cf K].
  - destruct (hm_hwire _ _ _ _ _ _ M _ _ K) as [K'| ->]; [apply sk_asked; auto|]. apply sk_query with (length (HubModel.hist (sh s))). left.
    unfold HubModel.hstep in St. destruct (HubModel.halted (sh s)); [discriminate|]. destruct (HubModel.handlers (sh s) i); try discriminate. injection St as <-. cbn. now rewrite updp_same.
  - assert (N : HubModel.queries (sh s) t <> HubModel.QNone) by (destruct K as [K|[k K]]; congruence).
    assert (X : l = HubModel.QStep t \/ forall u, l = HubModel.QStep u -> u <> t).
    { destruct l; try (right; intros; discriminate). destruct (Nat.eq_dec t0 t) as [->|]; [now left|right; congruence]. }
    destruct X as [->|X]; [|apply sk_query with t; rewrite (HubProof3.others_step _ _ _ _ _ _ Qi N St X); auto].
    assert (Hh := hm_hist _ _ _ _ _ _ M). unfold HubModel.hstep in St. destruct (HubModel.halted (sh s)); [discriminate|].
    destruct K as [K|[k K]]; rewrite K in St.
    + injection St as St. apply sk_query with t. rewrite <- St. cbn. destruct (HubModel.docks (sh s) f); [left; auto|right]. cbn. rewrite updp_same. eauto.
    + destruct (nth_error (HubModel.docks (sh s) f) k) as [st|]; [|discriminate]. destruct (HubModel.st_ready st); injection St as St.
      * assert (Ia : In (HubModel.EAnswer t i f k (HubModel.st_host st) (HubModel.st_port st)) es).
        { rewrite <- St in Hh. cbn in Hh. apply app_inv_head in Hh. rewrite <- Hh. now left. }
        eapply sk_address; [eapply hm_answer; eauto|]. eapply An. rewrite Hh. apply in_or_app. eauto.
      * apply sk_query with t. rewrite <- St. cbn. rewrite updp_same. destruct k; eauto.
  - eapply sk_address; eauto. eapply hm_wire; eauto.
  - eapply sk_dial; eauto. rewrite Ed. eauto.
  - eapply sk_joined; eauto. unfold meeting in *. rewrite Ed. destruct K as [K|[[ns K]|[K|(ns & K & Kf)]]]; auto.
    + right. left. exists ns. eapply hm_wire; eauto.
    + right. right. right. exists ns. split; auto. eapply hm_wire; eauto.
Qed.
Lemma leads_more L L' a f : incl L L' -> leads L a f -> leads L' a f.
Proof. intros I (j & n & K & X). exists j, n. auto. Qed.
Lemma sought_more E E' L L' s i c q : extends E' E -> incl L L' -> sought E L s i c q -> sought E' L' s i c q.
Proof.
  intros X I [[K|t K|a K Ld|p a K Ld|p j r Le Cf K]|S]; [left|left|left|left|left|right; auto].
  - apply sk_asked; auto.
  - eapply sk_query; eauto.
  - eapply sk_address; eauto using leads_more.
  - eapply sk_dial; eauto using leads_more.
  - eapply sk_joined; eauto. rewrite X; congruence.
Qed.

Notation run ls w := (exec wstep (winit carried) ls = Some w).
Lemma run_collected ls w : run ls w -> healthy (ws w) -> forall b f, carries (carried b) f true -> In f (collected (sd (ws w) b)).
Proof.
  intros R H b f C. destruct (docks_run _ _ _ _ _ _ _ _ (run_ok _ _ _ _ _ _ R) b) as [ls0 L0]. pose proof (slots_inv _ _ _ L0) as [[_ S]|[S _]].
  - unfold collected. rewrite S. destruct (collected_spec (carried b) _ (Permutation.Permutation_refl _)) as [_ X]. apply X, C.
  - exfalso. eapply h_open; eauto.
Qed.
Lemma all_sought ls w : run ls w -> nothing_lost ls -> healthy (ws w) -> forall i c q, pending (sd (ws w) i) c q -> sought (ends w) (listeners w) (ws w) i c q.
Proof.
  revert ls w. apply (run_ind carried carry black raddr (fun ls w => nothing_lost ls -> healthy (ws w) -> forall i c q, pending (sd (ws w) i) c q -> sought (ends w) (listeners w) (ws w) i c q)).
  - intros _ _ i c q (r & Hr & _). cbn in Hr. destruct c; discriminate.
  - intros ls w l w' R Wi IH R' X Nl H. assert (Hb := view_back _ _ _ _ _ _ X H).
    assert (Nl0 : nothing_lost ls) by (intros k K; apply Nl, in_or_app; auto). specialize (IH Nl0 Hb). assert (Co := run_collected _ _ R Hb).
    assert (W := wi_wired _ Wi). assert (Nl1 := Nl l ltac:(apply in_or_app; right; now left)).
    inversion X as [i0 l0 es w1 M E1 E2 E3 E4 Nn wl Hwl|i0 p k es w1 M E1 E2 E3 E4|i0 p n es w1 M E1 E2 E3 Hh Pf E4|i0 p es w1 M E1 E2 E3 E4 E5|l0 es w1 M E1 E2 E3 E4 wl Hwl
      |i0 es1 es2 s1 w1 M1 M2 E1 E2 E3 E4|i0 p j n a es1 es2 s1 s2 M1 M2 Hh Ha Hl|w1 E1 E2 E3 E4 E5 E6 wl Hwl]; subst.
    + intros i c q P. rewrite E1, E4. destruct (sought_dock _ _ _ _ _ _ _ W M H (fun _ _ _ _ => Co i0) IH i c q P) as [Y|(_ & p & a & -> & _)]; auto. contradiction.
    + intros i c q P. rewrite E1, E4. destruct (sought_dock _ _ _ _ _ _ _ W M H (fun _ _ _ _ => Co i0) IH i c q P) as [Y|(_ & p' & a & E & _)]; auto. discriminate.
    + intros i c q P. rewrite E1. apply (sought_more (ends w) _ (listeners w)); [apply extends_refl|rewrite E4; apply incl_appl, incl_refl|].
      destruct (sought_dock _ _ _ _ _ _ _ W M H (fun _ _ _ _ => Co i0) IH i c q P) as [Y|(-> & p' & a & E & Ha & _)]; auto. injection E as <-. congruence.
    + intros i c q P. rewrite E1, E5. destruct (sought_dock _ _ _ _ _ _ _ W M H (fun _ _ _ _ => Co i0) IH i c q P) as [Y|(_ & p' & a & E & _)]; auto. discriminate.
    + intros i c q P. rewrite E1, E4. rewrite (hm_docks _ _ _ _ _ _ M) in P. destruct (IH _ _ _ P) as [S|S].
      * left. eapply seek_hub; eauto.
        -- destruct (hub_runs _ _ _ _ _ _ _ _ (run_ok _ _ _ _ _ _ R)) as [lh Lh]. apply HubProof3.qinv_exec in Lh. tauto.
        -- intros. rewrite <- E4. eapply answer_leads; eauto.
      * right. rewrite (hm_docks _ _ _ _ _ _ M). exact S.
    + intros i c q P. rewrite E1, E4.
      assert (H1 : healthy s1) by (eapply dmove_back; eauto).
      assert (I1 : forall i c q, pending (sd s1 i) c q -> sought (ends w) (listeners w) s1 i c q).
      { intros i1 c1 q1 P1. destruct (sought_dock _ _ _ _ _ _ _ W M1 H1 (fun _ _ _ _ => Co i0) IH i1 c1 q1 P1) as [Y|(_ & p' & a & E & _)]; auto. discriminate. }
      destruct (sought_dock _ _ _ _ _ _ _ W M2 H ltac:(discriminate) I1 i c q P) as [Y|(_ & p' & a & E & _)]; auto. discriminate.
    + intros i c q P. cbn [ws with_sys] in *.
      assert (H1 : healthy s1) by (eapply dmove_back; eauto).
      destruct (join_inv carried carry raddr i0 j w Wi) as (Ex & _). destruct (join_ends carried carry raddr i0 j w Wi) as (_ & _ & _ & Ej & _).
      change (ends (with_sys s2 (join i0 j w))) with (ends (join i0 j w)). change (listeners (with_sys s2 (join i0 j w))) with (listeners w).
      assert (T2 := dm_tr _ _ _ _ _ _ _ M2).
      assert (Id : pending (sd s1 i) c q).
      { destruct (Nat.eq_dec i i0) as [->|N]; [|rewrite <- (dm_other _ _ _ _ _ _ _ M2); auto]. inversion T2. rewrite <- H3 in P. exact P. }
      destruct (sought_dock _ _ _ _ _ _ _ W M1 H1 (fun _ _ _ _ => Co i0) IH i c q Id) as [Y|(-> & p' & a & E & Ha & Ld)].
      * apply (sought_more (ends w) _ (listeners w)); [exact Ex|apply incl_refl|]. destruct Y as [Y|[r Y]].
        -- destruct (seek_dock _ _ _ _ _ _ _ _ _ W M2 H ltac:(discriminate) Y) as [Y'|[(_ & r & sl & Hr & Hf)|(_ & r & a & E & _)]]; [left; auto| |discriminate].
           right. exists r. rewrite Hr. exact Hf.
        -- right. exists r. destruct (Nat.eq_dec i i0) as [->|N]; [|rewrite (dm_other _ _ _ _ _ _ _ M2); auto]. inversion T2. exact Y.
      * injection E as <-. assert (a = hostport (machine raddr j) n) by congruence. left. eapply sk_joined; [exact Ej| |].
        -- eapply leads_to; [exact R|exact Hb|exact Ld|exact H0|exact Hl].
        -- left. inversion T2. proj. apply in_or_app. right. now left.
    + destruct l; contradiction.
Qed.
End P.
