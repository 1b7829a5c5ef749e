(* Lemmas for chancall: serial execution, own answers, timing. *)
From Verif Require Import Lts GoInt GoFloat ChanModel ChanSpec ChanProof.
From Coq Require Import Arith Bool.
Open Scope nat_scope.

Section Proof.
Context {O V : Type} (T : target O V).
Implicit Types (s : chan O V).

(* --- what the history says about a request --- *)
Definition issue_of s (r : nat) : event V :=
  EIssue r (rq_gor (reqs s r)) (rq_caller (reqs s r)) (rq_method (reqs s r)) (rq_args (reqs s r)).
Record issues s : Prop := {
  i_in : forall r, r < nreqs s -> In (issue_of s r) (hist s);
  i_only : forall r g c m args, In (EIssue r g c m args) (hist s) -> r < nreqs s /\ EIssue r g c m args = issue_of s r }.
Lemma issues_step s l s' : bounded s -> issues s -> cstep T s l = Some s' -> issues s'.
Proof.
  intros B [I1 I2] H. unfold issue_of in *.
  destruct l; steps H; constructor; unfold issue_of; proj; auto.
  all: setoid_rewrite in_app_iff || idtac.
  all: try (intros x Hx; left; apply I1; exact Hx).
  all: try (intros x ? ? ? ? [Hx|[Hx|[]]]; [|discriminate Hx]; apply I2; exact Hx).
  (* flags of requests *)
  all: try (intros x Hx; unfold upd; match goal with |- context [x =? ?y] => destruct (Nat.eqb_spec x y) end; [subst; proj|]; apply I1; exact Hx).
  all: try (intros x g c m args Hx; destruct (I2 _ _ _ _ _ Hx) as [A D]; split; [exact A|]; unfold upd; match goal with |- context [x =? ?y] => destruct (Nat.eqb_spec x y) end; [subst; proj|]; exact D).
  - intros x Hx. unfold upd. destruct (Nat.eqb_spec x (nreqs s)).
    + subst. proj. right. left. reflexivity.
    + left. apply I1. lia.
  - intros x g0 c0 m0 args0 Hx. destruct Hx as [Hx|[Hx|[]]].
    + destruct (I2 _ _ _ _ _ Hx) as [A D]. split; [lia|]. rewrite upd_other by lia. exact D.
    + injection Hx as <- <- <- <- <-. split; [lia|]. rewrite upd_same. reflexivity.
Qed.
Lemma issues_init o : issues (new_chan o : chan O V).
Proof. constructor; cbn; intros; [lia|tauto]. Qed.

(* --- C26 --- *)
Lemma serial_app (h1 h2 : list (event V)) c : serial c (h1 ++ h2) = match serial c h1 with Some c' => serial c' h2 | None => None end.
Proof.
  revert c. induction h1 as [|e h IH]; intros c; [reflexivity|].
  destruct e; cbn; auto; destruct c; auto. destruct (_ =? _); auto.
Qed.
Definition running s : option nat := match handler s with HRun r => Some r | _ => None end.
Definition cur_list (c : option nat) : list nat := match c with Some r => [r] | None => [] end.
Record serialised s : Prop := {
  se_serial : serial None (hist s) = Some (running s);
  se_started : started (hist s) = map fst (ended (hist s)) ++ cur_list (running s) }.
Lemma serialised_step s l s' : serialised s -> cstep T s l = Some s' -> serialised s'.
Proof.
  intros [S1 S2] H. unfold running in *.
  destruct l; steps H; constructor; unfold running; proj; auto.
  all: rewrite ?serial_app, ?started_app, ?ended_app, ?S1, ?S2; cbn [serial started ended flat_map map app fst]; rewrite ?app_nil_r.
  all: repeat match goal with E : handler _ = _ |- _ => rewrite E in * end; cbn [cur_list] in *; rewrite ?Nat.eqb_refl, ?app_nil_r, ?map_app in *; cbn [map fst app]; auto.
Qed.
Lemma serialised_init o : serialised (new_chan o : chan O V).
Proof. constructor; reflexivity. Qed.

Lemma replay_mono h h' o l o' : replay T h o l o' -> replay T (h ++ h') o l o'.
Proof. induction 1; econstructor; eauto; rewrite in_app_iff; eauto. Qed.
Lemma replay_app h o l o' : replay T h o l o' -> forall l2 o2, replay T h o' l2 o2 -> replay T h o (l ++ l2) o2.
Proof. induction 1; intros; cbn [app]; [assumption|eapply replay_known; eauto|eapply replay_unknown; eauto]. Qed.

Definition replayed (o : O) s : Prop := replay T (hist s) o (ended (hist s)) (object s).
Lemma replayed_step o s l s' : bounded s -> issues s -> replayed o s -> cstep T s l = Some s' -> replayed o s'.
Proof.
  intros B [I1 _] R H. unfold replayed in *. pose proof (b_handler _ B) as B2.
  destruct l; steps H; auto.
  all: rewrite ?ended_app; cbn [ended flat_map app]; rewrite ?app_nil_r; auto using replay_mono.
  all: eapply replay_app; [apply replay_mono; exact R|].
  all: rewrite ?E0 in *; specialize (I1 _ (B2 _ (or_introl eq_refl))); unfold issue_of in I1.
  destruct (known T (rq_method (reqs s r))) eqn:K.
  - eapply replay_known; [rewrite in_app_iff; left; exact I1|exact K| |constructor]. congruence.
  - injection E1 as <- <-. eapply replay_unknown; [rewrite in_app_iff; left; exact I1|exact K|constructor].
Qed.

Definition whole (o : O) s : Prop := good s /\ issues s /\ serialised s /\ replayed o s.
Lemma whole_exec o ls s : exec (cstep T) (new_chan o) ls = Some s -> whole o s.
Proof.
  apply exec_inv with (I := whole o).
  - intros a l b (G & I & Se & R) H. destruct G as (B & F & L).
    split; [exact (good_step T a l b (conj B (conj F L)) H)|].
    split; [exact (issues_step _ _ _ B I H)|]. split; [exact (serialised_step _ _ _ Se H)|exact (replayed_step _ _ _ _ B I R H)].
  - split; [apply good_init|]. split; [apply issues_init|]. split; [apply serialised_init|constructor].
Qed.

Lemma serial_execution o ls s : exec (cstep T) (new_chan o) ls = Some s ->
  exists cur, serial None (hist s) = Some cur /\ started (hist s) = map fst (ended (hist s)) ++ match cur with Some r => [r] | None => [] end.
Proof. intros H. destruct (whole_exec _ _ _ H) as (_ & _ & [S1 S2] & _). exists (running s). split; assumption. Qed.
Lemma arrival_order o ls s : exec (cstep T) (new_chan o) ls = Some s ->
  exists rest, enqueued (hist s) = started (hist s) ++ rest /\ NoDup (enqueued (hist s)).
Proof. intros H. destruct (whole_exec _ _ _ H) as ((_ & F & _) & _). exists (queue s). split; apply F. Qed.
Lemma replay_exec o ls s : exec (cstep T) (new_chan o) ls = Some s -> replay T (hist s) o (ended (hist s)) (object s).
Proof. intros H. apply (whole_exec _ _ _ H). Qed.
Lemma one_issue o ls s r g c m args g' c' m' args' : exec (cstep T) (new_chan o) ls = Some s ->
  In (EIssue r g c m args) (hist s) -> In (EIssue r g' c' m' args') (hist s) ->
  g = g' /\ c = c' /\ m = m' /\ args = args'.
Proof.
  intros H A D. destruct (whole_exec _ _ _ H) as (_ & [_ I] & _).
  apply I in A, D. destruct A as [_ A], D as [_ D]. rewrite <- D in A. injection A. intuition.
Qed.

(* --- C27 --- *)
Definition hres (h : hpoint V) : option (nat * list V) :=
  match h with HResult r l | HLocked r l | HSet r l | HSend r l => Some (r, l) | _ => None end.
Record paid s : Prop := {
  p_handler : forall r l, hres (handler s) = Some (r, l) -> In (EEnd r l) (hist s);
  p_answer : forall r a t, In (ERespond r a t) (hist s) -> r < nreqs s /\
    match a with AResult l => In (EEnd r l) (hist s) | ATimeout m => m = rq_method (reqs s r) end }.
Lemma paid_step s l s' : bounded s -> paid s -> cstep T s l = Some s' -> paid s'.
Proof.
  intros B [P1 P2] H. pose proof (b_handler _ B) as B2. pose proof (b_timer _ B) as B3.
  destruct l; steps H; constructor; proj.
  all: repeat match goal with E : handler _ = _ |- _ => rewrite E in *; clear E end; cbn [hres href] in *; auto.
  all: try (intros x y Hx; discriminate Hx).
  all: try (intros x y Hx; rewrite in_app_iff; left; apply P1; exact Hx).
  all: try (intros x y Hx; injection Hx as <- <-; rewrite in_app_iff; right; left; reflexivity).
  all: try (intros x y Hx; injection Hx as <- <-; apply P1; reflexivity).
  (* answers *)
  all: intros x y z Hx; rewrite ?in_app_iff in *; try (destruct Hx as [Hx|[Hx|[]]]; [|discriminate Hx]).
  all: try (destruct (P2 _ _ _ Hx) as [A D]; split; [lia|]; destruct y; [rewrite ?in_app_iff; auto; fail|]).
  all: try (unfold upd; match goal with |- context [?yy =? ?n] => destruct (Nat.eqb_spec yy n) end; [subst|]; proj; auto; fail).
  all: try exact D.
  all: try (unfold upd; match goal with |- context [?yy =? ?n] => destruct (Nat.eqb_spec yy n) end; [lia|exact D]).
  all: destruct Hx as [Hx|[Hx|[]]]; [destruct (P2 _ _ _ Hx) as [A D]; split; [exact A|]; destruct y; [rewrite ?in_app_iff; auto|exact D]|].
  all: injection Hx as <- <- <-.
  - split; [apply B2; left; reflexivity|]. rewrite in_app_iff. left. apply P1. reflexivity.
  - split; [apply B3; rewrite E0; discriminate|]. reflexivity.
Qed.
Lemma paid_init o : paid (new_chan o : chan O V).
Proof. constructor; cbn; intros; [discriminate|tauto]. Qed.

Definition active s (g : nat) : option nat := match gor s g with GIdle => None | GSending r => Some r | GWaiting r => Some r end.
Record own s : Prop := {
  o_excl : forall g g' r r', active s g = Some r -> active s g' = Some r' -> rq_caller (reqs s r) = rq_caller (reqs s r') -> g = g';
  o_open : forall r, r < nreqs s -> answers r (hist s) = [] -> active s (rq_gor (reqs s r)) = Some r;
  o_chan : forall c o a, In (o, a) (responses s c) -> rq_caller (reqs s o) = c /\ gor s (rq_gor (reqs s o)) = GWaiting o /\ In a (answers o (hist s));
  o_cap : forall c, length (responses s c) <= 1;
  o_return : forall g r o a, In (EReturn g r o a) (hist s) -> o = r /\ r < nreqs s /\ rq_gor (reqs s r) = g /\ In a (answers r (hist s)) }.

(* the part of a request that never changes *)
Lemma req_kept s l s' r : cstep T s l = Some s' -> r < nreqs s ->
  rq_gor (reqs s' r) = rq_gor (reqs s r) /\ rq_caller (reqs s' r) = rq_caller (reqs s r) /\ rq_method (reqs s' r) = rq_method (reqs s r) /\ rq_args (reqs s' r) = rq_args (reqs s r) /\ nreqs s <= nreqs s'.
Proof.
  intros H Hr. destruct l; steps H; try (repeat split; lia).
  all: unfold upd; match goal with |- context [?yy =? ?n] => destruct (Nat.eqb_spec yy n) end; try lia; subst; proj; repeat split; lia.
Qed.
Lemma own_frame s s' : nreqs s' = nreqs s -> (forall g, gor s' g = gor s g) -> (forall c, responses s' c = responses s c) ->
  (forall r, rq_gor (reqs s' r) = rq_gor (reqs s r)) -> (forall r, rq_caller (reqs s' r) = rq_caller (reqs s r)) ->
  (forall r, answers r (hist s') = answers r (hist s)) -> (forall g r o a, In (EReturn g r o a) (hist s') -> In (EReturn g r o a) (hist s)) ->
  own s -> own s'.
Proof.
  intros N G R Q1 Q2 A E [O1 O2 O3 O4 O5]. unfold active in *. constructor; unfold active.
  - intros g g' r r'. rewrite !G, !Q2. apply O1.
  - intros r. rewrite N, A, Q1, G. apply O2.
  - intros c o a. rewrite R, Q2, Q1, G, A. apply O3.
  - intros c. rewrite R. apply O4.
  - intros g r o a H. rewrite N, Q1, A. apply E in H. apply O5 in H. exact H.
Qed.

Lemma respond_own s r a : bounded s -> own s -> r < nreqs s -> answers r (hist s) = [] -> can_respond r s = true ->
  gor s (rq_gor (reqs s r)) = GWaiting r -> own (respond r a s).
Proof.
  intros B [O1 O2 O3 O4 O5] Hr Ha Hc Hg. unfold can_respond, cResponseChanSize in Hc. apply Nat.ltb_lt in Hc.
  assert (C : responses s (rq_caller (reqs s r)) = []) by (destruct (responses s (rq_caller (reqs s r))); [reflexivity|cbn in Hc; lia]).
  unfold active in *. constructor; unfold active; proj; auto.
  - intros x Hx. rewrite answers_app. intros Z. apply app_eq_nil in Z. apply O2; tauto.
  - intros c o b. rewrite answers_app, C. cbn [app]. unfold upd. destruct (Nat.eqb_spec c (rq_caller (reqs s r))).
    + intros [X|[]]. injection X as <- <-. repeat split; auto. cbn. rewrite Nat.eqb_refl. rewrite in_app_iff. right. left. reflexivity.
    + intros X. destruct (O3 _ _ _ X) as (D1 & D2 & D3). repeat split; auto. rewrite in_app_iff. left. exact D3.
  - intros c. rewrite C. unfold upd. destruct (_ =? _); cbn; auto.
  - intros g q o b. rewrite answers_app, !in_app_iff. intros [X|[X|[]]]; [|discriminate X]. destruct (O5 _ _ _ _ X) as (D1 & D2 & D3 & D4). repeat split; auto.
Qed.

Definition exclusive s (l : label V) : Prop :=
  match l with LCall _ c _ _ => forall g r, active s g = Some r -> rq_caller (reqs s r) <> c | _ => True end.

Lemma started_waiting s r : flow s -> own s -> In r (started (hist s)) -> answers r (hist s) = [] -> gor s (rq_gor (reqs s r)) = GWaiting r.
Proof.
  intros F W H A. assert (Hq : In r (enqueued (hist s))) by (rewrite (f_queue _ F), in_app_iff; left; exact H).
  pose proof (o_open _ W r (f_bound _ F _ Hq) A) as X. unfold active in X.
  destruct (gor s (rq_gor (reqs s r))) eqn:E; try discriminate X; injection X as ->; [|reflexivity].
  destruct (f_sending _ F _ _ E). tauto.
Qed.
Lemma answers_nil_done s r : locking s -> b2n (hsend (handler s) r) + b2n (tsend (timer s r)) >= 1 -> answers r (hist s) = [].
Proof.
  intros L H. pose proof (l_done _ L r). pose proof (b2n_le (rq_done (reqs s r))).
  destruct (answers r (hist s)); [reflexivity|cbn in *; lia].
Qed.

Lemma own_step s l s' : good s -> own s -> exclusive s l -> cstep T s l = Some s' -> own s'.
Proof.
  intros (B & F & L) W X H.
  destruct l.
  1,2,6,7,8,9,10,12,13,14,15,16,18: steps H; try assumption; apply (own_frame s); proj; auto.
  all: try (intros; unfold upd; match goal with |- context [?y =? ?n] => destruct (Nat.eqb_spec y n) end; [subst|]; proj; reflexivity).
  all: try (intros; rewrite answers_app; cbn; apply app_nil_r).
  all: try (intros g0 r0 o0 a0; rewrite in_app_iff; intros [Y|[Y|[]]]; [exact Y|discriminate Y]).
  - (* LCall *)
    steps H. destruct W as [O1 O2 O3 O4 O5]. cbn [exclusive] in X. pose proof (b_gor _ B) as B4. unfold active in *.
    assert (K : forall g0 r, match gor s g0 with GIdle => None | GSending r => Some r | GWaiting r => Some r end = Some r -> r < nreqs s).
    { intros g0 r Y. apply (B4 g0). destruct (gor s g0); try discriminate Y; injection Y as <-; left; reflexivity. }
    constructor; unfold active; proj.
    + intros g1 g2 r1 r2. destruct (Nat.eq_dec g1 g) as [->|N1]; [rewrite upd_same|rewrite (upd_other _ _ _ _ N1)];
        (destruct (Nat.eq_dec g2 g) as [->|N2]; [rewrite upd_same|rewrite (upd_other _ _ _ _ N2)]); intros Y1 Y2 Y; try congruence.
      * exfalso. injection Y1 as <-. rewrite upd_same in Y. specialize (K _ _ Y2). rewrite upd_other in Y by lia. cbn in Y. exact (X _ _ Y2 (eq_sym Y)).
      * exfalso. injection Y2 as <-. rewrite upd_same in Y. specialize (K _ _ Y1). rewrite upd_other in Y by lia. cbn in Y. exact (X _ _ Y1 Y).
      * pose proof (K _ _ Y1). pose proof (K _ _ Y2). rewrite !upd_other in Y by lia. eauto.
    + intros r Hr Ha. rewrite answers_app in Ha. apply app_eq_nil in Ha. destruct Ha as [Ha _].
      destruct (Nat.eq_dec r (nreqs s)) as [->|Hn].
      * rewrite upd_same. cbn. rewrite upd_same. reflexivity.
      * rewrite (upd_other _ _ _ r) by exact Hn. specialize (O2 r ltac:(lia) Ha).
        unfold upd. destruct (Nat.eqb_spec (rq_gor (reqs s r)) g) as [<-|]; [|exact O2]. rewrite E0 in O2. discriminate O2.
    + intros c0 o a Y. destruct (O3 _ _ _ Y) as (D1 & D2 & D3).
      assert (o < nreqs s) by (apply (B4 (rq_gor (reqs s o))); rewrite D2; left; reflexivity).
      rewrite answers_app, in_app_iff. rewrite !(upd_other _ (nreqs s)) by lia. repeat split; auto.
      unfold upd. destruct (Nat.eqb_spec (rq_gor (reqs s o)) g) as [<-|]; [|exact D2]. rewrite E0 in D2. discriminate D2.
    + exact O4.
    + intros g0 r o a. rewrite answers_app, !in_app_iff. intros [Y|[Y|[]]]; [|discriminate Y].
      destruct (O5 _ _ _ _ Y) as (D1 & D2 & D3 & D4). rewrite upd_other by lia. repeat split; auto.
  - (* LEnqueue *)
    steps H. destruct W as [O1 O2 O3 O4 O5]. unfold active in *.
    assert (K : forall g0, match upd (gor s) g (GWaiting r) g0 with GIdle => None | GSending r => Some r | GWaiting r => Some r end =
       match gor s g0 with GIdle => None | GSending r => Some r | GWaiting r => Some r end).
    { intros g0. unfold upd. destruct (Nat.eqb_spec g0 g) as [->|]; [rewrite E0|]; reflexivity. }
    constructor; unfold active; proj; auto.
    + intros g1 g2 r1 r2. rewrite !K. apply O1.
    + intros x Hx. rewrite answers_app. cbn. rewrite app_nil_r, K. apply O2. exact Hx.
    + intros c o a Y. destruct (O3 _ _ _ Y) as (D1 & D2 & D3). rewrite answers_app, in_app_iff. repeat split; auto.
      unfold upd. destruct (Nat.eqb_spec (rq_gor (reqs s o)) g) as [<-|]; [|exact D2]. congruence.
    + intros g0 q o a. rewrite answers_app, !in_app_iff. intros [Y|[Y|[]]]; [|discriminate Y].
      destruct (O5 _ _ _ _ Y) as (D1 & D2 & D3 & D4). repeat split; auto.
  - (* LReceive *)
    steps H. destruct W as [O1 O2 O3 O4 O5]. unfold active in *.
    pose proof (O4 (rq_caller (reqs s r))) as C. rewrite E1 in C. destruct l; [|cbn in C; lia].
    destruct (O3 (rq_caller (reqs s r)) n a) as (D1 & D2 & D3); [rewrite E1; left; reflexivity|].
    assert (G : rq_gor (reqs s n) = g). { apply (O1 _ _ n r); [rewrite D2; reflexivity|rewrite E0; reflexivity|exact D1]. }
    assert (n = r) by (rewrite G, E0 in D2; injection D2 as ->; reflexivity). subst n.
    assert (K : forall g0 q, match upd (gor s) g GIdle g0 with GIdle => None | GSending r => Some r | GWaiting r => Some r end = Some q ->
       match gor s g0 with GIdle => None | GSending r => Some r | GWaiting r => Some r end = Some q).
    { intros g0 q. unfold upd. destruct (Nat.eqb_spec g0 g); [discriminate|auto]. }
    constructor; unfold active; proj.
    + intros g1 g2 r1 r2 Y1 Y2. apply K in Y1, Y2. eauto.
    + intros x Hx. rewrite answers_app. cbn. rewrite app_nil_r. intros Ha. specialize (O2 x Hx Ha).
      unfold upd. destruct (Nat.eqb_spec (rq_gor (reqs s x)) g) as [Y|]; [|exact O2].
      rewrite Y, E0 in O2. injection O2 as ->. rewrite Ha in D3. destruct D3.
    + intros c o b. unfold upd at 1. destruct (Nat.eqb_spec c (rq_caller (reqs s r))); [intros []|].
      intros Y. destruct (O3 _ _ _ Y) as (Y1 & Y2 & Y3). rewrite answers_app, in_app_iff. repeat split; auto.
      unfold upd. destruct (Nat.eqb_spec (rq_gor (reqs s o)) g) as [Z|]; [|exact Y2]. rewrite Z, E0 in Y2. injection Y2 as ->. congruence.
    + intros c. unfold upd. destruct (_ =? _); cbn; auto.
    + intros g0 q o b. rewrite answers_app, !in_app_iff. intros [Y|[Y|[]]].
      * destruct (O5 _ _ _ _ Y) as (? & ? & ? & ?). repeat split; auto.
      * injection Y as <- <- <- <-. repeat split; auto. apply (b_gor _ B g). rewrite E0. left. reflexivity.
  - (* LRespond *)
    unfold cstep in H. destruct (crashed s); [discriminate|]. destruct (handler s) eqn:E0; try discriminate.
    destruct (can_respond r s) eqn:E1; [|discriminate]. injection H as <-.
    assert (A : answers r (hist s) = []) by (apply answers_nil_done; [exact L|]; rewrite E0; cbn; rewrite Nat.eqb_refl; cbn; lia).
    assert (S0 : In r (started (hist s))) by (apply (f_handler _ F); rewrite E0; left; reflexivity).
    assert (R : own (respond r (AResult l) s)).
    { apply respond_own; auto; [apply (b_handler _ B); rewrite E0; left; reflexivity|]. apply started_waiting; auto. }
    apply (own_frame (respond r (AResult l) s)); auto.
  - (* TRespond *)
    unfold cstep in H. destruct (crashed s); [discriminate|]. destruct (timer s r) eqn:E0; try discriminate.
    destruct (can_respond r s) eqn:E1; [|discriminate]. injection H as <-.
    assert (A : answers r (hist s) = []) by (apply answers_nil_done; [exact L|]; rewrite E0; cbn; lia).
    assert (S0 : In r (started (hist s))) by (apply (f_timer _ F); rewrite E0; discriminate).
    assert (R : own (respond r (ATimeout (rq_method (reqs s r))) s)).
    { apply respond_own; auto; [apply (b_timer _ B); rewrite E0; discriminate|]. apply started_waiting; auto. }
    apply (own_frame (respond r (ATimeout (rq_method (reqs s r))) s)); auto.
Qed.
Lemma own_init o : own (new_chan o : chan O V).
Proof. constructor; cbn; intros; try tauto; try lia; discriminate. Qed.

(* the schedule-level discipline is the state-level one *)
Lemma calling_snoc (ls : list (label V)) l g : calling (ls ++ [l]) g =
  match l with LCall g' c _ _ => if g' =? g then Some c else calling ls g | LReceive g' => if g' =? g then None else calling ls g | _ => calling ls g end.
Proof. unfold calling. rewrite fold_left_app. reflexivity. Qed.
Definition tracks (ls : list (label V)) s : Prop :=
  forall g, calling ls g = match active s g with Some r => Some (rq_caller (reqs s r)) | None => None end.
Lemma caller_locked s r b x : rq_caller (upd (reqs s) r (set_locked b (reqs s r)) x) = rq_caller (reqs s x).
Proof. unfold upd. destruct (Nat.eqb_spec x r); subst; reflexivity. Qed.
Lemma caller_done s r x : rq_caller (upd (reqs s) r (set_done (reqs s r)) x) = rq_caller (reqs s x).
Proof. unfold upd. destruct (Nat.eqb_spec x r); subst; reflexivity. Qed.
Lemma tracks_step ls s l s' : bounded s -> tracks ls s -> cstep T s l = Some s' -> tracks (ls ++ [l]) s'.
Proof.
  intros B K H g. rewrite calling_snoc. specialize (K g). unfold active in *. pose proof (b_gor _ B g) as B4.
  destruct l; steps H; auto.
  all: try (rewrite K; destruct (gor s g); rewrite ?caller_locked, ?caller_done; reflexivity).
  - destruct (Nat.eqb_spec g0 g) as [->|Hn].
    + rewrite !upd_same. reflexivity.
    + rewrite (upd_other _ g0) by congruence. rewrite K. destruct (gor s g); try reflexivity;
      specialize (B4 _ (or_introl eq_refl)); rewrite upd_other by lia; reflexivity.
  - unfold upd. destruct (Nat.eqb_spec g g0) as [->|Hn]; [|exact K]. rewrite K, E0. reflexivity.
  - unfold upd. destruct (Nat.eqb_spec g0 g) as [->|Hn]; [rewrite Nat.eqb_refl; reflexivity|].
    destruct (Nat.eqb_spec g g0); [congruence|exact K].
Qed.
Lemma own_exec o ls : forall s, exec (cstep T) (new_chan o) ls = Some s -> one_goroutine_per_caller ls -> own s /\ tracks ls s.
Proof.
  induction ls as [|l ls IH] using rev_ind; intros s H D.
  - injection H as <-. split; [apply own_init|]. intros g. reflexivity.
  - apply exec_split in H. destruct H as (m & H1 & H2). cbn in H2. destruct (cstep T m l) eqn:E; [|discriminate]. injection H2 as <-.
    destruct (IH m H1) as [W K].
    { intros a g cc mm args b -> g'. apply (D a g cc mm args (b ++ [l])). rewrite <- app_assoc. reflexivity. }
    pose proof (good_exec T _ _ _ H1) as G. split; [|apply (tracks_step _ _ _ _ (proj1 G) K E)].
    apply (own_step m l c G W); [|exact E].
    destruct l; cbn; auto. intros g' r Hr Hc. specialize (D ls g c0 m0 args [] eq_refl g'). apply D. rewrite K, Hr. congruence.
Qed.
Lemma paid_exec o ls s : exec (cstep T) (new_chan o) ls = Some s -> paid s.
Proof.
  intros H. apply (exec_inv (cstep T) (fun x => bounded x /\ paid x)) with (ls := ls) (s := new_chan o); auto.
  - intros a l b [B P] E. split; [apply (bounded_step T _ _ _ B E)|apply (paid_step _ _ _ B P E)].
  - split; [apply bounded_init|apply paid_init].
Qed.
Lemma answers_in (r : nat) (a : answer V) h : In a (answers r h) <-> exists t, In (ERespond r a t) h.
Proof.
  unfold answers. rewrite in_flat_map. split.
  - intros (e & He & Ha). destruct e; try contradiction. destruct (Nat.eqb_spec r0 r); [|contradiction]. destruct Ha as [->|[]]. subst. eauto.
  - intros (t & Ht). eexists. split; [exact Ht|]. cbn. rewrite Nat.eqb_refl. left. reflexivity.
Qed.

Lemma own_answer o ls s g r origin a : exec (cstep T) (new_chan o) ls = Some s -> one_goroutine_per_caller ls ->
  In (EReturn g r origin a) (hist s) ->
  origin = r /\ exists c m args, In (EIssue r g c m args) (hist s) /\
    match a with AResult l => In (EEnd r l) (hist s) | ATimeout m' => m' = m end.
Proof.
  intros H D R. destruct (own_exec _ _ _ H D) as [W _]. destruct (o_return _ W _ _ _ _ R) as (-> & Hr & Hg & Ha).
  split; [reflexivity|]. destruct (whole_exec _ _ _ H) as (_ & I & _). pose proof (i_in _ I r Hr) as Hi. unfold issue_of in Hi. rewrite Hg in Hi.
  do 3 eexists. split; [exact Hi|]. apply answers_in in Ha. destruct Ha as [t Ht].
  destruct (p_answer _ (paid_exec _ _ _ H) _ _ _ Ht) as [_ P]. exact P.
Qed.
Lemma never_blocked o ls s : exec (cstep T) (new_chan o) ls = Some s -> one_goroutine_per_caller ls ->
  (forall r l, handler s = HSend r l -> crashed s = false -> cstep T s LRespond <> None) /\
  (forall r, timer s r = TSend -> crashed s = false -> cstep T s (TRespond r) <> None).
Proof.
  intros H D. destruct (own_exec _ _ _ H D) as [W _]. pose proof (good_exec T _ _ _ H) as (B & F & L).
  assert (K : forall r, In r (started (hist s)) -> b2n (hsend (handler s) r) + b2n (tsend (timer s r)) >= 1 -> can_respond r s = true).
  { intros r Hs Hh. pose proof (answers_nil_done s r L Hh) as A. pose proof (started_waiting s r F W Hs A) as G.
    unfold can_respond. destruct (responses s (rq_caller (reqs s r))) as [|(q, a) rest] eqn:E; [reflexivity|].
    destruct (o_chan _ W (rq_caller (reqs s r)) q a) as (D1 & D2 & D3); [rewrite E; left; reflexivity|].
    assert (rq_gor (reqs s q) = rq_gor (reqs s r)) as Eg.
    { apply (o_excl _ W _ _ q r); unfold active; [rewrite D2|rewrite G|]; auto. }
    rewrite Eg, G in D2. injection D2 as <-. rewrite A in D3. destruct D3. }
  split.
  - intros r l E C. unfold cstep. rewrite C, E. rewrite K; [discriminate| |].
    + apply (f_handler _ F). rewrite E. left. reflexivity.
    + rewrite E. cbn. rewrite Nat.eqb_refl. cbn. lia.
  - intros r E C. unfold cstep. rewrite C, E. rewrite K; [discriminate| |].
    + apply (f_timer _ F). rewrite E. discriminate.
    + rewrite E. cbn. lia.
Qed.
End Proof.
