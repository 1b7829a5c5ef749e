(* Methods that call: circles. *)
From Verif Require Import Lts NestModel NestSpec FullProof NestProof.
From Verif Require ChanModel ChanSpec ChanProof ChanProof2 ChanProof3 ChanProof4.
From Coq Require Import Arith Bool List ZArith Lia Relations.
Import ListNotations.
Open Scope nat_scope.

(* ---- one callee ---- *)
Section Callee.
Context {O V : Type}.
Variable T : ChanModel.target O V.
Implicit Types c : ChanModel.chan O V.
Lemma waiting_issue o ls c g r : exec (ChanModel.cstep T) (ChanModel.new_chan o) ls = Some c ->
  ChanModel.gor c g = ChanModel.GWaiting r \/ ChanModel.gor c g = ChanModel.GSending r ->
  exists k m a, In (ChanModel.EIssue r g k m a) (ChanModel.hist c).
Proof.
  intros H G. destruct (ChanProof2.whole_exec T _ _ _ H) as ((B & F & _) & [I _] & _).
  assert (r < ChanModel.nreqs c) as L. { eapply (ChanProof.b_gor _ B g). destruct G as [-> | ->]; now left. }
  assert (ChanModel.rq_gor (ChanModel.reqs c r) = g) as <-.
  { destruct G as [G|G]; [apply (ChanProof.f_waiting _ F _ _ G)|apply (ChanProof.f_sending _ F _ _ G)]. }
  specialize (I _ L). unfold ChanProof2.issue_of in I. eauto.
Qed.
Lemma no_early_return o ls c g r : exec (ChanModel.cstep T) (ChanModel.new_chan o) ls = Some c -> ChanSpec.one_goroutine_per_caller ls ->
  ChanModel.gor c g = ChanModel.GWaiting r -> ~ In r (ChanSpec.started (ChanModel.hist c)) -> ChanModel.cstep T c (ChanModel.LReceive g) = None.
Proof.
  intros H D G N. destruct (ChanModel.cstep T c (ChanModel.LReceive g)) as [c'|] eqn:E; [|reflexivity]. exfalso.
  destruct (receive_effect _ _ _ _ E) as (r' & q & a & G' & R & _). assert (r' = r) by congruence. subst r'.
  destruct (ChanProof2.own_exec T _ _ _ H D) as [W _].
  assert (I : In (q, a) (ChanModel.responses c (ChanModel.rq_caller (ChanModel.reqs c r)))) by (eapply nth_error_In; exact R).
  destruct (ChanProof2.o_chan _ W _ _ _ I) as (Ec & Gq & A).
  assert (Eg : g = ChanModel.rq_gor (ChanModel.reqs c q)).
  { eapply (ChanProof2.o_excl _ W); unfold ChanProof2.active; [rewrite G|rewrite Gq|]; eauto. }
  rewrite <- Eg, G in Gq. injection Gq as <-. rewrite (ChanProof3.unstarted_unanswered T _ _ _ _ H N) in A. destruct A.
Qed.
Lemma returned_started o ls c g r q a : exec (ChanModel.cstep T) (ChanModel.new_chan o) ls = Some c -> ChanSpec.one_goroutine_per_caller ls ->
  In (ChanModel.EReturn g r q a) (ChanModel.hist c) -> In r (ChanSpec.started (ChanModel.hist c)).
Proof.
  intros H D I. destruct (ChanProof2.own_exec T _ _ _ H D) as [W _]. destruct (ChanProof2.o_return _ W _ _ _ _ I) as (_ & _ & _ & A).
  destruct (in_dec Nat.eq_dec r (ChanSpec.started (ChanModel.hist c))) as [|N]; auto.
  rewrite (ChanProof3.unstarted_unanswered T _ _ _ _ H N) in A. destruct A.
Qed.
(* a timer past its test has seen or made the answer *)
Definition timed_out c : Prop := forall r, (ChanModel.timer c r = ChanModel.TUnlock \/ ChanModel.timer c r = ChanModel.TEnded) -> ChanModel.rq_done (ChanModel.reqs c r) = true.
Lemma timed_out_step c l c' : ChanProof.good c -> timed_out c -> ChanModel.cstep T c l = Some c' -> timed_out c'.
Proof.
  intros (B & _ & L) I H r. specialize (I r). pose proof (ChanProof.b_timer _ B r) as Bt. pose proof (ChanProof.l_done _ L r) as Ld.
  destruct l; ChanProof.steps H; cbn; auto; unfold ChanModel.upd.
  all: repeat match goal with |- context [?x =? ?y] => destruct (Nat.eqb_spec x y); subst; cbn; auto end.
  all: try (intros [X|X]; discriminate X).
  - intros X. assert (ChanModel.nreqs c < ChanModel.nreqs c) by (apply Bt; destruct X as [-> | ->]; discriminate). lia.
  - intros _. match goal with E : ChanModel.timer c r0 = ChanModel.TSend |- _ => rewrite E in Ld end. cbn in Ld.
    destruct (ChanModel.rq_done (ChanModel.reqs c r0)); auto. cbn in Ld. lia.
Qed.
Lemma timed_out_exec o ls c : exec (ChanModel.cstep T) (ChanModel.new_chan o) ls = Some c -> timed_out c.
Proof.
  intros H. apply (exec_inv (ChanModel.cstep T) (fun x => ChanProof.good x /\ timed_out x)) with (ls := ls) (s := ChanModel.new_chan o); auto.
  - intros a l b [G K] E. split; [apply (ChanProof.good_step T _ _ _ G E)|apply (timed_out_step _ _ _ G K E)].
  - split; [apply ChanProof.good_init|]. intros r [X|X]; discriminate X.
Qed.
(* once its timeout is over, and its timer has done what it can, a request picked up has its answer *)
Lemma quiet_timer o ls c g r r0 : exec (ChanModel.cstep T) (ChanModel.new_chan o) ls = Some c -> ChanSpec.one_goroutine_per_caller ls ->
  ChanModel.crashed c = false -> ChanModel.handler c = ChanModel.HRun r0 ->
  (forall u, ChanModel.timer c r = ChanModel.TAsleep u -> (u <= ChanModel.now c)%Z) ->
  ChanModel.cstep T c (ChanModel.TSleep r) = None -> ChanModel.cstep T c (ChanModel.TLock r) = None -> ChanModel.cstep T c (ChanModel.TCheck r) = None ->
  ChanModel.cstep T c (ChanModel.TDone r) = None -> ChanModel.cstep T c (ChanModel.TRespond r) = None -> ChanModel.cstep T c (ChanModel.TRelease r) = None ->
  ChanModel.gor c g = ChanModel.GWaiting r -> In r (ChanSpec.started (ChanModel.hist c)) -> ChanModel.cstep T c (ChanModel.LReceive g) <> None.
Proof.
  intros H D C Hr U Q1 Q2 Q3 Q4 Q5 Q6 G S X. destruct (ChanProof.good_exec T _ _ _ H) as (B & F & L).
  assert (A : ChanSpec.answers r (ChanModel.hist c) <> []).
  { intros A. pose proof (ChanProof.l_done _ L r) as Y. rewrite A, Hr in Y. cbn in Y.
    pose proof (proj2 (ChanProof.f_timer _ F r) S) as N. unfold ChanModel.cstep in Q1, Q2, Q3, Q4, Q6. rewrite C in Q1, Q2, Q3, Q4, Q6.
    pose proof (timed_out_exec _ _ _ H r) as Z0. destruct (ChanModel.timer c r) as [|ns|u| | | | |] eqn:Et; try discriminate; try congruence.
    - specialize (U _ eq_refl). apply Z.leb_le in U. rewrite U in Q2. pose proof (ChanProof.l_lock _ L r) as Y2. rewrite Hr, Et in Y2. cbn in Y2.
      destruct (ChanModel.rq_locked (ChanModel.reqs c r)); discriminate.
    - exact (proj2 (ChanProof2.never_blocked T _ _ _ H D) r Et C Q5).
    - rewrite Z0 in Y by auto. discriminate Y. }
  destruct (ChanProof4.kept_exec T _ _ _ H D _ _ G A) as [a I]. unfold ChanModel.cstep in X. rewrite C, G in X. cbv zeta in X.
  destruct (ChanModel.responses c _) as [|[]]; [destruct I|discriminate X].
Qed.
End Callee.

Section Nest.
Context {O V : Type}.
Variables (T : nat -> ChanModel.target O V) (o0 : nat -> O).
Notation nstep := (nstep T).
Notation ninit := (ninit o0).
Implicit Types s : nest O V.

(* a method waiting for a callee that is itself in a call goes on waiting *)
Lemma blocked_step ls s l s' i j : exec nstep ninit ls = Some s -> nstep s l = Some s' -> nested s j <> None -> blocked s i j ->
  nested s' i = nested s i /\ blocked s' i j.
Proof.
  intros R H Nj (n & E & P). destruct (nest_good _ _ _ _ R) as [I K].
  assert (E' : nested s' i = nested s i).
  { destruct (step_nested _ _ _ _ i H) as [X|[[-> _]|(j' & m & a & _ & X & _)]]; [exact X| |congruence]. exfalso.
    pose proof (step_callee _ _ _ _ j H) as C. cbn in C. cbn in H. unfold nested in E. destruct (waits s i) as [| |j' n'] eqn:Ew; try discriminate. injection E as -> ->.
    rewrite Nat.eqb_refl in C. destruct (callee_facts _ _ _ _ j R) as (lc & Rc & D). destruct (receive_effect _ _ _ _ C) as (r & q & a & G & _).
    rewrite (no_early_return _ _ _ _ _ _ Rc D G) in C; [discriminate|]. destruct (waiting_issue _ _ _ _ (nid n) r Rc (or_introl G)) as (k & m & x & Is).
    exact (P _ _ _ _ Is). }
  split; [exact E'|]. exists n. split; [now rewrite E'|]. destruct (I _ Nj) as [r0 Hr]. destruct (handler_kept _ _ _ _ _ _ H Nj Hr) as [_ Pk]. rewrite Pk.
  intros r c m a X. destruct (step_issue _ _ _ _ _ _ _ _ _ _ H X) as [Y|(-> & _)]; [eapply P; eauto|].
  intros Y. destruct (callee_facts _ _ _ _ j R) as (lc & Rc & _). destruct (ChanProof.good_exec _ _ _ _ Rc) as (_ & F & _).
  assert (ChanModel.nreqs (ch s j) < ChanModel.nreqs (ch s j)); [|lia]. apply (ChanProof.f_bound _ F). rewrite (ChanProof.f_queue _ F). apply in_or_app. now left.
Qed.
Lemma stuck_forever ls s ls2 s2 (X : nat -> Prop) : exec nstep ninit ls = Some s -> (forall i, X i -> exists j, X j /\ blocked s i j) ->
  exec nstep s ls2 = Some s2 ->
  (forall i, X i -> exists j, X j /\ blocked s2 i j) /\ forall i, X i -> nested s2 i = nested s i /\ picked s2 i = picked s i /\
    forall g r o a, In (ChanModel.EReturn g r o a) (ChanModel.hist (ch s2 i)) -> In r (picked s i).
Proof.
  intros R Hx H.
  assert (G : (exists ls', exec nstep ninit ls' = Some s2) /\ (forall i, X i -> exists j, X j /\ blocked s2 i j) /\ forall i, X i -> nested s2 i = nested s i /\ picked s2 i = picked s i).
  { revert s2 H. induction ls2 as [|l ls2 IH] using rev_ind; intros s2 H; [injection H as <-; eauto|].
    apply exec_split in H as (m & H1 & H2). cbn in H2. destruct (nstep m l) as [m'|] eqn:E; [|discriminate]. injection H2 as <-.
    destruct (IH _ H1) as ([ls' R'] & B & P). split; [exists (ls' ++ [l]); eapply reach_step; eauto|].
    assert (N : forall i, X i -> nested m i <> None) by (intros i Hi; destruct (B _ Hi) as (j & _ & n & -> & _); discriminate).
    split.
    - intros i Hi. destruct (B _ Hi) as (j & Hj & Bj). exists j. split; auto. eapply blocked_step; eauto.
    - intros i Hi. destruct (B _ Hi) as (j & Hj & Bj). destruct (P _ Hi) as [P1 P2]. destruct (blocked_step _ _ _ _ _ _ R' E (N _ Hj) Bj) as [Q _].
      split; [congruence|]. destruct (nest_good _ _ _ _ R') as [I _]. destruct (I _ (N _ Hi)) as [r Hr]. destruct (handler_kept _ _ _ _ _ _ E (N _ Hi) Hr) as [_ Pk]. congruence. }
  destruct G as ([ls' R'] & B & P). split; [exact B|]. intros i Hi. destruct (P _ Hi) as [P1 P2]. repeat split; auto.
  intros g r q a I. destruct (callee_facts _ _ _ _ i R') as (lc & Rc & D). rewrite <- P2. eapply returned_started; eauto.
Qed.
(* a method that calls its own callee *)
Lemma self_call ls s i n : exec nstep ninit ls = Some s -> nested s i = Some (i, n) -> blocked s i i.
Proof.
  revert s n. induction ls as [|l ls IH] using rev_ind; intros s n H E; [injection H as <-; discriminate|].
  apply exec_split in H as (m & H1 & H2). cbn in H2. destruct (nstep m l) as [m'|] eqn:Es; [|discriminate]. injection H2 as <-.
  destruct (step_nested _ _ _ _ i Es) as [X|[[_ X]|(j & mm & a & -> & N & X & _)]]; [|congruence|].
  - rewrite X in E. eapply blocked_step; eauto. congruence.
  - rewrite X in E. injection E as -> <-. exists (ncalls m). split; auto. pose proof (step_callee _ _ _ _ i Es) as C. cbn in C. rewrite C.
    destruct (nest_good _ _ _ _ H1) as [_ K]. intros r c m2 a2 Is. exfalso. eapply (k_new _ K); [|exact Is]. lia.
Qed.

(* when nothing more happens by itself and all timeouts are over *)
Lemma quiet_callee s j l : quiet T s -> calls_ok s -> match l with ChanModel.LTick _ | ChanModel.LSetTimeout _ _ | ChanModel.LCall _ _ _ _ => False | ChanModel.LEnd => nested s j = None | _ => True end ->
  ChanModel.cstep (T j) (ch s j) l = None.
Proof.
  intros Q K A. destruct (ChanModel.cstep (T j) (ch s j) l) as [c|] eqn:E; [|reflexivity]. exfalso.
  assert (F : free s j l = true -> by_itself (NChan j l) = true -> False).
  { intros F B. specialize (Q _ B). cbn in Q. rewrite F, E in Q. discriminate. }
  destruct l; try (exact A); try (apply F; [reflexivity|reflexivity]); try (unfold free; unfold nested in A; destruct (waits s j); try discriminate A; apply F; [reflexivity|reflexivity]).
  - destruct (Nat.even g) eqn:Ev; [apply F; [exact Ev|reflexivity]|].
    assert (exists n, g = nid n) as [n ->].
    { apply Bool.negb_true_iff in Ev. change (negb (Nat.even g)) with (Nat.odd g) in Ev. apply Nat.odd_spec in Ev as [n ->]. now exists n. }
    assert (Gn : ChanModel.gor (ch s j) (nid n) <> ChanModel.GIdle) by (destruct (receive_effect _ _ _ _ E) as (r & q & a & -> & _); discriminate).
    destruct (k_busy _ K _ _ Gn) as [i Ei]. specialize (Q (NReturn i) eq_refl). unfold NestModel.nstep in Q. rewrite Ei, E in Q. discriminate.
  - apply F; [|reflexivity]. cbn. unfold nested in A. now destruct (waits s j).
Qed.
Lemma only_way ls s : exec nstep ninit ls = Some s -> (forall i, ChanModel.crashed (ch s i) = false) -> quiet T s -> time_over s ->
  (forall i, nested s i <> None -> exists j, nested s j <> None /\ blocked s i j) /\
  (forall i, nested s i = None -> forall g, ChanModel.gor (ch s i) g = ChanModel.GIdle).
Proof.
  intros R C Q U. destruct (nest_good _ _ _ _ R) as [I K].
  assert (Z0 : forall i, nested s i = None -> forall g, ChanModel.gor (ch s i) g = ChanModel.GIdle).
  { intros i N. destruct (callee_facts _ _ _ _ i R) as (lc & Rc & D). eapply (ChanProof4.quiet_all_returned (T i)); eauto.
    intros l. destruct l; auto; apply quiet_callee; auto; exact Logic.I. }
  split; [|exact Z0]. intros i N. destruct (waits s i) as [|j n m a|j n] eqn:Ew.
  - unfold nested in N. rewrite Ew in N. congruence.
  - exfalso. specialize (Q (NSend i) eq_refl). unfold NestModel.nstep in Q. rewrite Ew in Q. 
    destruct (ChanModel.gor (ch s j) (nid n)) eqn:Eg.
    + destruct (call_enabled (T j) _ _ (nid n) m a (C j) Eg) as [c' E]. rewrite E in Q. discriminate.
    + assert (Gn : ChanModel.gor (ch s j) (nid n) <> ChanModel.GIdle) by (rewrite Eg; discriminate). destruct (k_busy _ K _ _ Gn) as [i' Ei].
      assert (i = i') by (eapply (k_one _ K); unfold nested; [rewrite Ew|rewrite Ei]; reflexivity). subst. congruence.
    + assert (Gn : ChanModel.gor (ch s j) (nid n) <> ChanModel.GIdle) by (rewrite Eg; discriminate). destruct (k_busy _ K _ _ Gn) as [i' Ei].
      assert (i = i') by (eapply (k_one _ K); unfold nested; [rewrite Ew|rewrite Ei]; reflexivity). subst. congruence.
  - destruct (k_sent _ K _ _ _ Ew) as [Gn Un]. exists j.
    assert (Nj : nested s j <> None) by (intros X; apply Gn, Z0, X). split; auto. exists n. split; [now apply nested_sent|].
    intros r c m a Is P. destruct (callee_facts _ _ _ _ j R) as (lc & Rc & D). destruct (ChanProof.good_exec _ _ _ _ Rc) as (_ & F & _).
    assert (Eq : forall r', ChanModel.gor (ch s j) (nid n) = ChanModel.GWaiting r' \/ ChanModel.gor (ch s j) (nid n) = ChanModel.GSending r' -> r' = r).
    { intros r' G. destruct (waiting_issue _ _ _ _ _ _ Rc G) as (k & m' & a' & Is'). eapply Un; eauto. }
    destruct (ChanModel.gor (ch s j) (nid n)) as [|r'|r'] eqn:Eg; [congruence| |]; (assert (r' = r) by (apply Eq; auto)); subst r'.
    + destruct (ChanProof.f_sending _ F _ _ Eg) as [X _]. apply X. rewrite (ChanProof.f_queue _ F). apply in_or_app. now left.
    + destruct (I _ Nj) as [r0 Hr]. eapply (quiet_timer (T j)); eauto; try (apply quiet_callee; auto; exact Logic.I).
Qed.

(* finitely many callees have ever called *)
Definition callers (ls : list (nlab V)) : list nat := flat_map (fun l => match l with NCall i _ _ _ => [i] | _ => [] end) ls.
Lemma nested_caller ls s i j n : exec nstep ninit ls = Some s -> nested s i = Some (j, n) -> exists m a, In (NCall i j m a) ls.
Proof.
  revert s. induction ls as [|l ls IH] using rev_ind; intros s H E; [injection H as <-; discriminate|].
  apply exec_split in H as (m & H1 & H2). cbn in H2. destruct (nstep m l) as [m'|] eqn:Es; [|discriminate]. injection H2 as <-.
  destruct (step_nested _ _ _ _ i Es) as [X|[[_ X]|(j' & mm & a & -> & N & X & _)]]; [|congruence|].
  - rewrite X in E. destruct (IH _ H1 E) as (mm & a & Hi). exists mm, a. apply in_or_app. now left.
  - rewrite X in E. injection E as -> _. exists mm, a. apply in_or_app. right. now left.
Qed.
End Nest.

(* a finite set in which everything leads on has a circle *)
Section Circle.
Variables (R : nat -> nat -> Prop).
Lemma path_from l : (forall i, In i l -> exists j, In j l /\ R i j) -> forall k i, In i l ->
  exists p, length p = k /\ (forall x, In x p -> In x l /\ clos_trans nat R i x) /\ (forall a x b y c, p = a ++ x :: b ++ y :: c -> clos_trans nat R x y).
Proof.
  intros H k. induction k as [|k IH]; intros i Hi.
  - exists []. split; [reflexivity|]. split; [intros x []|]. intros a x b y c E. destruct a; discriminate.
  - destruct (H _ Hi) as (j & Hj & Rj). destruct (IH _ Hj) as (p & L & P1 & P2). exists (j :: p). cbn. split; [congruence|]. split.
    + intros x [<-|X]; [split; auto; now apply t_step|]. destruct (P1 _ X) as [P3 P4]. split; auto. eapply t_trans; [apply t_step, Rj|exact P4].
    + intros a x b y c E. destruct a as [|z a]; cbn in E; injection E as E1 E2.
      * subst x. apply (P1 y). rewrite E2. apply in_or_app. right. now left.
      * eapply P2; exact E2.
Qed.
Lemma repeated (l : list nat) : ~ NoDup l -> exists x a b c, l = a ++ x :: b ++ x :: c.
Proof.
  induction l as [|y l IH]; intros N; [destruct N; constructor|].
  destruct (in_dec Nat.eq_dec y l) as [I|I].
  - apply in_split in I as (b & c & ->). exists y, [], b, c. reflexivity.
  - destruct IH as (x & a & b & c & ->); [intros X; apply N; now constructor|]. exists x, (y :: a), b, c. reflexivity.
Qed.
Lemma circle l i : (forall i, In i l -> exists j, In j l /\ R i j) -> In i l -> exists k, clos_trans nat R k k.
Proof.
  intros H Hi. destruct (path_from l H (S (length l)) i Hi) as (p & L & P1 & P2).
  assert (N : ~ NoDup p).
  { intros N. assert (length p <= length l) by (apply NoDup_incl_length; [exact N|intros x X; apply (P1 _ X)]). lia. }
  apply repeated in N. destruct N as (x & a & b & c & E). exists x. eapply P2. exact E.
Qed.
End Circle.

Section Nest2.
Context {O V : Type}.
Variables (T : nat -> ChanModel.target O V) (o0 : nat -> O).
Notation nstep := (nstep T).
Notation ninit := (ninit o0).
Implicit Types s : nest O V.
Lemma in_callers (ls : list (nlab V)) i j m a : In (NCall i j m a) ls -> In i (callers ls).
Proof. intros H. unfold callers. apply in_flat_map. exists (NCall i j m a). split; auto. now left. Qed.
Lemma deadlock_circle ls s i : exec nstep ninit ls = Some s -> (forall i, ChanModel.crashed (ch s i) = false) -> quiet T s -> time_over s ->
  nested s i <> None -> exists k, clos_trans nat (blocked s) k k.
Proof.
  intros R C Q U N. destruct (only_way _ _ _ _ R C Q U) as [W _].
  pose (l := filter (fun i => match nested s i with Some _ => true | None => false end) (callers ls)).
  assert (L : forall i, In i l <-> nested s i <> None).
  { intros k. unfold l. rewrite filter_In. destruct (nested s k) as [[j n]|] eqn:E; split; try congruence; try (intros [_ X]; congruence).
    intros _. split; auto. destruct (nested_caller _ _ _ _ _ _ _ R E) as (m & a & X). eapply in_callers; eauto. }
  apply (circle (blocked s) l i); [|now apply L]. intros k Hk. apply L in Hk. destruct (W _ Hk) as (j & Nj & B). exists j. split; auto. now apply L.
Qed.
Lemma clos_mono (A B : nat -> nat -> Prop) x y : (forall x y, A x y -> B x y) -> clos_trans nat A x y -> clos_trans nat B x y.
Proof. intros H. induction 1; [apply t_step; auto|eapply t_trans; eauto]. Qed.
Lemma layered ls s : exec nstep ninit ls = Some s -> (forall i, ChanModel.crashed (ch s i) = false) -> quiet T s -> time_over s ->
  (forall k, ~ clos_trans nat (fun i j => exists m a, In (NCall i j m a) ls) k k) ->
  forall i, nested s i = None /\ forall g, ChanModel.gor (ch s i) g = ChanModel.GIdle.
Proof.
  intros R C Q U A i. destruct (only_way _ _ _ _ R C Q U) as [_ W].
  assert (N : nested s i = None).
  { destruct (nested s i) eqn:E; [|reflexivity]. exfalso. destruct (deadlock_circle _ _ i R C Q U) as [k Hk]; [congruence|]. apply (A k). eapply clos_mono; [|exact Hk].
    intros x y (n & Ex & _). eapply nested_caller; eauto. }
  split; auto.
Qed.
End Nest2.
