(* Methods that call: invariants. *)
From Verif Require Import Lts NestModel NestSpec FullProof.
From Verif Require ChanModel ChanSpec ChanProof ChanProof2 ChanProof3 ChanProof4.
From Coq Require Import Arith Bool List ZArith Lia.
Import ListNotations.
Open Scope nat_scope.

Section Nest.
Context {O V : Type}.
Variables (T : nat -> ChanModel.target O V) (o0 : nat -> O).
Notation nstep := (nstep T).
Notation ninit := (ninit o0).
Implicit Types s : nest O V.

Lemma upd_eq {A} (f : nat -> A) i x j : ChanModel.upd f i x j = if j =? i then x else f j.
Proof. reflexivity. Qed.
(* what a step does to each callee *)
Definition callee_step s (l : nlab V) (i : nat) : option (ChanModel.label V) :=
  match l with
  | NChan j x => if i =? j then Some x else None
  | NCall _ _ _ _ => None
  | NSend k => match waits s k with WAsked j n m args => if i =? j then Some (ChanModel.LCall (nid n) (nid n) m args) else None | _ => None end
  | NReturn k => match waits s k with WSent j n => if i =? j then Some (ChanModel.LReceive (nid n)) else None | _ => None end
  end.
Lemma step_callee s l s' i : nstep s l = Some s' ->
  match callee_step s l i with Some x => ChanModel.cstep (T i) (ch s i) x = Some (ch s' i) | None => ch s' i = ch s i end.
Proof.
  intros H. destruct l as [j x|k j m args|k|k]; cbn in *.
  - destruct (free s j x); [|discriminate]. destruct (ChanModel.cstep (T j) (ch s j) x) eqn:E; [|discriminate]. injection H as <-. cbn. rewrite upd_eq. destruct (Nat.eqb_spec i j) as [->|]; auto.
  - destruct (ChanModel.handler _); try discriminate. destruct (waits s k); try discriminate. injection H as <-. reflexivity.
  - destruct (waits s k) as [|j n m args|]; try discriminate. destruct (ChanModel.cstep (T j) _ _) eqn:E; [|discriminate]. injection H as <-. cbn. rewrite upd_eq. destruct (Nat.eqb_spec i j) as [->|]; auto.
  - destruct (waits s k) as [| |j n]; try discriminate. destruct (ChanModel.cstep (T j) _ _) eqn:E; [|discriminate]. injection H as <-. cbn. rewrite upd_eq. destruct (Nat.eqb_spec i j) as [->|]; auto.
Qed.
(* what it does to the calls of methods *)
Lemma step_nested s l s' i : nstep s l = Some s' ->
  nested s' i = nested s i \/ (l = NReturn i /\ nested s' i = None) \/
  (exists j m args, l = NCall i j m args /\ nested s i = None /\ nested s' i = Some (j, ncalls s) /\ exists r, ChanModel.handler (ch s i) = ChanModel.HRun r).
Proof.
  intros H. unfold nested. destruct l as [j x|k j m args|k|k]; cbn in *.
  - destruct (free s j x); [|discriminate]. destruct (ChanModel.cstep _ _ x); [|discriminate]. injection H as <-. auto.
  - destruct (ChanModel.handler (ch s k)) eqn:Eh; try discriminate. destruct (waits s k) eqn:Ew; try discriminate. injection H as <-. cbn. rewrite upd_eq.
    destruct (Nat.eqb_spec i k) as [->|]; auto. right. right. exists j, m, args. rewrite Ew. eauto.
  - destruct (waits s k) as [|j n m args|] eqn:Ew; try discriminate. destruct (ChanModel.cstep _ _ _); [|discriminate]. injection H as <-. cbn. rewrite upd_eq.
    destruct (Nat.eqb_spec i k) as [->|]; auto. rewrite Ew. auto.
  - destruct (waits s k) as [| |j n] eqn:Ew; try discriminate. destruct (ChanModel.cstep _ _ _); [|discriminate]. injection H as <-. cbn. rewrite upd_eq.
    destruct (Nat.eqb_spec i k) as [->|]; auto.
Qed.
Lemma calls_grow s l s' : nstep s l = Some s' -> ncalls s <= ncalls s'.
Proof.
  intros H. destruct l as [j x|k j m args|k|k]; cbn in H.
  - destruct (free s j x); [|discriminate]. destruct (ChanModel.cstep _ _ x); [|discriminate]. now injection H as <-.
  - destruct (ChanModel.handler _); try discriminate. destruct (waits s k); try discriminate. injection H as <-. cbn. lia.
  - destruct (waits s k); try discriminate. destruct (ChanModel.cstep _ _ _); [|discriminate]. now injection H as <-.
  - destruct (waits s k); try discriminate. destruct (ChanModel.cstep _ _ _); [|discriminate]. now injection H as <-.
Qed.
Lemma step_free s l s' i x : nstep s l = Some s' -> callee_step s l i = Some x ->
  (l = NChan i x /\ free s i x = true) \/
  (exists k n m args, l = NSend k /\ waits s k = WAsked i n m args /\ x = ChanModel.LCall (nid n) (nid n) m args) \/
  (exists k n, l = NReturn k /\ waits s k = WSent i n /\ x = ChanModel.LReceive (nid n)).
Proof.
  intros H E. destruct l as [j y|k j m args|k|k]; cbn in *; try discriminate.
  - destruct (Nat.eqb_spec i j) as [->|]; [|discriminate]. injection E as ->. destruct (free s j x) eqn:F; [left; auto|discriminate].
  - destruct (waits s k) as [|j n m args|] eqn:Ew; try discriminate. destruct (Nat.eqb_spec i j) as [->|]; [|discriminate]. injection E as <-. right. left. exists k, n, m, args. auto.
  - destruct (waits s k) as [| |j n] eqn:Ew; try discriminate. destruct (Nat.eqb_spec i j) as [->|]; [|discriminate]. injection E as <-. right. right. exists k, n. auto.
Qed.
Lemma nested_sent s i j n : waits s i = WSent j n -> nested s i = Some (j, n). Proof. unfold nested. now intros ->. Qed.

(* each callee runs as in its own model *)
Lemma callee_runs ls s i : exec nstep ninit ls = Some s -> exists ls', exec (ChanModel.cstep (T i)) (ChanModel.new_chan (o0 i)) ls' = Some (ch s i) /\ matched ls'.
Proof.
  revert s. induction ls as [|l ls IH] using rev_ind; intros s H; [injection H as <-; exists []; split; [reflexivity|intros ? ? ? ? []]|].
  apply exec_split in H as (m & H1 & H2). cbn in H2. destruct (nstep m l) as [s2|] eqn:E; [|discriminate]. injection H2 as <-.
  destruct (IH _ H1) as (ls' & E' & M). pose proof (step_callee _ _ _ i E) as C. destruct (callee_step m l i) as [x|] eqn:Ex; [|rewrite C; eauto].
  exists (ls' ++ [x]). split; [rewrite exec_app, E'; cbn; now rewrite C|]. intros g k n a Hin. apply in_app_iff in Hin as [Hin|[->|[]]]; [eapply M; eauto|].
  destruct (step_free _ _ _ _ _ E Ex) as [[_ F]|[(k' & n' & m' & a' & _ & _ & X)|(k' & n' & _ & _ & X)]]; try discriminate X; [|now injection X as -> -> _ _].
  cbn in F. apply andb_true_iff in F as [_ F]. now apply Nat.eqb_eq.
Qed.
Lemma callee_facts ls s i : exec nstep ninit ls = Some s -> exists ls', exec (ChanModel.cstep (T i)) (ChanModel.new_chan (o0 i)) ls' = Some (ch s i) /\ ChanSpec.one_goroutine_per_caller ls'.
Proof. intros H. destruct (callee_runs _ _ i H) as (ls' & E & M). exists ls'. split; auto. eapply matched_discipline; eauto. Qed.

(* a callee in a method stays there, and picks nothing up, until the method ends *)
Lemma running_step U (c : ChanModel.chan O V) x c' r : ChanModel.cstep U c x = Some c' -> ChanModel.handler c = ChanModel.HRun r -> x <> ChanModel.LEnd ->
  ChanModel.handler c' = ChanModel.HRun r /\ ChanSpec.started (ChanModel.hist c') = ChanSpec.started (ChanModel.hist c).
Proof.
  intros H Hr N. assert (S : forall h e, (forall r t0 y, e <> @ChanModel.EStart V r t0 y) -> ChanSpec.started (h ++ [e]) = ChanSpec.started h).
  { intros h e He. rewrite ChanProof.started_app. destruct e; cbn; rewrite ?app_nil_r; auto. exfalso. eapply He. reflexivity. }
  unfold ChanModel.cstep in H. destruct (ChanModel.crashed c); [discriminate|]. rewrite ?Hr in H. destruct x; try discriminate; try congruence.
  all: repeat match type of H with
    | (if ?b then _ else _) = _ => destruct b; try discriminate H
    | match ?y with _ => _ end = _ => destruct y; try discriminate H
    | Some (if ?b then _ else _) = _ => destruct b
    end; injection H as <-; cbn; auto; split; auto; apply S; discriminate.
Qed.

(* the handler of a callee whose method is in a call *)
Definition in_method s : Prop := forall i, nested s i <> None -> exists r, ChanModel.handler (ch s i) = ChanModel.HRun r.
Lemma handler_kept s l s' i r : nstep s l = Some s' -> nested s i <> None -> ChanModel.handler (ch s i) = ChanModel.HRun r ->
  ChanModel.handler (ch s' i) = ChanModel.HRun r /\ picked s' i = picked s i.
Proof.
  intros H N Hr. pose proof (step_callee _ _ _ i H) as C. destruct (callee_step s l i) as [x|] eqn:Ex; [|unfold picked; rewrite C; auto].
  eapply running_step; eauto. intros ->. destruct (step_free _ _ _ _ _ H Ex) as [[_ F]|[(k' & n' & m' & a' & _ & _ & X)|(k' & n' & _ & _ & X)]]; try discriminate X.
  cbn in F. unfold nested in N. destruct (waits s i); try discriminate. congruence.
Qed.
Lemma in_method_step s l s' : in_method s -> nstep s l = Some s' -> in_method s'.
Proof.
  intros I H i N. destruct (step_nested _ _ _ i H) as [E|[[_ E]|(j & m & args & -> & _ & _ & r & Hr)]]; [| congruence|].
  - rewrite E in N. destruct (I _ N) as [r Hr]. exists r. eapply handler_kept; eauto.
  - pose proof (step_callee _ _ _ i H) as C. cbn in C. rewrite C. eauto.
Qed.

Lemma nid_inj a b : nid a = nid b -> a = b. Proof. unfold nid. lia. Qed.
Lemma nid_odd n : Nat.even (nid n) = false.
Proof. unfold nid. rewrite Nat.even_add, Nat.even_mul. reflexivity. Qed.
(* issues by nested goroutines come from NSend *)
Lemma step_issue s l s' j r n c m args : nstep s l = Some s' -> In (ChanModel.EIssue r (nid n) c m args) (ChanModel.hist (ch s' j)) ->
  In (ChanModel.EIssue r (nid n) c m args) (ChanModel.hist (ch s j)) \/ (r = ChanModel.nreqs (ch s j) /\ exists k m' args', l = NSend k /\ waits s k = WAsked j n m' args').
Proof.
  intros H X. pose proof (step_callee _ _ _ j H) as C. destruct (callee_step s l j) as [x|] eqn:Ex; [|rewrite C in X; auto].
  destruct (chan_grows _ _ _ _ C) as (es & He & Hi). rewrite He in X. apply in_app_iff in X as [X|X]; auto. right.
  destruct (Hi _ _ _ _ _ X) as (-> & -> & _).
  split; auto. destruct (step_free _ _ _ _ _ H Ex) as [[_ F]|[(k' & n' & m' & a' & -> & Ew & Y)|(k' & n' & _ & _ & Y)]]; try discriminate Y.
  - unfold free in F. rewrite nid_odd in F. discriminate.
  - injection Y as Y _ _ _. apply nid_inj in Y as ->. eauto 6.
Qed.
(* the goroutines in nested calls *)
Record calls_ok s : Prop := {
  k_old : forall i j n, nested s i = Some (j, n) -> n < ncalls s;
  k_new : forall j n r c m args, ncalls s <= n -> ~ In (ChanModel.EIssue r (nid n) c m args) (ChanModel.hist (ch s j));
  k_one : forall i i' j j' n, nested s i = Some (j, n) -> nested s i' = Some (j', n) -> i = i';
  k_asked : forall i j n m args j' r c m' args', waits s i = WAsked j n m args -> ~ In (ChanModel.EIssue r (nid n) c m' args') (ChanModel.hist (ch s j'));
  k_sent : forall i j n, waits s i = WSent j n -> ChanModel.gor (ch s j) (nid n) <> ChanModel.GIdle /\
    forall r r' c c' m m' args args', In (ChanModel.EIssue r (nid n) c m args) (ChanModel.hist (ch s j)) -> In (ChanModel.EIssue r' (nid n) c' m' args') (ChanModel.hist (ch s j)) -> r = r';
  k_busy : forall j n, ChanModel.gor (ch s j) (nid n) <> ChanModel.GIdle -> exists i, waits s i = WSent j n }.
(* what a step does to who waits *)
Lemma step_waits s l s' i : nstep s l = Some s' ->
  waits s' i = match l with
    | NChan _ _ => waits s i
    | NCall k j m args => if i =? k then WAsked j (ncalls s) m args else waits s i
    | NSend k => if i =? k then match waits s i with WAsked j n _ _ => WSent j n | w => w end else waits s i
    | NReturn k => if i =? k then WNone else waits s i
    end /\ match l with
    | NCall k _ _ _ => waits s k = WNone /\ ncalls s' = S (ncalls s) | _ => ncalls s' = ncalls s end.
Proof.
  intros H. destruct l as [j x|k j m args|k|k]; cbn in H.
  - destruct (free s j x); [|discriminate]. destruct (ChanModel.cstep _ _ x); [|discriminate]. injection H as <-. auto.
  - destruct (ChanModel.handler _); try discriminate. destruct (waits s k) eqn:Ew; try discriminate. injection H as <-. cbn. auto.
  - destruct (waits s k) as [|j n m args|] eqn:Ew; try discriminate. destruct (ChanModel.cstep _ _ _); [|discriminate]. injection H as <-. cbn. rewrite upd_eq.
    split; auto. destruct (Nat.eqb_spec i k) as [->|]; auto. now rewrite Ew.
  - destruct (waits s k) as [| |j n] eqn:Ew; try discriminate. destruct (ChanModel.cstep _ _ _); [|discriminate]. injection H as <-. cbn. auto.
Qed.
(* nested goroutines enter and leave calls with their callees *)
Lemma step_gor s l s' j n : nstep s l = Some s' ->
  (ChanModel.gor (ch s' j) (nid n) = ChanModel.GIdle <-> ChanModel.gor (ch s j) (nid n) = ChanModel.GIdle) \/
  (exists k m args, l = NSend k /\ waits s k = WAsked j n m args /\ ChanModel.gor (ch s' j) (nid n) <> ChanModel.GIdle) \/
  (exists k, l = NReturn k /\ waits s k = WSent j n /\ ChanModel.gor (ch s' j) (nid n) = ChanModel.GIdle).
Proof.
  intros H. pose proof (step_callee _ _ _ j H) as C. destruct (callee_step s l j) as [x|] eqn:Ex; [|left; now rewrite C].
  destruct (step_free _ _ _ _ _ H Ex) as [[-> F]|[(k & n' & m & a & -> & Ew & ->)|(k & n' & -> & Ew & ->)]].
  - left. eapply gor_kept; eauto.
    + intros k m a ->. unfold free in F. now rewrite nid_odd in F.
    + intros ->. unfold free in F. now rewrite nid_odd in F.
  - destruct (call_effect _ _ _ _ _ _ _ C) as [_ G]. destruct (Nat.eq_dec n n') as [<-|N].
    + right. left. exists k, m, a. repeat split; auto. rewrite G, Nat.eqb_refl. discriminate.
    + left. rewrite G. destruct (Nat.eqb_spec (nid n) (nid n')) as [E|]; [|tauto]. now apply nid_inj in E.
  - destruct (receive_effect _ _ _ _ C) as (r & o & a & _ & _ & _ & G). destruct (Nat.eq_dec n n') as [<-|N].
    + right. right. exists k. repeat split; auto. now rewrite G, Nat.eqb_refl.
    + left. rewrite G. destruct (Nat.eqb_spec (nid n) (nid n')) as [E|]; [|tauto]. now apply nid_inj in E.
Qed.
Lemma calls_ok_step s l s' : calls_ok s -> nstep s l = Some s' -> calls_ok s'.
Proof.
  intros [K1 K2 K3 K4 K5 K6] H. pose proof (calls_grow _ _ _ H) as G.
  assert (A : forall i j n m args, waits s' i = WAsked j n m args -> waits s i = WAsked j n m args \/ (n = ncalls s)).
  { intros i j n m args E. destruct (step_waits _ _ _ i H) as [Ew _]. rewrite E in Ew. destruct l; auto; destruct (Nat.eqb_spec i i0); auto.
    - right. congruence.
    - destruct (waits s i); discriminate.
    - discriminate. }
  assert (B : forall i j n, waits s' i = WSent j n -> (waits s i = WSent j n /\ l <> NReturn i) \/ (l = NSend i /\ exists m args, waits s i = WAsked j n m args)).
  { intros i j n E. destruct (step_waits _ _ _ i H) as [Ew _]. rewrite E in Ew. destruct l; try (left; split; [symmetry; exact Ew|discriminate]); destruct (Nat.eqb_spec i i0); try discriminate Ew; try (left; split; [symmetry; exact Ew|congruence]).
    subst i0. destruct (waits s i) as [|? ? mm aa|] eqn:Ei; try discriminate; injection Ew as -> ->; [right|left]; eauto. split; auto. discriminate. }
  constructor.
  - intros i j n E. destruct (step_nested _ _ _ i H) as [X|[[_ X]|(j' & m & a & -> & _ & X & _)]]; [|congruence|].
    + rewrite X in E. specialize (K1 _ _ _ E). lia.
    + destruct (step_waits _ _ _ i H) as [_ [_ N]]. rewrite X in E. injection E as <- <-. lia.
  - intros j n r c m a L X. destruct (step_issue _ _ _ _ _ _ _ _ _ H X) as [Y|(_ & k & m' & a' & -> & Ew)].
    + eapply K2; [|exact Y]. lia.
    + assert (n < ncalls s) by (eapply (K1 k); unfold nested; rewrite Ew; reflexivity). lia.
  - assert (N : forall i j n, nested s' i = Some (j, n) -> nested s i = Some (j, n) \/ (n = ncalls s /\ exists j m a, l = NCall i j m a)).
    { intros i j n E. destruct (step_nested _ _ _ i H) as [X|[[_ X]|(j' & m & a & -> & _ & X & _)]]; [left; congruence|congruence|]. right. rewrite X in E. injection E as <- <-. eauto. }
    intros i i' j j' n E E'. destruct (N _ _ _ E) as [X|(X & ? & ? & ? & Y)], (N _ _ _ E') as [X'|(X' & ? & ? & ? & Y')]; eauto.
    + apply K1 in X. lia.
    + apply K1 in X'. lia.
    + congruence.
  - intros i j n m a j' r c m' a' E X. destruct (A _ _ _ _ _ E) as [E0| ->].
    + destruct (step_issue _ _ _ _ _ _ _ _ _ H X) as [Y|(_ & k & m2 & a2 & -> & Ew)]; [eapply K4; eauto|].
      assert (i = k) by (eapply K3; unfold nested; [rewrite E0|rewrite Ew]; reflexivity). subst k.
      destruct (step_waits _ _ _ i H) as [W _]. rewrite Nat.eqb_refl, E0, E in W. discriminate.
    + destruct (step_issue _ _ _ _ _ _ _ _ _ H X) as [Y|(_ & k & m2 & a2 & -> & Ew)]; [eapply (K2 j' (ncalls s)); [|exact Y]; lia|].
      assert (ncalls s < ncalls s) by (eapply (K1 k); unfold nested; rewrite Ew; reflexivity). lia.
  - intros i j n E. destruct (B _ _ _ E) as [[E0 NR]|[-> (m0 & a0 & E0)]].
    + destruct (K5 _ _ _ E0) as [Gn U].
      assert (Is : forall r c m a, In (ChanModel.EIssue r (nid n) c m a) (ChanModel.hist (ch s' j)) -> In (ChanModel.EIssue r (nid n) c m a) (ChanModel.hist (ch s j))).
      { intros r c m a X. destruct (step_issue _ _ _ _ _ _ _ _ _ H X) as [Y|(_ & k & m2 & a2 & -> & Ew)]; auto. exfalso.
        assert (i = k) by (eapply K3; unfold nested; [rewrite E0|rewrite Ew]; reflexivity). subst k. congruence. }
      split; [|intros; eapply U; apply Is; eauto].
      destruct (step_gor _ _ _ j n H) as [X|[(k & m2 & a2 & _ & _ & X)|(k & -> & Ew & _)]]; auto; [now rewrite X|].
      exfalso. apply NR. f_equal. symmetry. eapply K3; unfold nested; [rewrite E0|rewrite Ew]; reflexivity.
    + assert (Is : forall r c m a, In (ChanModel.EIssue r (nid n) c m a) (ChanModel.hist (ch s' j)) -> r = ChanModel.nreqs (ch s j)).
      { intros r c m a X. destruct (step_issue _ _ _ _ _ _ _ _ _ H X) as [Y|(? & _)]; auto. exfalso. eapply K4; eauto. }
      split.
      * destruct (step_gor _ _ _ j n H) as [X|[(k & m2 & a2 & _ & _ & X)|(k & X & _)]]; auto; [|discriminate X].
        pose proof (step_callee _ _ _ j H) as C. cbn in C. rewrite E0, Nat.eqb_refl in C. destruct (call_effect _ _ _ _ _ _ _ C) as [_ Ge].
        rewrite Ge, Nat.eqb_refl. discriminate.
      * intros. rewrite (Is _ _ _ _ H0). symmetry. eapply Is; eauto.
  - intros j n N. destruct (step_gor _ _ _ j n H) as [X|[(k & m2 & a2 & -> & Ew & _)|(k & _ & _ & X)]]; [| |congruence].
    + assert (N0 : ChanModel.gor (ch s j) (nid n) <> ChanModel.GIdle) by now rewrite <- X. destruct (K6 _ _ N0) as [i Ei].
      exists i. destruct (step_waits _ _ _ i H) as [W E']. rewrite W. destruct l as [|k ? ? ?|k|k]; auto; destruct (Nat.eqb_spec i k) as [<-|]; auto.
      * destruct E' as [E' _]. congruence.
      * now rewrite Ei.
      * exfalso. apply N. pose proof (step_callee _ _ _ j H) as C. cbn in C. rewrite Ei, Nat.eqb_refl in C. destruct (receive_effect _ _ _ _ C) as (? & ? & ? & _ & _ & _ & Ge).
        rewrite Ge, Nat.eqb_refl. reflexivity.
    + exists k. destruct (step_waits _ _ _ k H) as [W _]. now rewrite W, Nat.eqb_refl, Ew.
Qed.
Lemma nest_good ls s : exec nstep ninit ls = Some s -> in_method s /\ calls_ok s.
Proof.
  apply (exec_inv nstep (fun s => in_method s /\ calls_ok s)).
  - intros a l b [I K] E. split; [eapply in_method_step|eapply calls_ok_step]; eauto.
  - split; [intros i N; destruct N; reflexivity|]. constructor; cbn; try discriminate; try tauto.
Qed.
Lemma reach_step ls s l s' : exec nstep ninit ls = Some s -> nstep s l = Some s' -> exec nstep ninit (ls ++ [l]) = Some s'.
Proof. intros H E. rewrite exec_app, H. cbn. now rewrite E. Qed.
End Nest.
