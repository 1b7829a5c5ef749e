(* Methods that call: what happens by itself comes to an end. *)
From Verif Require Import Lts NestModel NestSpec FullProof NestProof.
From Verif Require ChanModel ChanSpec ChanProof ChanProof2 ChanProof3 ChanProof4.
From Coq Require Import Arith Bool List ZArith Lia.
Import ListNotations.
Open Scope nat_scope.

(* sums *)
Fixpoint total (f : nat -> nat) (n : nat) : nat := match n with 0 => 0 | S k => f k + total f k end.
Lemma total_le f g n : (forall k, k < n -> f k <= g k) -> total f n <= total g n.
Proof. induction n; cbn; intros H; auto. pose proof (H n ltac:(lia)). specialize (IHn ltac:(intros; apply H; lia)). lia. Qed.
Lemma total_lt f g n k : (forall k, k < n -> f k <= g k) -> k < n -> f k < g k -> total f n < total g n.
Proof.
  induction n; cbn; intros H L S; [lia|]. pose proof (H n ltac:(lia)). assert (H' : forall k, k < n -> f k <= g k) by (intros; apply H; lia).
  destruct (Nat.eq_dec k n) as [->|]; [pose proof (total_le _ _ _ H'); lia|]. specialize (IHn H' ltac:(lia) S). lia.
Qed.
Lemma total_const B n : total (fun _ => B) n = B * n.
Proof. induction n; cbn; lia. Qed.
Lemma total_one f g n k : (forall j, j <> k -> f j = g j) -> k < n -> total f n + g k = total g n + f k.
Proof.
  induction n; cbn; intros H L; [lia|]. destruct (Nat.eq_dec k n) as [->|N].
  - assert (total f n = total g n); [|lia]. clear -H. assert (Y : forall m, m <= n -> total f m = total g m); [|apply Y; lia].
    induction m; cbn; intros; auto. rewrite IHm by lia. rewrite H by lia. reflexivity.
  - specialize (IHn H ltac:(lia)). rewrite (H n) by lia. lia.
Qed.

(* ---- one callee ---- *)
Section Callee.
Context {O V : Type}.
Variable T : ChanModel.target O V.
Implicit Types c : ChanModel.chan O V.
Definition tstage (t : ChanModel.tpoint) : nat :=
  match t with ChanModel.TNone => 0 | ChanModel.TStarted _ => 1 | ChanModel.TAsleep _ => 2 | ChanModel.TLocked => 3 | ChanModel.TSet => 4 | ChanModel.TSend => 5 | ChanModel.TUnlock => 6 | ChanModel.TEnded => 7 end.
Definition hstage (h : ChanModel.hpoint V) (r : nat) : nat :=
  match h with
  | ChanModel.HIdle => 7 | ChanModel.HRun q => if q =? r then 1 else 7 | ChanModel.HResult q _ => if q =? r then 2 else 7 | ChanModel.HLocked q _ => if q =? r then 3 else 7
  | ChanModel.HSet q _ => if q =? r then 4 else 7 | ChanModel.HSend q _ => if q =? r then 5 else 7 | ChanModel.HUnlock q => if q =? r then 6 else 7 end.
Definition isin (r : nat) (l : list nat) : bool := existsb (Nat.eqb r) l.
Definition returned (h : list (ChanModel.event V)) : list nat := flat_map (fun e => match e with ChanModel.EReturn _ r _ _ => [r] | _ => [] end) h.
Definition stage c (r : nat) : nat :=
  tstage (ChanModel.timer c r) + (if isin r (ChanSpec.started (ChanModel.hist c)) then hstage (ChanModel.handler c) r else 0) +
  (if isin r (ChanSpec.enqueued (ChanModel.hist c)) then 1 else 0) + (if isin r (returned (ChanModel.hist c)) then 1 else 0).
Lemma isin_in r l : isin r l = true <-> In r l.
Proof. unfold isin. rewrite existsb_exists. split; [intros (x & H & E); apply Nat.eqb_eq in E; now subst|]. intros H. exists r. split; auto. apply Nat.eqb_refl. Qed.
Lemma isin_app r a b : isin r (a ++ b) = isin r a || isin r b. Proof. apply existsb_app. Qed.
Lemma hstage_le h r : hstage h r <= 7. Proof. destruct h; cbn; try lia; destruct (_ =? _); lia. Qed.
Lemma stage_le c r : stage c r <= 16.
Proof. unfold stage. pose proof (hstage_le (ChanModel.handler c) r). assert (tstage (ChanModel.timer c r) <= 7) by (destruct (ChanModel.timer c r); cbn; lia). destruct (isin _ _), (isin _ _), (isin _ _); lia. Qed.
Lemma returned_app a b : returned (a ++ b) = returned a ++ returned b. Proof. apply flat_map_app. Qed.

(* a request whose call has returned is no goroutine's any more *)
Definition over c : Prop := forall r, In r (returned (ChanModel.hist c)) -> r < ChanModel.nreqs c /\ forall g, ~ In r (ChanProof.gref (ChanModel.gor c g)).
Lemma over_step c l c' : ChanProof.good c -> over c -> ChanModel.cstep T c l = Some c' -> over c'.
Proof.
  intros (B & F & L) I H r. specialize (I r). pose proof (ChanProof.b_gor _ B) as Bg.
  assert (Own : forall g g' x, In x (ChanProof.gref (ChanModel.gor c g)) -> In x (ChanProof.gref (ChanModel.gor c g')) -> g = g').
  { assert (Z0 : forall g x, In x (ChanProof.gref (ChanModel.gor c g)) -> ChanModel.rq_gor (ChanModel.reqs c x) = g).
    { intros g x X. destruct (ChanModel.gor c g) eqn:E; cbn in X; [destruct X| |]; destruct X as [->|[]]; [apply (ChanProof.f_sending _ F _ _ E)|apply (ChanProof.f_waiting _ F _ _ E)]. }
    intros g g' x X Y. rewrite <- (Z0 _ _ X). apply Z0, Y. }
  destruct l; ChanProof.steps H; rewrite ?returned_app, ?in_app_iff; cbn [returned flat_map app In]; rewrite ?app_nil_r; try tauto; try exact I.
  - intros [X|[]]. destruct (I X) as [Lt N]. split; [lia|]. intros g'. unfold ChanModel.upd. destruct (Nat.eqb_spec g' g); [subst|apply N]. cbn. intros [X'|[]]. lia.
  - intros [X|[]]. destruct (I X) as [Lt N]. split; [lia|]. intros g'. unfold ChanModel.upd. destruct (Nat.eqb_spec g' g); [subst|apply N]. cbn. intros [X'|[]].
    subst. apply (N g). match goal with E : ChanModel.gor c g = _ |- _ => rewrite E end. now left.
  - intros [X|[X|[]]].
    + destruct (I X) as [Lt N]. split; [lia|]. intros g'. unfold ChanModel.upd. destruct (Nat.eqb_spec g' g); [cbn; tauto|apply N].
    + subst. assert (X : In r (ChanProof.gref (ChanModel.gor c g))) by (match goal with E : ChanModel.gor c g = _ |- _ => rewrite E end; now left). split; [eapply Bg; exact X|].
      intros g'. unfold ChanModel.upd. destruct (Nat.eqb_spec g' g) as [|N]; [cbn; tauto|]. intros Y. apply N. eapply Own; eauto.
Qed.
Definition spontaneous (l : ChanModel.label V) : bool :=
  match l with ChanModel.LTick _ | ChanModel.LSetTimeout _ _ | ChanModel.LCall _ _ _ _ => false | _ => true end.
Lemma stage_step c l c' : ChanProof.good c -> over c -> ChanModel.cstep T c l = Some c' -> ChanModel.crashed c' = false ->
  (forall r, stage c r <= stage c' r) /\ (spontaneous l = true -> exists r, r < ChanModel.nreqs c /\ stage c r < stage c' r) /\
  ChanModel.nreqs c' = match l with ChanModel.LCall _ _ _ _ => S (ChanModel.nreqs c) | _ => ChanModel.nreqs c end.
Proof.
  intros (B & F & L) I H Cr.
  assert (Hh : forall q, In q (ChanProof.href (ChanModel.handler c)) -> isin q (ChanSpec.started (ChanModel.hist c)) = true /\ q < ChanModel.nreqs c).
  { intros q X. split; [apply isin_in, (ChanProof.f_handler _ F), X|apply (ChanProof.b_handler _ B), X]. }
  assert (D : forall c' q, (forall r, stage c r <= stage c' r) /\ (q < ChanModel.nreqs c /\ stage c q < stage c' q) ->
     (forall r, stage c r <= stage c' r) /\ (spontaneous l = true -> exists r, r < ChanModel.nreqs c /\ stage c r < stage c' r)) by (intros ? q [X Y]; split; eauto).
  assert (Cd : (forall r, stage c r <= stage c' r) /\ (spontaneous l = true -> exists r, r < ChanModel.nreqs c /\ stage c r < stage c' r)); [|destruct Cd; repeat split; auto; destruct l; ChanProof.steps H; reflexivity].
  assert (Kh : forall (h : ChanModel.hpoint V) q, (forall r, r <> q -> hstage h r = hstage (ChanModel.handler c) r) -> hstage (ChanModel.handler c) q < hstage h q -> In q (ChanProof.href (ChanModel.handler c)) ->
    forall f h0, f = ChanModel.timer c -> h0 = ChanModel.hist c ->
    ((forall r, stage c r <= tstage (f r) + (if isin r (ChanSpec.started h0) then hstage h r else 0) + (if isin r (ChanSpec.enqueued h0) then 1 else 0) + (if isin r (returned h0) then 1 else 0)) /\
    exists r, r < ChanModel.nreqs c /\ stage c r < tstage (f r) + (if isin r (ChanSpec.started h0) then hstage h r else 0) + (if isin r (ChanSpec.enqueued h0) then 1 else 0) + (if isin r (returned h0) then 1 else 0))).
  { intros h q H1 H2 H3 f h0 -> ->. destruct (Hh _ H3) as [S Lt]. split.
    - intros r. unfold stage. destruct (Nat.eq_dec r q) as [->|N]; [rewrite S; lia|rewrite (H1 _ N); lia].
    - exists q. split; auto. unfold stage. rewrite S. lia. }
  assert (Kt : forall q t, ChanModel.timer c q <> ChanModel.TNone -> tstage (ChanModel.timer c q) < tstage t ->
    forall h h0, h = ChanModel.handler c -> h0 = ChanModel.hist c ->
    ((forall r, stage c r <= tstage (ChanModel.upd (ChanModel.timer c) q t r) + (if isin r (ChanSpec.started h0) then hstage h r else 0) + (if isin r (ChanSpec.enqueued h0) then 1 else 0) + (if isin r (returned h0) then 1 else 0)) /\
    exists r, r < ChanModel.nreqs c /\ stage c r < tstage (ChanModel.upd (ChanModel.timer c) q t r) + (if isin r (ChanSpec.started h0) then hstage h r else 0) + (if isin r (ChanSpec.enqueued h0) then 1 else 0) + (if isin r (returned h0) then 1 else 0))).
  { intros q t N Lt h h0 -> ->. split.
    - intros r. unfold stage, ChanModel.upd. destruct (Nat.eqb_spec r q) as [->|]; lia.
    - exists q. split; [apply (ChanProof.b_timer _ B), N|]. unfold stage, ChanModel.upd. rewrite Nat.eqb_refl. lia. }
  assert (W : forall P Q : Prop, P /\ Q -> P /\ (spontaneous l = true -> Q)) by tauto.
  destruct l; ChanProof.steps H.
  all: unfold stage at 2 4; ChanProof.proj; rewrite ?ChanProof.started_app, ?ChanProof.enqueued_app, ?returned_app; cbn [ChanSpec.started ChanSpec.enqueued returned flat_map app]; rewrite ?app_nil_r.
  all: try (split; [intros; unfold stage; lia|discriminate]).
  all: apply W.
  all: try (match goal with E : ChanModel.timer _ ?q = _ |- _ => apply (Kt q); [rewrite E; discriminate|rewrite E; cbn; lia|reflexivity|reflexivity] end).
  all: try discriminate Cr.
  4-10: match goal with E : ChanModel.handler _ = _ |- _ => rename E into Eh end; refine (Kh _ r _ _ _ _ _ _ _); try reflexivity; rewrite ?Eh; try (now left);
    try (intros x Nx; rewrite ?Eh; cbn; destruct (Nat.eqb_spec r x); [congruence|reflexivity]); cbn; rewrite ?Nat.eqb_refl; cbn; lia.
  - match goal with E : ChanModel.gor c g = _ |- _ => destruct (ChanProof.f_sending _ F _ _ E) as [N _]; assert (Lt : r < ChanModel.nreqs c) by (apply (ChanProof.b_gor _ B g); rewrite E; now left) end.
    split.
    + intros x. rewrite isin_app. unfold stage. destruct (isin x (ChanSpec.enqueued _)); cbn; try lia; destruct (x =? r); cbn; lia.
    + exists r. split; auto. rewrite isin_app. unfold stage. destruct (isin r (ChanSpec.enqueued _)) eqn:Ei; [apply isin_in in Ei; contradiction|]. cbn. rewrite Nat.eqb_refl. cbn. lia.
  - match goal with E : ChanModel.gor c g = _ |- _ => assert (Hg : In r (ChanProof.gref (ChanModel.gor c g))) by (rewrite E; now left) end. pose proof (ChanProof.b_gor _ B g _ Hg) as Lt.
    split.
    + intros x. rewrite isin_app. unfold stage. destruct (isin x (returned _)); cbn; try lia; destruct (x =? r); cbn; lia.
    + exists r. split; auto. rewrite isin_app. unfold stage. destruct (isin r (returned _)) eqn:Ei; [apply isin_in in Ei; exfalso; exact (proj2 (I _ Ei) g Hg)|]. cbn. rewrite Nat.eqb_refl. cbn. lia.
  - match goal with E : ChanModel.handler c = _ |- _ => rename E into Eh end. match goal with E : ChanModel.queue c = _ |- _ => rename E into Eq end.
    assert (Hq : In n (ChanModel.queue c)) by (rewrite Eq; now left). destruct (ChanProof.queued_not_started _ _ F Hq) as [Ns Tn]. pose proof (ChanProof.b_queue _ B _ Hq) as Lt.
    split.
    + intros x. rewrite isin_app. unfold stage, ChanModel.upd. rewrite Eh. cbn. destruct (Nat.eqb_spec x n) as [->|Nx]; cbn.
      * rewrite Tn. cbn. destruct (isin n (ChanSpec.started _)) eqn:Ei; [apply isin_in in Ei; contradiction|]. cbn. lia.
      * rewrite orb_false_r. destruct (Nat.eqb_spec n x); [congruence|]. lia.
    + exists n. split; auto. rewrite isin_app. unfold stage, ChanModel.upd. rewrite Eh, Tn, Nat.eqb_refl. cbn.
      destruct (isin n (ChanSpec.started _)) eqn:Ei; [apply isin_in in Ei; contradiction|]. cbn. lia.
Qed.
Definition progress c : nat := total (stage c) (ChanModel.nreqs c).
Lemma progress_step c l c' : ChanProof.good c -> over c -> ChanModel.cstep T c l = Some c' -> ChanModel.crashed c' = false ->
  progress c + (if spontaneous l then 1 else 0) <= progress c' /\ ChanModel.nreqs c' = ChanModel.nreqs c + match l with ChanModel.LCall _ _ _ _ => 1 | _ => 0 end.
Proof.
  intros G I H C. destruct (stage_step _ _ _ G I H C) as (S1 & S2 & N). unfold progress. split; [|destruct l; lia].
  destruct (spontaneous l) eqn:E.
  - destruct (S2 eq_refl) as (r & Lt & S). replace (ChanModel.nreqs c') with (ChanModel.nreqs c) by (destruct l; try discriminate E; congruence).
    pose proof (total_lt (stage c) (stage c') (ChanModel.nreqs c) r ltac:(auto) Lt S). lia.
  - pose proof (total_le (stage c) (stage c') (ChanModel.nreqs c) ltac:(auto)). assert (total (stage c') (ChanModel.nreqs c) <= total (stage c') (ChanModel.nreqs c')); [|lia].
    rewrite N. destruct l; cbn; lia.
Qed.
Lemma progress_le c : progress c <= 16 * ChanModel.nreqs c.
Proof. unfold progress. rewrite <- total_const. apply total_le. intros. apply stage_le. Qed.
Lemma good_over o ls c : exec (ChanModel.cstep T) (ChanModel.new_chan o) ls = Some c -> ChanProof.good c /\ over c.
Proof.
  intros H. apply (exec_inv (ChanModel.cstep T) (fun x => ChanProof.good x /\ over x)) with (ls := ls) (s := ChanModel.new_chan o); auto.
  - intros a l b [G K] E. split; [apply (ChanProof.good_step T _ _ _ G E)|apply (over_step _ _ _ G K E)].
  - split; [apply ChanProof.good_init|]. intros r [].
Qed.
Lemma crash_sticky c l c' : ChanModel.cstep T c l = Some c' -> ChanModel.crashed c = false.
Proof. unfold ChanModel.cstep. now destruct (ChanModel.crashed c). Qed.
End Callee.

Section Nest.
Context {O V : Type}.
Variables (T : nat -> ChanModel.target O V) (o0 : nat -> O).
Notation nstep := (nstep T).
Notation ninit := (ninit o0).
Implicit Types s : nest O V.
Definition count {A} (p : A -> bool) (l : list A) : nat := length (filter p l).
Lemma count_snoc {A} (p : A -> bool) l x : count p (l ++ [x]) = count p l + (if p x then 1 else 0).
Proof. unfold count. rewrite filter_app, app_length. cbn. destruct (p x); reflexivity. Qed.
Definition callee_of (l : nlab V) : list nat := match l with NChan i _ => [i] | NCall i j _ _ => [i; j] | NSend i => [i] | NReturn i => [i] end.
Definition asking (w : wait V) : nat := match w with WAsked _ _ _ _ => 1 | _ => 0 end.
Definition below N (ls : list (nlab V)) : Prop := forall l, In l ls -> forall i, In i (callee_of l) -> i < N.
Lemma waits_below N ls s i j n : below N ls -> exec nstep ninit ls = Some s -> nested s i = Some (j, n) -> i < N /\ j < N.
Proof.
  intros B. revert s. induction ls as [|l ls IH] using rev_ind; intros s H E; [injection H as <-; discriminate|].
  assert (B' : below N ls) by (intros x X; apply B, in_or_app; now left).
  apply exec_split in H as (m & H1 & H2). cbn in H2. destruct (nstep m l) as [m'|] eqn:Es; [|discriminate]. injection H2 as <-.
  destruct (step_nested _ _ _ _ i Es) as [X|[[_ X]|(j' & mm & a & -> & Nn & X & _)]]; [|congruence|].
  - rewrite X in E. eauto.
  - rewrite X in E. injection E as -> _. assert (In (NCall i j mm a) (ls ++ [NCall i j mm a])) by (apply in_or_app; right; now left).
    split; eapply (B _ H); cbn; auto.
Qed.
Notation is_call := (fun l : nlab V => match l with NChan _ (ChanModel.LCall _ _ _ _) => true | _ => false end).
Notation is_ncall := (fun l : nlab V => match l with NCall _ _ _ _ => true | _ => false end).
Notation is_send := (fun l : nlab V => match l with NSend _ => true | _ => false end).
Notation is_itself := (fun l : nlab V => match l with NChan _ l => spontaneous l | NCall _ _ _ _ => false | _ => true end).
Lemma total_ext f g n : (forall k, f k = g k) -> total f n = total g n.
Proof. intros H. induction n; cbn; auto. Qed.
Lemma counts N ls s : below N ls -> exec nstep ninit ls = Some s -> (forall i, ChanModel.crashed (ch s i) = false) ->
  count is_itself ls <= total (fun i => progress (ch s i)) N + count is_send ls /\
  total (fun i => ChanModel.nreqs (ch s i)) N = count is_call ls + count is_send ls /\
  count is_send ls + total (fun i => asking (waits s i)) N = count is_ncall ls.
Proof.
  intros B. revert s. induction ls as [|l ls IH] using rev_ind; intros s H C.
  { injection H as <-. cbn. unfold progress. cbn. rewrite (total_const 0). lia. }
  assert (B' : below N ls) by (intros x X; apply B, in_or_app; now left).
  assert (Bl : forall i, In i (callee_of l) -> i < N) by (apply B, in_or_app; right; now left).
  apply exec_split in H as (m & H1 & H2). cbn [exec] in H2. destruct (nstep m l) as [m'|] eqn:Es; [|discriminate]. injection H2 as ->.
  assert (Cm : forall i, ChanModel.crashed (ch m i) = false).
  { intros i. pose proof (step_callee _ _ _ _ i Es) as S. destruct (callee_step m l i); [eapply crash_sticky; exact S|]. now rewrite <- S. }
  destruct (IH B' _ H1 Cm) as (I1 & I2 & I3). clear IH. rewrite !count_snoc.
  assert (Pr : forall i, match callee_step m l i with
     | Some x => progress (ch m i) + (if spontaneous x then 1 else 0) <= progress (ch s i) /\ ChanModel.nreqs (ch s i) = ChanModel.nreqs (ch m i) + match x with ChanModel.LCall _ _ _ _ => 1 | _ => 0 end
     | None => ch s i = ch m i end).
  { intros i. pose proof (step_callee _ _ _ _ i Es) as S. destruct (callee_step m l i) as [x|]; auto. destruct (callee_runs _ _ _ _ i H1) as (lc & Rc & _).
    destruct (good_over _ _ _ _ Rc) as [G Ov]. eapply progress_step; eauto. }
  (* the callee the step is about *)
  assert (One : forall k x, k < N -> callee_step m l k = Some x -> (forall i, i <> k -> callee_step m l i = None) ->
     total (fun i => progress (ch m i)) N + (if spontaneous x then 1 else 0) <= total (fun i => progress (ch s i)) N /\
     total (fun i => ChanModel.nreqs (ch s i)) N = total (fun i => ChanModel.nreqs (ch m i)) N + match x with ChanModel.LCall _ _ _ _ => 1 | _ => 0 end).
  { intros k x Lk Ex Oth. pose proof (Pr k) as Pk. rewrite Ex in Pk.
    assert (Same : forall i, i <> k -> ch m i = ch s i) by (intros i Ni; pose proof (Pr i) as Pi; rewrite (Oth _ Ni) in Pi; auto).
    pose proof (total_one (fun i => progress (ch m i)) (fun i => progress (ch s i)) N k ltac:(intros j Nj; cbn; now rewrite (Same _ Nj)) Lk) as T1.
    pose proof (total_one (fun i => ChanModel.nreqs (ch m i)) (fun i => ChanModel.nreqs (ch s i)) N k ltac:(intros j Nj; cbn; now rewrite (Same _ Nj)) Lk) as T2.
    cbn in T1, T2. lia. }
  assert (Wt : forall k, k < N -> (forall i, i <> k -> waits s i = waits m i) ->
     total (fun i => asking (waits s i)) N + asking (waits m k) = total (fun i => asking (waits m i)) N + asking (waits s k)).
  { intros k Lk Oth. apply (total_one (fun i => asking (waits s i)) (fun i => asking (waits m i))); auto. intros j Nj. cbn. now rewrite Oth. }
  pose proof (fun i => step_waits _ _ _ _ i Es) as W.
  destruct l as [k x|k j mm a|k|k].
  - destruct (One k x) as [O1 O2]; [apply Bl; now left|cbn; now rewrite Nat.eqb_refl|intros i Ni; cbn; destruct (Nat.eqb_spec i k); congruence|].
    rewrite (total_ext (fun i => asking (waits s i)) (fun i => asking (waits m i))) by (intros i; now rewrite (proj1 (W i))).
    destruct x; cbn in *; lia.
  - rewrite (total_ext (fun i => progress (ch s i)) (fun i => progress (ch m i))) by (intros i; now rewrite (Pr i)).
    rewrite (total_ext (fun i => ChanModel.nreqs (ch s i)) (fun i => ChanModel.nreqs (ch m i))) by (intros i; now rewrite (Pr i)).
    assert (Lk : k < N) by (apply Bl; now left). pose proof (Wt k Lk) as Wk. destruct (W k) as [W1 [W2 _]]. rewrite Nat.eqb_refl in W1. rewrite W1, W2 in Wk. cbn in *.
    specialize (Wk ltac:(intros i Ni; rewrite (proj1 (W i)); destruct (Nat.eqb_spec i k); congruence)). lia.
  - assert (Lk : k < N) by (apply Bl; now left). pose proof (Wt k Lk) as Wk. destruct (W k) as [W1 _]. rewrite Nat.eqb_refl in W1.
    specialize (Wk ltac:(intros i Ni; rewrite (proj1 (W i)); destruct (Nat.eqb_spec i k); congruence)).
    pose proof Es as Es'. unfold NestModel.nstep in Es'. destruct (waits m k) as [|j n mm a|] eqn:Ew; try discriminate. rewrite W1 in Wk. cbn [asking] in Wk.
    destruct (One j (ChanModel.LCall (nid n) (nid n) mm a)) as [O1 O2].
    + eapply (waits_below N ls m k); eauto. unfold nested. rewrite Ew. reflexivity.
    + unfold callee_step. rewrite Ew, Nat.eqb_refl. reflexivity.
    + intros i Ni. unfold callee_step. rewrite Ew. destruct (Nat.eqb_spec i j); congruence.
    + cbn in O1, O2. cbv beta. lia.
  - assert (Lk : k < N) by (apply Bl; now left). pose proof (Wt k Lk) as Wk. destruct (W k) as [W1 _]. rewrite Nat.eqb_refl in W1.
    specialize (Wk ltac:(intros i Ni; rewrite (proj1 (W i)); destruct (Nat.eqb_spec i k); congruence)).
    pose proof Es as Es'. unfold NestModel.nstep in Es'. destruct (waits m k) as [| |j n] eqn:Ew; try discriminate. rewrite W1 in Wk. cbn [asking] in Wk.
    destruct (One j (ChanModel.LReceive (nid n))) as [O1 O2].
    + eapply (waits_below N ls m k); eauto. unfold nested. rewrite Ew. reflexivity.
    + unfold callee_step. rewrite Ew, Nat.eqb_refl. reflexivity.
    + intros i Ni. unfold callee_step. rewrite Ew. destruct (Nat.eqb_spec i j); congruence.
    + cbn in O1, O2. cbv beta. lia.
Qed.
Lemma below_some (ls : list (nlab V)) : exists N, below N ls.
Proof.
  exists (S (list_max (flat_map callee_of ls))). intros l Hl i Hi. apply Nat.lt_succ_r.
  pose proof (proj1 (list_max_le (flat_map callee_of ls) _) (Nat.le_refl _)) as F. rewrite Forall_forall in F. apply F. apply in_flat_map. eauto.
Qed.
Lemma total_scale f n : total (fun i => 16 * f i) n = 16 * total f n.
Proof. induction n; cbn [total]; lia. Qed.
Lemma ends ls s : exec nstep ninit ls = Some s -> (forall i, ChanModel.crashed (ch s i) = false) ->
  number by_itself ls <= 17 * number new_call ls.
Proof.
  intros H C. destruct (below_some ls) as [N B]. destruct (counts N _ _ B H C) as (I1 & I2 & I3).
  pose proof (total_le (fun i => progress (ch s i)) (fun i => 16 * ChanModel.nreqs (ch s i)) N ltac:(intros; apply progress_le)) as L. rewrite total_scale in L.
  assert (E1 : number by_itself ls = count is_itself ls) by (unfold number, count; f_equal; apply filter_ext; intros [? []| | |]; reflexivity).
  assert (E2 : number new_call ls = count is_call ls + count is_ncall ls).
  { unfold number, count. clear. induction ls as [|[? []| | |] ls IH]; cbn; lia. }
  lia.
Qed.
(* the answer to a call made by a method is its own *)
Lemma own_answers ls s j n r q a : exec nstep ninit ls = Some s -> In (ChanModel.EReturn (nid n) r q a) (ChanModel.hist (ch s j)) ->
  q = r /\ exists i c m args, In (NCall i j m args) ls /\ In (ChanModel.EIssue r (nid n) c m args) (ChanModel.hist (ch s j)) /\
    match a with ChanModel.AResult l => In (ChanModel.EEnd r l) (ChanModel.hist (ch s j)) | ChanModel.ATimeout m' => m' = m end.
Proof.
  intros H I. destruct (callee_facts _ _ _ _ j H) as (lc & Rc & D). destruct (ChanProof2.own_answer _ _ _ _ _ _ _ _ Rc D I) as (-> & c & m & args & Is & A).
  split; auto.
  assert (G : forall ls s, exec nstep ninit ls = Some s -> (forall i j n m args, waits s i = WAsked j n m args -> In (NCall i j m args) ls) /\
     forall j r n c m args, In (ChanModel.EIssue r (nid n) c m args) (ChanModel.hist (ch s j)) -> exists i, In (NCall i j m args) ls).
  { clear. intros ls. induction ls as [|l ls IH] using rev_ind; intros s H; [injection H as <-; split; [discriminate|intros ? ? ? ? ? ? []]|].
    apply exec_split in H as (m & H1 & H2). cbn in H2. destruct (nstep m l) as [m'|] eqn:Es; [|discriminate]. injection H2 as <-. destruct (IH _ H1) as [IH1 IH2]. split.
    - intros i j n mm a E. destruct (step_waits _ _ _ _ i Es) as [W _]. rewrite E in W. apply in_or_app.
      destruct l as [|k j' m2 a2|k|k]; try (left; eapply IH1; symmetry; exact W); destruct (Nat.eqb_spec i k) as [->|]; try (left; eapply IH1; symmetry; exact W); try discriminate W.
      + injection W as -> _ -> ->. right. now left.
      + destruct (waits m k); discriminate W.
    - intros j r n c mm a X. destruct (step_issue _ _ _ _ _ _ _ _ _ _ Es X) as [Y|(-> & k & m2 & a2 & -> & Ew)].
      + destruct (IH2 _ _ _ _ _ _ Y) as [i Hi]. exists i. apply in_or_app. now left.
      + exists k. apply in_or_app. left. pose proof (step_callee _ _ _ _ j Es) as C. unfold callee_step in C. rewrite Ew, Nat.eqb_refl in C.
        destruct (callee_facts _ _ _ _ j H1) as (lc & Rc & _). destruct (call_effect _ _ _ _ _ _ _ C) as [He _]. rewrite He in X. apply in_app_iff in X as [X|[X|[]]].
        * exfalso. destruct (ChanProof2.whole_exec _ _ _ _ Rc) as (_ & [_ Io] & _). apply Io in X as [X _]. lia.
        * injection X as <- <- <-. eapply IH1; exact Ew. }
  destruct (proj2 (G _ _ H) _ _ _ _ _ _ Is) as [i Hi]. exists i, c, m, args. auto.
Qed.
End Nest.
