(* chancall: endless runs. *)
From Verif Require Import Lts GoInt GoFloat ChanModel ChanSpec ChanProof ChanProof2 ChanProof3 ChanProof4 ChanLiveSpec.
From Coq Require Import Arith Bool List ZArith Lia.
Import ListNotations.
Open Scope nat_scope.

Section Proof.
Context {O V : Type} (T : target O V) (o : O).
Variables (run : nat -> chan O V) (lab : nat -> option (label V)).
Hypothesis Run : endless T o run lab.
Hypothesis One : disciplined lab.
Hypothesis Sane : no_panic run.
Implicit Types (s : chan O V).

Lemma schedule_S n : schedule lab (S n) = schedule lab n ++ match lab n with Some l => [l] | None => [] end.
Proof. unfold schedule. rewrite seq_S, flat_map_app. cbn [flat_map]. rewrite app_nil_r. reflexivity. Qed.
Lemma reached n : exec (cstep T) (new_chan o) (schedule lab n) = Some (run n).
Proof.
  induction n as [|n IH]; [rewrite (e_start _ _ _ _ Run); reflexivity|]. rewrite schedule_S, exec_app, IH.
  pose proof (e_step _ _ _ _ Run n) as X. destruct (lab n); cbn [exec]; [rewrite X; reflexivity|rewrite X; reflexivity].
Qed.
Lemma good_at n : good (run n). Proof. exact (good_exec T _ _ _ (reached n)). Qed.
Lemma own_at n : own (run n). Proof. exact (proj1 (own_exec T _ _ _ (reached n) (One n))). Qed.
Lemma blocked_at n : (forall r l, handler (run n) = HSend r l -> cstep T (run n) LRespond <> None) /\ (forall r, timer (run n) r = TSend -> cstep T (run n) (TRespond r) <> None).
Proof. destruct (never_blocked T _ _ _ (reached n) (One n)) as [A B]. split; intros; [eapply A|eapply B]; eauto. Qed.
Lemma hist_mono n m : n <= m -> exists h, hist (run m) = hist (run n) ++ h.
Proof.
  intros L. induction L as [|m L (h & IH)]; [exists []; rewrite app_nil_r; reflexivity|].
  pose proof (e_step _ _ _ _ Run m) as X. destruct (lab m) as [l|]; [|rewrite X; eauto].
  assert (Y : exists h', hist (run (S m)) = hist (run m) ++ h').
  { clear -X. revert X. generalize (run m) (run (S m)). intros a b X. destruct l; steps X; eauto; try (exists []; rewrite app_nil_r; reflexivity). }
  destruct Y as (h' & ->). exists (h ++ h'). rewrite IH, app_assoc. reflexivity.
Qed.
Lemma in_mono e n m : n <= m -> In e (hist (run n)) -> In e (hist (run m)).
Proof. intros L H. destruct (hist_mono n m L) as (h & ->). apply in_or_app. auto. Qed.

Notation goes_on := (goes_on T run lab).
(* The rule: from P, Q comes about. *)
Lemma leads k (P Q : chan O V -> Prop) : goes_on k ->
  (forall n, P (run n) -> ~ resting T k (run n)) ->
  (forall n l, P (run n) -> lab n = Some l -> of_task k l -> cstep T (run n) l = Some (run (S n)) -> Q (run (S n))) ->
  (forall n l, P (run n) -> lab n = Some l -> ~ of_task k l -> cstep T (run n) l = Some (run (S n)) -> P (run (S n)) \/ Q (run (S n))) ->
  forall n, P (run n) -> exists m, n <= m /\ Q (run m).
Proof.
  intros G A B C n Pn. destruct (G n) as (m & L & D).
  assert (K : forall d, (exists k, n <= k /\ Q (run k)) \/ P (run (n + d))).
  { induction d as [|d IH]; [right; rewrite Nat.add_0_r; exact Pn|]. destruct IH as [IH|IH]; [left; exact IH|]. rewrite Nat.add_succ_r.
    pose proof (e_step _ _ _ _ Run (n + d)) as X. destruct (lab (n + d)) as [l|] eqn:El; [|right; rewrite X; exact IH].
    assert (Dec : of_task k l \/ ~ of_task k l) by (destruct k, l; cbn; auto; match goal with |- ?a = ?b \/ _ => destruct (Nat.eq_dec a b); auto end).
    destruct Dec as [O1|O1]; [left; exists (S (n + d)); split; [lia|]; eapply B; eauto|]. destruct (C _ _ IH El O1 X); [right; auto|left; exists (S (n + d)); split; [lia|auto]]. }
  destruct (K (m - n)) as [K1|K1]; [exact K1|]. replace (n + (m - n)) with m in K1 by lia. destruct D as [D|(l & El & O1)]; [exfalso; exact (A _ K1 D)|].
  exists (S m). split; [lia|]. pose proof (e_step _ _ _ _ Run m) as X. rewrite El in X. eapply B; eauto.
Qed.

(* what one step does *)
Lemma handler_only s l s' : cstep T s l = Some s' -> handler s' = handler s \/ of_task KHandler l \/ of_task KMethod l.
Proof. intros H. destruct l; steps H; cbn; auto. Qed.
Lemma timer_frame s l s' r : good s -> timer s r <> TNone -> cstep T s l = Some s' -> ~ of_task (KTimer r) l -> timer s' r = timer s r.
Proof.
  intros (_ & F & _) N H. destruct l; steps H; cbn [of_task]; auto; intros No; try (apply upd_other; congruence).
  apply upd_other. intros ->. apply N. apply (queued_not_started _ _ F). rewrite E1. left. reflexivity.
Qed.
Lemma handler_frame s l s' : cstep T s l = Some s' -> ~ of_task (match handler s with HRun _ => KMethod | _ => KHandler end) l -> handler s' = handler s.
Proof. intros H. destruct l; steps H; cbn [of_task]; auto; intros No; destruct (handler s); try discriminate; tauto. Qed.
Lemma gor_only s l s' g : cstep T s l = Some s' -> gor s' g = gor s g \/ (exists c m args, l = LCall g c m args) \/ l = LEnqueue g \/ l = LReceive g.
Proof. intros H. destruct l; steps H; auto; unfold upd; destruct (Nat.eqb_spec g g0); subst; eauto 6. Qed.

Tactic Notation "enabled" hyp(R) uconstr(l) := specialize (R l); cbn [of_task] in R; unfold cstep in R; rewrite (Sane _) in R.

(* a timer that has locked its request lets it go *)
Lemma t_step (r n : nat) (p : tpoint) (Q : tpoint -> Prop) : goes_on (KTimer r) -> tcrit p = true -> timer (run n) r = p ->
  (forall k, timer (run k) r = p -> ~ resting T (KTimer r) (run k)) ->
  (forall k l, timer (run k) r = p -> of_task (KTimer r) l -> cstep T (run k) l = Some (run (S k)) -> Q (timer (run (S k)) r)) ->
  exists m, n <= m /\ Q (timer (run m) r).
Proof.
  intros G C P A B. refine (leads (KTimer r) (fun s => timer s r = p) (fun s => Q (timer s r)) G A _ _ n P).
  - intros k l Pk _ O1 X. eapply B; eauto.
  - intros k l Pk _ O1 X. left. rewrite (timer_frame _ _ _ r (good_at k)) with (2 := X); auto. rewrite Pk. destruct p; discriminate.
Qed.
Lemma t_ends r n : goes_on (KTimer r) -> tcrit (timer (run n) r) = true -> exists m, n <= m /\ timer (run m) r = TEnded.
Proof.
  intros G C.
  assert (U : forall n, timer (run n) r = TUnlock -> exists m, n <= m /\ timer (run m) r = TEnded).
  { intros k P. apply (t_step r k TUnlock (fun p => p = TEnded) G eq_refl P).
    - intros i Pi R. enabled R (TRelease r). rewrite Pi in R. discriminate (R eq_refl).
    - intros i l Pi Ol X. destruct l; cbn [of_task] in Ol; try contradiction; subst; steps X; try congruence. apply upd_same. }
  assert (S0 : forall n, timer (run n) r = TSend -> exists m, n <= m /\ timer (run m) r = TEnded).
  { intros k P. destruct (t_step r k TSend (fun p => p = TUnlock) G eq_refl P) as (i & L & Pi).
    - intros i Pi R. apply (proj2 (blocked_at i) r Pi). apply R. reflexivity.
    - intros i l Pi Ol X. destruct l; cbn [of_task] in Ol; try contradiction; subst; steps X; try congruence. apply upd_same.
    - destruct (U i Pi) as (m & L' & H). exists m. split; [lia|exact H]. }
  assert (S1 : forall n, timer (run n) r = TSet -> exists m, n <= m /\ timer (run m) r = TEnded).
  { intros k P. destruct (t_step r k TSet (fun p => p = TSend) G eq_refl P) as (i & L & Pi).
    - intros i Pi R. enabled R (TDone r). rewrite Pi in R. discriminate (R eq_refl).
    - intros i l Pi Ol X. destruct l; cbn [of_task] in Ol; try contradiction; subst; steps X; try congruence. apply upd_same.
    - destruct (S0 i Pi) as (m & L' & H). exists m. split; [lia|exact H]. }
  destruct (timer (run n) r) eqn:P; try discriminate C; [|apply S1, P|apply S0, P|apply U, P].
  destruct (t_step r n TLocked (fun p => p = TUnlock \/ p = TSet) G eq_refl P) as (i & L & Pi).
  - intros i Pi R. enabled R (TCheck r). rewrite Pi in R. discriminate (R eq_refl).
  - intros i l Pi Ol X. destruct l; cbn [of_task] in Ol; try contradiction; subst; steps X; try congruence; rewrite upd_same; auto.
  - destruct Pi as [Pi|Pi]; [destruct (U i Pi) as (m & L' & H)|destruct (S1 i Pi) as (m & L' & H)]; exists m; (split; [lia|exact H]).
Qed.

(* --- the handler comes back to the queue --- *)
Lemma h_step (n : nat) (h : hpoint V) (Q : hpoint V -> Prop) : goes_on (match h with HRun _ => KMethod | _ => KHandler end) -> handler (run n) = h ->
  (forall k, handler (run k) = h -> ~ resting T (match h with HRun _ => KMethod | _ => KHandler end) (run k)) ->
  (forall k l, handler (run k) = h -> of_task (match h with HRun _ => KMethod | _ => KHandler end) l -> cstep T (run k) l = Some (run (S k)) -> Q (handler (run (S k)))) ->
  exists m, n <= m /\ Q (handler (run m)).
Proof.
  intros G P A B. refine (leads _ (fun s => handler s = h) (fun s => Q (handler s)) G A _ _ n P).
  - intros k l Pk _ O1 X. eapply B; eauto.
  - intros k l Pk _ O1 X. left. rewrite (handler_frame _ _ _ X); auto. rewrite Pk. exact O1.
Qed.
Lemma h_result n r l : goes_on KHandler -> goes_on (KTimer r) -> handler (run n) = HResult r l -> exists m, n <= m /\ handler (run m) = HLocked r l.
Proof.
  intros G Gt P.
  assert (E0 : forall n, handler (run n) = HResult r l -> timer (run n) r = TEnded -> exists m, n <= m /\ handler (run m) = HLocked r l).
  { intros k Pk Tk. refine (leads KHandler (fun s => handler s = HResult r l /\ timer s r = TEnded) (fun s => handler s = HLocked r l) G _ _ _ k (conj Pk Tk)).
    - intros i [Pi Ti] R. enabled R LLock. destruct (good_at i) as (_ & _ & L). pose proof (l_lock _ L r) as X. rewrite Pi, Ti in X. cbn in X.
      rewrite Pi in R. destruct (rq_locked (reqs (run i) r)); [discriminate X|]. discriminate (R I).
    - intros i x [Pi Ti] _ Ol X. destruct x; cbn [of_task] in Ol; try contradiction; steps X; try congruence.
    - intros i x [Pi Ti] _ Ol X. left. split; [rewrite (handler_frame _ _ _ X); rewrite Pi; auto|].
      assert (Nt : ~ of_task (KTimer r) x). { intros Y. destruct x; cbn [of_task] in Y; try contradiction; subst; steps X; congruence. }
      rewrite (timer_frame _ _ _ r (good_at i)) with (2 := X); auto. rewrite Ti. discriminate. }
  assert (E1 : forall n, handler (run n) = HResult r l -> tcrit (timer (run n) r) = true -> exists m, n <= m /\ handler (run m) = HLocked r l).
  { intros k Pk Tk. destruct (t_ends r k Gt Tk) as (m & L & Tm).
    assert (K : forall d, (exists j, k <= j /\ handler (run j) = HLocked r l) \/ handler (run (k + d)) = HResult r l).
    { induction d as [|d IH]; [right; rewrite Nat.add_0_r; exact Pk|]. destruct IH as [IH|IH]; [left; exact IH|]. rewrite Nat.add_succ_r.
      pose proof (e_step _ _ _ _ Run (k + d)) as X. destruct (lab (k + d)) as [x|] eqn:El; [|right; rewrite X; exact IH].
      assert (Dec : of_task KHandler x \/ ~ of_task KHandler x) by (destruct x; cbn; auto).
      destruct Dec as [Dc|Dc]; [|right; rewrite (handler_frame _ _ _ X); rewrite IH; auto].
      left. exists (S (k + d)). split; [lia|]. destruct x; cbn [of_task] in Dc; try contradiction; steps X; congruence. }
    destruct (K (m - k)) as [K1|K1]; [exact K1|]. replace (k + (m - k)) with m in K1 by lia. destruct (E0 m K1 Tm) as (j & L' & H). exists j. split; [lia|exact H]. }
  destruct (tcrit (timer (run n) r)) eqn:Tc; [exact (E1 n P Tc)|].
  destruct (leads KHandler (fun s => handler s = HResult r l /\ tcrit (timer s r) = false)
    (fun s => handler s = HLocked r l \/ handler s = HResult r l /\ tcrit (timer s r) = true) G) with (n := n) as (m & L & X); [..|split; assumption|].
  - intros i [Pi Ti] R. enabled R LLock. destruct (good_at i) as (_ & _ & L). pose proof (l_lock _ L r) as X. rewrite Pi, Ti in X. cbn in X.
    rewrite Pi in R. destruct (rq_locked (reqs (run i) r)); [discriminate X|]. discriminate (R I).
  - intros i x [Pi Ti] _ Ol X. left. destruct x; cbn [of_task] in Ol; try contradiction; steps X; congruence.
  - intros i x [Pi Ti] _ Ol X. assert (Hn : handler (run (S i)) = HResult r l) by (rewrite (handler_frame _ _ _ X); rewrite Pi; auto).
    destruct (tcrit (timer (run (S i)) r)) eqn:Tn; [right; right|left]; auto.
  - destruct X as [X|[X Y]]; [eauto|]. destruct (E1 m X Y) as (j & L' & H). exists j. split; [lia|exact H].
Qed.
Ltac further f := let m := fresh "m" in let L := fresh "L" in let H := fresh "H" in destruct f as (m & L & H); exists m; split; [lia|exact H].
Lemma h_unlock n r : goes_on KHandler -> handler (run n) = HUnlock r -> exists m, n <= m /\ handler (run m) = HIdle.
Proof.
  intros G P. apply (h_step n (HUnlock r) (fun h => h = HIdle) G P).
  - intros i Pi R. enabled R LUnlock. rewrite Pi in R. discriminate (R I).
  - intros i x Pi Ol X. destruct x; cbn [of_task] in Ol; try contradiction; steps X; congruence.
Qed.
Lemma h_locked n r l : goes_on KHandler -> handler (run n) = HLocked r l -> exists m, n <= m /\ handler (run m) = HIdle.
Proof.
  intros G P. destruct (h_step n (HLocked r l) (fun h => h = HUnlock r \/ h = HSet r l) G P) as (a & La & [Pa|Pa]).
  - intros i Pi R. enabled R LCheck. rewrite Pi in R. discriminate (R I).
  - intros i x Pi Ol X. destruct x; cbn [of_task] in Ol; try contradiction; steps X; try congruence; rewrite Pi in *;
      match goal with Z : HLocked _ _ = HLocked _ _ |- _ => injection Z as -> -> end; auto.
  - further (h_unlock a r G Pa).
  - destruct (h_step a (HSet r l) (fun h => h = HSend r l) G Pa) as (b & Lb & Pb).
    + intros i Pi R. enabled R LDone. rewrite Pi in R. discriminate (R I).
    + intros i x Pi Ol X. destruct x; cbn [of_task] in Ol; try contradiction; steps X; congruence.
    + destruct (h_step b (HSend r l) (fun h => h = HUnlock r) G Pb) as (c & Lc & Pc).
      * intros i Pi R. exact (proj1 (blocked_at i) _ _ Pi (R LRespond I)).
      * intros i x Pi Ol X. destruct x; cbn [of_task] in Ol; try contradiction; steps X; congruence.
      * further (h_unlock c r G Pc).
Qed.

Hypothesis Hand : goes_on KHandler.
Hypothesis Tim : forall r, goes_on (KTimer r).
Hypothesis Rec : forall g, goes_on (KReceive g).
Lemma h_from_result n r l : handler (run n) = HResult r l -> exists m, n <= m /\ handler (run m) = HIdle.
Proof. intros P. destruct (h_result n r l Hand (Tim r) P) as (m & L & H). further (h_locked m r l Hand H). Qed.
Lemma h_not_running n : (forall r, handler (run n) <> HRun r) -> exists m, n <= m /\ handler (run m) = HIdle.
Proof.
  intros N. destruct (handler (run n)) as [|r|r l|r l|r l|r l|r] eqn:P; [eauto|destruct (N r); reflexivity|..].
  - exact (h_from_result n r l P).
  - exact (h_locked n r l Hand P).
  - destruct (h_step n (HSet r l) (fun h => h = HSend r l) Hand P) as (b & Lb & Pb).
    + intros i Pi R. enabled R LDone. rewrite Pi in R. discriminate (R I).
    + intros i x Pi Ol X. destruct x; cbn [of_task] in Ol; try contradiction; steps X; congruence.
    + destruct (h_step b (HSend r l) (fun h => h = HUnlock r) Hand Pb) as (c & Lc & Pc).
      * intros i Pi R. exact (proj1 (blocked_at i) _ _ Pi (R LRespond I)).
      * intros i x Pi Ol X. destruct x; cbn [of_task] in Ol; try contradiction; steps X; congruence.
      * further (h_unlock c r Hand Pc).
  - destruct (h_step n (HSend r l) (fun h => h = HUnlock r) Hand P) as (c & Lc & Pc).
    + intros i Pi R. exact (proj1 (blocked_at i) _ _ Pi (R LRespond I)).
    + intros i x Pi Ol X. destruct x; cbn [of_task] in Ol; try contradiction; steps X; congruence.
    + further (h_unlock c r Hand Pc).
  - exact (h_unlock n r Hand P).
Qed.

(* --- answered requests return --- *)
Lemma started_mono' r n m : n <= m -> In r (started (hist (run n))) -> In r (started (hist (run m))).
Proof. intros L H. destruct (hist_mono n m L) as (h & ->). rewrite started_app, in_app_iff. auto. Qed.
Lemma answers_mono r n m : n <= m -> answers r (hist (run n)) <> [] -> answers r (hist (run m)) <> [].
Proof. intros L H. destruct (hist_mono n m L) as (h & ->). rewrite answers_app. intros X. apply app_eq_nil in X. tauto. Qed.

(* a request is its goroutine's current one, or has returned *)
Definition back s : Prop := forall r, r < nreqs s -> active s (rq_gor (reqs s r)) = Some r \/ exists o a, In (EReturn (rq_gor (reqs s r)) r o a) (hist s).
Lemma back_step s l s' : bounded s -> back s -> cstep T s l = Some s' -> back s'.
Proof.
  intros B K H r. specialize (K r). pose proof (req_kept T s l s' r H) as Q. unfold active in *.
  assert (D : nreqs s' = nreqs s \/ nreqs s' = S (nreqs s)) by (clear -H; destruct l; steps H; auto).
  destruct l; steps H; auto; intros Hr; try (destruct (Q Hr) as (Eg & _); rewrite Eg; auto; fail).
  - destruct (Nat.eq_dec r (nreqs s)) as [->|Ne].
    + rewrite !upd_same. cbn [rq_gor]. auto.
    + destruct Q as (Eg & _); [lia|]. rewrite Eg. destruct K as [K|(x & a & K)]; [lia| |right; exists x, a; apply in_or_app; auto].
      left. rewrite upd_other; [exact K|]. intros E1. rewrite E1, E0 in K. discriminate K.
  - destruct K as [K|(x & a & K)]; [exact Hr| |right; exists x, a; apply in_or_app; auto].
    left. unfold upd. destruct (Nat.eqb_spec (rq_gor (reqs s r)) g) as [E2|]; [|exact K]. rewrite E2, E0 in K. exact K.
  - destruct K as [K|(x & y & K)]; [exact Hr| |right; exists x, y; apply in_or_app; auto].
    unfold upd. destruct (Nat.eqb_spec (rq_gor (reqs s r)) g) as [E3|]; [|left; exact K]. rewrite E3, E0 in K. injection K as ->. right. exists n, a. apply in_or_app. right. rewrite E3. left. reflexivity.
  - destruct K as [K|(x & a & K)]; [exact Hr|auto|right; exists x, a; apply in_or_app; auto].
  - destruct K as [K|(x & a & K)]; [exact Hr|auto|right; exists x, a; apply in_or_app; auto].
  - destruct K as [K|(x & a & K)]; [exact Hr|auto|right; exists x, a; apply in_or_app; auto].
  - destruct K as [K|(x & a & K)]; [exact Hr|auto|right; exists x, a; apply in_or_app; auto].
Qed.

Lemma back_at n : back (run n).
Proof.
  apply (exec_inv (cstep T) (fun x => bounded x /\ back x)) with (ls := schedule lab n) (s := new_chan o); [|split; [apply bounded_init|intros r Hr; inversion Hr]|apply reached].
  intros a l b [B K] E. split; [apply (bounded_step T _ _ _ B E)|apply (back_step _ _ _ B K E)].
Qed.
(* the queue is never longer than its channel's capacity *)
Lemma queue_cap n : length (queue (run n)) <= cRequestChanSize.
Proof.
  apply (exec_inv (cstep T) (fun x => length (queue x) <= cRequestChanSize)) with (ls := schedule lab n) (s := new_chan o); [|cbn; unfold cRequestChanSize; lia|apply reached].
  intros a l b K H. destruct l; steps H; auto.
  - rewrite app_length. apply Nat.ltb_lt in E1. cbn. lia.
  - cbn in K. lia.
Qed.
(* a timer past its check has found, or made, its request done *)
Definition tdone s : Prop := forall r, match timer s r with TSend | TUnlock | TEnded => rq_done (reqs s r) = true | _ => True end.
Lemma tdone_step s l s' : bounded s -> tdone s -> cstep T s l = Some s' -> tdone s'.
Proof.
  intros B K H r. specialize (K r). pose proof (b_timer _ B r) as Bt. destruct l; steps H; auto.
  all: unfold upd; repeat match goal with |- context [?x =? ?y] => destruct (Nat.eqb_spec x y); subst end; proj; auto.
  all: repeat match goal with E : timer _ _ = _ |- _ => rewrite E in *; clear E end; auto.
  all: try (destruct (timer s _); auto; fail).
  destruct (timer s (nreqs s)); auto; exfalso; apply (Nat.lt_irrefl (nreqs s)), Bt; discriminate.
Qed.
Lemma tdone_at n : tdone (run n).
Proof.
  apply (exec_inv (cstep T) (fun x => bounded x /\ tdone x)) with (ls := schedule lab n) (s := new_chan o); [|split; [apply bounded_init|intros r; exact I]|apply reached].
  intros a l b [B K] E. split; [apply (bounded_step T _ _ _ B E)|apply (tdone_step _ _ _ B K E)].
Qed.
Lemma done_mono s l s' r : bounded s -> r < nreqs s -> cstep T s l = Some s' -> rq_done (reqs s r) = true -> rq_done (reqs s' r) = true.
Proof.
  intros B Hr H D. destruct l; steps H; auto; unfold upd; repeat match goal with |- context [?x =? ?y] => destruct (Nat.eqb_spec x y); subst end; proj; auto; lia.
Qed.
Lemma nreqs_mono n m : n <= m -> nreqs (run n) <= nreqs (run m).
Proof.
  intros L. induction L as [|m L IH]; [auto|]. pose proof (e_step _ _ _ _ Run m) as X. destruct (lab m) as [l|]; [|rewrite X; exact IH].
  assert (nreqs (run m) <= nreqs (run (S m))); [|lia]. clear -X. revert X. generalize (run m) (run (S m)). intros a b X. destruct l; steps X; lia.
Qed.
Lemma done_later r n m : n <= m -> r < nreqs (run n) -> rq_done (reqs (run n) r) = true -> rq_done (reqs (run m) r) = true.
Proof.
  intros L Hr D. induction L as [|m L IH]; [exact D|]. pose proof (e_step _ _ _ _ Run m) as X. destruct (lab m) as [l|]; [|rewrite X; exact IH].
  apply (done_mono (run m) l (run (S m)) r); auto; [apply good_at|]. pose proof (nreqs_mono n m L). lia.
Qed.
Lemma kept_at n : kept (run n). Proof. exact (kept_exec T _ _ _ (reached n) (One n)). Qed.
Lemma settled_at n : settled (run n). Proof. exact (settled_exec T _ _ _ (reached n)). Qed.
Lemma started_below r n : In r (started (hist (run n))) -> r < nreqs (run n).
Proof. intros H. destruct (good_at n) as (_ & F & _). apply (f_bound _ F). rewrite (f_queue _ F), in_app_iff. auto. Qed.

(* a request that is done is answered *)
Lemma done_answered r n : rq_done (reqs (run n) r) = true -> exists m, n <= m /\ answers r (hist (run m)) <> [].
Proof.
  intros D. destruct (good_at n) as (_ & _ & L). pose proof (l_done _ L r) as X. rewrite D in X. cbn in X.
  destruct (hsend (handler (run n)) r) eqn:Eh.
  - destruct (handler (run n)) as [| | | | |q l|] eqn:Ph; try discriminate Eh. cbn in Eh. apply Nat.eqb_eq in Eh as ->.
    refine (leads KHandler (fun s => handler s = HSend r l) (fun s => answers r (hist s) <> []) Hand _ _ _ n Ph).
    + intros i Pi R. exact (proj1 (blocked_at i) _ _ Pi (R LRespond I)).
    + intros i x Pi _ Ol Y. destruct x; cbn [of_task] in Ol; try contradiction; steps Y; try congruence.
      injection Pi as -> ->. rewrite answers_app. cbn. rewrite Nat.eqb_refl. intros Z. apply app_eq_nil in Z as [_ Z]. discriminate Z.
    + intros i x Pi _ Ol Y. left. rewrite (handler_frame _ _ _ Y); rewrite Pi; auto.
  - destruct (tsend (timer (run n) r)) eqn:Et.
    + assert (Pt : timer (run n) r = TSend) by (destruct (timer (run n) r); try discriminate Et; reflexivity).
      refine (leads (KTimer r) (fun s => timer s r = TSend) (fun s => answers r (hist s) <> []) (Tim r) _ _ _ n Pt).
      * intros i Pi R. exact (proj2 (blocked_at i) _ Pi (R (TRespond r) eq_refl)).
      * intros i x Pi _ Ol Y. destruct x; cbn [of_task] in Ol; try contradiction; subst; steps Y; try congruence.
        rewrite answers_app. cbn. rewrite Nat.eqb_refl. intros Z. apply app_eq_nil in Z as [_ Z]. discriminate Z.
      * intros i x Pi _ Ol Y. left. rewrite (timer_frame _ _ _ r (good_at i)) with (2 := Y); auto. rewrite Pi. discriminate.
    + exists n. split; [lia|]. intros Z. rewrite Z in X. cbn in X. discriminate X.
Qed.
(* and returns *)
Lemma answered_returns r n : r < nreqs (run n) -> answers r (hist (run n)) <> [] -> exists m a, n <= m /\ In (EReturn (rq_gor (reqs (run n) r)) r r a) (hist (run m)).
Proof.
  intros Hr A. destruct (back_at n r Hr) as [B|(x & a & B)].
  2:{ exists n, a. split; [lia|]. destruct (o_return _ (own_at n) _ _ _ _ B) as (-> & _). exact B. }
  set (g := rq_gor (reqs (run n) r)) in *. unfold active in B. destruct (gor (run n) g) as [|q|q] eqn:Eg; try discriminate B; injection B as ->.
  - exfalso. apply A. apply (unstarted_unanswered T _ _ _ _ (reached n)). intros X. destruct (good_at n) as (_ & F & _).
    apply (proj1 (f_sending _ F _ _ Eg)). rewrite (f_queue _ F), in_app_iff. auto.
  - destruct (leads (KReceive g) (fun s => gor s g = GWaiting r /\ answers r (hist s) <> []) (fun s => exists a, In (EReturn g r r a) (hist s)) (Rec g)) with (n := n) as (m & L & a & H); [..|auto|eauto].
    + intros i [Pi Ai] R. destruct (kept_at i g r Pi Ai) as (a & Ha). enabled R (LReceive g). rewrite Pi in R.
      destruct (responses (run i) (rq_caller (reqs (run i) r))) as [|[]]; [destruct Ha|]. discriminate (R eq_refl).
    + intros i x [Pi Ai] _ Ol Y. pose proof (own_at (S i)) as W. destruct x; cbn [of_task] in Ol; try contradiction; subst.
      assert (Z : exists x a, In (EReturn g r x a) (hist (run (S i)))).
      { clear W. steps Y; try congruence. injection Pi as ->. exists n0, a. apply in_or_app. right. left. reflexivity. }
      destruct Z as (x & a & Z). destruct (o_return _ W _ _ _ _ Z) as (-> & _). eauto.
    + intros i x [Pi Ai] El Ol Y. left. split.
      * destruct (gor_only _ _ _ g Y) as [G|[(c & mm & args & ->)|[->|G]]]; [congruence|steps Y; congruence|steps Y; congruence|subst x; destruct Ol; reflexivity].
      * apply (answers_mono r i (S i)); auto.
Qed.
Lemma done_returns r n : r < nreqs (run n) -> rq_done (reqs (run n) r) = true -> exists m a, n <= m /\ In (EReturn (rq_gor (reqs (run n) r)) r r a) (hist (run m)).
Proof.
  intros Hr D. destruct (done_answered r n D) as (i & L & A). pose proof (nreqs_mono n i L). destruct (answered_returns r i) as (m & a & L' & H'); [lia|exact A|].
  exists m, a. split; [lia|]. replace (rq_gor (reqs (run n) r)) with (rq_gor (reqs (run i) r)); [exact H'|].
  clear -L Hr Run. induction L as [|i L IH]; [reflexivity|]. pose proof (e_step _ _ _ _ Run i) as X. destruct (lab i) as [l|]; [|rewrite X; exact IH].
  pose proof (nreqs_mono n i L). destruct (req_kept T _ _ _ r X) as (-> & _); [lia|exact IH].
Qed.

(* --- every call returns when methods end --- *)
Section Ending.
Hypothesis Ends : goes_on KMethod.
Hypothesis Turn : turns T run lab.
Lemma h_idle n : exists m, n <= m /\ handler (run m) = HIdle.
Proof.
  destruct (handler (run n)) as [|r| | | | |] eqn:P; [eauto| |apply h_not_running; intros q; rewrite P; discriminate..].
  destruct (h_step n (HRun r) (fun h => exists l, h = HResult r l) Ends P) as (m & L & l & H).
  - intros i Pi R. enabled R LEnd. rewrite Pi in R. destruct (if known T _ then _ else _) as [[]|]; discriminate (R I).
  - intros i x Pi Ol X. generalize (Sane (S i)). destruct x; cbn [of_task] in Ol; try contradiction; steps X; try congruence; injection Pi as ->; intros Sn; first [discriminate Sn|eauto].
  - destruct (h_from_result m r l H) as (k & Lk & Hk). exists k. split; [lia|exact Hk].
Qed.
(* a request in the queue gets its turn *)
Lemma queued_step s l s' r a b : cstep T s l = Some s' -> queue s = a ++ r :: b ->
  In r (started (hist s')) \/ exists a' b', queue s' = a' ++ r :: b' /\ length a' <= length a /\ (of_task KHandler l -> handler s = HIdle -> length a' < length a).
Proof.
  intros H Q. destruct l; steps H; try (right; exists a, b; repeat split; auto; cbn [of_task]; intros; try contradiction; congruence).
  - right. exists a, (b ++ [r0]). rewrite Q, <- app_assoc. repeat split; auto. cbn. tauto.
  - destruct a as [|x a]; cbn in Q; injection Q as -> ->.
    + left. rewrite started_app, in_app_iff. right. left. reflexivity.
    + right. exists a, b. cbn. repeat split; auto.
Qed.
Lemma queued_starts k : forall n r a b, queue (run n) = a ++ r :: b -> length a <= k -> exists m, n <= m /\ In r (started (hist (run m))).
Proof.
  induction k as [k IH] using lt_wf_ind. intros n r a b Q La. destruct (h_idle n) as (i & Li & Hi).
  assert (K : forall m, n <= m -> (exists j, n <= j /\ In r (started (hist (run j)))) \/ exists a' b', queue (run m) = a' ++ r :: b' /\ length a' <= k).
  { intros m L. induction L as [|m L IHm]; [eauto 6|]. destruct IHm as [IHm|(a' & b' & Q' & L')]; [auto|].
    pose proof (e_step _ _ _ _ Run m) as X. destruct (lab m) as [l|]; [|right; rewrite X; eauto].
    destruct (queued_step _ _ _ _ _ _ X Q') as [S0|(a2 & b2 & Q2 & L2 & _)]; [left; exists (S m); split; [lia|exact S0]|right; exists a2, b2; split; [exact Q2|lia]]. }
  destruct (K i Li) as [K1|(a' & b' & Q' & L')]; [exact K1|].
  destruct (leads KHandler (fun s => handler s = HIdle /\ exists a b, queue s = a ++ r :: b /\ length a <= k)
    (fun s => In r (started (hist s)) \/ exists a b, queue s = a ++ r :: b /\ length a < k) Hand) with (n := i) as (m & L & X); [..|eauto 8|].
  - intros j (Pj & x & y & Qj & _) R. enabled R LPick. rewrite Pj, Qj in R. destruct x; cbn [app] in R; discriminate (R I).
  - intros j l (Pj & x & y & Qj & Lj) _ Ol X. destruct (queued_step _ _ _ _ _ _ X Qj) as [S0|(x2 & y2 & Q2 & _ & L2)]; [auto|]. right. exists x2, y2. split; [exact Q2|]. specialize (L2 Ol Pj). lia.
  - intros j l (Pj & x & y & Qj & Lj) _ Ol X. destruct (queued_step _ _ _ _ _ _ X Qj) as [S0|(x2 & y2 & Q2 & L2 & _)]; [auto|]. left. split; [rewrite (handler_frame _ _ _ X); rewrite Pj; auto|].
    exists x2, y2. split; [exact Q2|lia].
  - destruct X as [X|(x & y & Q2 & L2)]; [exists m; split; [lia|exact X]|]. destruct (IH (length x) L2 m r x y Q2 (le_n _)) as (m' & Lm & H). exists m'. split; [lia|exact H].
Qed.
(* a goroutine at the queue enters it *)
Lemma sending_enters g r n : gor (run n) g = GSending r -> exists m, n <= m /\ gor (run m) g = GWaiting r.
Proof.
  intros P. destruct (Turn g n) as (m & L & X).
  assert (K : forall m, n <= m -> (exists j, n <= j /\ gor (run j) g = GWaiting r) \/ gor (run m) g = GSending r).
  { intros k Lk. induction Lk as [|k Lk IH]; [auto|]. destruct IH as [IH|IH]; [auto|].
    pose proof (e_step _ _ _ _ Run k) as Y. destruct (lab k) as [l|]; [|right; rewrite Y; exact IH].
    destruct (gor_only _ _ _ g Y) as [G|[(c & mm & args & ->)|[->| ->]]]; [right; congruence|steps Y; congruence| |steps Y; congruence].
    left. exists (S k). split; [lia|]. steps Y; try congruence. injection IH as ->. apply upd_same. }
  destruct (K m L) as [K1|K1]; [exact K1|]. destruct X as [X|X].
  - exists (S m). split; [lia|]. pose proof (e_step _ _ _ _ Run m) as Y. rewrite X in Y. steps Y; try congruence. injection K1 as ->. apply upd_same.
  - exfalso. assert (St : forall k, m <= k -> gor (run k) g = GSending r).
    { intros k Lk. induction Lk as [|k Lk IH]; [exact K1|]. pose proof (e_step _ _ _ _ Run k) as Y. destruct (lab k) as [l|]; [|rewrite Y; exact IH].
      destruct (gor_only _ _ _ g Y) as [G|[(c & mm & args & ->)|[->| ->]]]; [congruence|steps Y; congruence| |steps Y; congruence].
      rewrite (X k Lk) in Y. discriminate Y. }
    assert (Full : forall k, m <= k -> ~ length (queue (run k)) < cRequestChanSize).
    { intros k Lk Q. specialize (X k Lk). unfold cstep in X. rewrite (Sane k), (St k Lk) in X. apply Nat.ltb_lt in Q. rewrite Q in X. discriminate X. }
    destruct (h_idle m) as (i & Li & Hi).
    destruct (leads KHandler (fun s => handler s = HIdle /\ cRequestChanSize <= length (queue s)) (fun s => length (queue s) < cRequestChanSize) Hand) with (n := i) as (j & Lj & Q).
    + intros k (Pk & Qk) R. enabled R LPick. rewrite Pk in R. destruct (queue (run k)); [cbn in Qk; unfold cRequestChanSize in Qk; lia|]. discriminate (R I).
    + intros k l (Pk & Qk) _ Ol Y. pose proof (queue_cap k) as Cp. destruct l; cbn [of_task] in Ol; try contradiction; steps Y; try congruence. cbn [length] in Cp. lia.
    + intros k l (Pk & Qk) _ Ol Y. left. split; [rewrite (handler_frame _ _ _ Y); rewrite Pk; auto|]. destruct l; steps Y; auto; [rewrite app_length; cbn; lia|destruct Ol; exact I].
    + split; [exact Hi|]. specialize (Full i Li). lia.
    + apply (Full j); [lia|exact Q].
Qed.
Lemma waiting_returns g r n : gor (run n) g = GWaiting r -> exists m a, n <= m /\ In (EReturn g r r a) (hist (run m)).
Proof.
  intros P. destruct (good_at n) as (_ & F & _). destruct (f_waiting _ F _ _ P) as [E Eg].
  assert (Hr : r < nreqs (run n)) by apply (f_bound _ F), E.
  assert (S0 : exists i, n <= i /\ In r (started (hist (run i)))).
  { rewrite (f_queue _ F), in_app_iff in E. destruct E as [E|E]; [eauto|]. apply in_split in E as (a & b & E). exact (queued_starts (length a) n r a b E (le_n _)). }
  destruct S0 as (i & Li & S0). destruct (h_idle i) as (j & Lj & Hj).
  assert (Dj : rq_done (reqs (run j) r) = true). { apply (settled_at j); [exact (started_mono' r i j Lj S0)|rewrite Hj; intros []]. }
  destruct (done_returns r j) as (m & a & Lm & H); [pose proof (nreqs_mono n j ltac:(lia)); lia|exact Dj|]. exists m, a. split; [lia|].
  replace g with (rq_gor (reqs (run j) r)); [exact H|]. rewrite <- Eg. assert (L : n <= j) by lia. clear -L Hr Run.
  induction L as [|k L IH]; [reflexivity|]. pose proof (e_step _ _ _ _ Run k) as X. destruct (lab k) as [l|]; [|rewrite X; exact IH].
  pose proof (nreqs_mono n k L). destruct (req_kept T _ _ _ r X) as (-> & _); [lia|exact IH].
Qed.
Lemma issued_returns r g c m args n : In (EIssue r g c m args) (hist (run n)) -> exists n' a, n <= n' /\ In (EReturn g r r a) (hist (run n')).
Proof.
  intros I0. destruct (whole_exec T _ _ _ (reached n)) as (_ & I1 & _). destruct (i_only _ I1 _ _ _ _ _ I0) as [Hr Eq]. injection Eq as -> -> -> ->.
  set (g := rq_gor (reqs (run n) r)). destruct (back_at n r Hr) as [B|(x & a & B)]; fold g in B.
  - unfold active in B. destruct (gor (run n) g) as [|q|q] eqn:Eg; try discriminate B; injection B as ->; [|exact (waiting_returns g r n Eg)].
    destruct (sending_enters g r n Eg) as (i & Li & Gi). destruct (waiting_returns g r i Gi) as (m' & a & L & H). exists m', a. split; [lia|exact H].
  - exists n, a. split; [lia|]. destruct (o_return _ (own_at n) _ _ _ _ B) as (-> & _). exact B.
Qed.
End Ending.

(* --- a started call returns, whether or not its method ends --- *)
Hypothesis Clock : clock_advances run.
Lemma now_mono n m : n <= m -> (now (run n) <= now (run m))%Z.
Proof.
  intros L. induction L as [|m L IH]; [lia|]. pose proof (e_step _ _ _ _ Run m) as X. destruct (lab m) as [l|]; [|rewrite X; exact IH].
  assert ((now (run m) <= now (run (S m)))%Z); [|lia]. clear -X. revert X. generalize (run m) (run (S m)). intros a b X. destruct l; steps X; try lia.
Qed.
(* the handler is done with request r *)
Lemma past_step s l s' r : good s -> cstep T s l = Some s' -> In r (started (hist s)) -> ~ In r (href (handler s)) -> ~ In r (href (handler s')).
Proof.
  intros (B & F & L) H S0 N. destruct l; steps H; auto; repeat match goal with E : handler _ = _ |- _ => rewrite E in *; clear E end; cbn [href In] in *; auto.
  - intros [->|[]]. apply (proj1 (queued_not_started s r F ltac:(rewrite E1; left; reflexivity))). exact S0.
Qed.
Lemma asleep_locks r u n : timer (run n) r = TAsleep u -> exists m, n <= m /\ timer (run m) r = TLocked.
Proof.
  intros P. assert (St : forall k, timer (run k) r = TAsleep u -> In r (started (hist (run k)))).
  { intros k Pk. destruct (good_at k) as (_ & F & _). apply (f_timer _ F). rewrite Pk. discriminate. }
  (* while the timer stays where it is *)
  assert (Stay : forall a, timer (run a) r = TAsleep u -> forall m, a <= m -> (exists j, a <= j /\ timer (run j) r = TLocked) \/ timer (run m) r = TAsleep u).
  { intros a Pa m L. induction L as [|m L IH]; [auto|]. destruct IH as [IH|IH]; [auto|].
    pose proof (e_step _ _ _ _ Run m) as X. destruct (lab m) as [x|] eqn:El; [|right; rewrite X; exact IH].
    assert (Dec : of_task (KTimer r) x \/ ~ of_task (KTimer r) x) by (destruct x; cbn; auto; match goal with |- ?a = ?b \/ _ => destruct (Nat.eq_dec a b); auto end).
    destruct Dec as [Dc|Dc]; [left; exists (S m); split; [lia|]|right; rewrite (timer_frame _ _ _ r (good_at m)) with (2 := X); auto; rewrite IH; discriminate].
    destruct x; cbn [of_task] in Dc; try contradiction; subst; steps X; try congruence. apply upd_same. }
  destruct (Clock u) as (n0 & Hu). destruct (Stay n P (max n n0)) as [K|K]; [lia|exact K|]. set (a := max n n0) in *.
  assert (Ha : (u <= now (run a))%Z) by (pose proof (now_mono n0 a ltac:(subst a; lia)); lia).
  assert (Free : forall k, a <= k -> timer (run k) r = TAsleep u -> hcrit (handler (run k)) r = false -> ~ resting T (KTimer r) (run k)).
  { intros k L Pk Hk R. enabled R (TLock r). rewrite Pk in R. destruct (good_at k) as (_ & _ & Lk). pose proof (l_lock _ Lk r) as X. rewrite Hk, Pk in X. cbn in X.
    pose proof (now_mono a k L). replace (u <=? now (run k))%Z with true in R by (symmetry; apply Z.leb_le; lia).
    destruct (rq_locked (reqs (run k) r)); [discriminate X|]. discriminate (R eq_refl). }
  assert (Lock : forall k x, of_task (KTimer r) x -> timer (run k) r = TAsleep u -> cstep T (run k) x = Some (run (S k)) -> timer (run (S k)) r = TLocked).
  { intros k x Ox Pk X. destruct x; cbn [of_task] in Ox; try contradiction; subst; steps X; try congruence. apply upd_same. }
  (* the handler is done with r, or has not locked r yet *)
  assert (A1 : forall b, a <= b -> timer (run b) r = TAsleep u -> ~ In r (href (handler (run b))) -> exists m, b <= m /\ timer (run m) r = TLocked).
  { intros b L Pb Hb. refine (leads (KTimer r) (fun s => timer s r = TAsleep u /\ ~ In r (href (handler s)) /\ (u <= now s)%Z) (fun s => timer s r = TLocked) (Tim r) _ _ _ b _).
    - intros k (Pk & Hk & Uk) R. enabled R (TLock r). rewrite Pk in R. destruct (good_at k) as (_ & _ & Lk). pose proof (l_lock _ Lk r) as X. rewrite Pk in X.
      assert (Hc : hcrit (handler (run k)) r = false) by (destruct (handler (run k)); cbn in *; auto; apply Nat.eqb_neq; intros ->; apply Hk; auto).
      rewrite Hc in X. cbn in X. replace (u <=? now (run k))%Z with true in R by (symmetry; apply Z.leb_le; lia).
      destruct (rq_locked (reqs (run k) r)); [discriminate X|]. discriminate (R eq_refl).
    - intros k x (Pk & Hk & Uk) _ Ox X. eapply Lock; eauto.
    - intros k x (Pk & Hk & Uk) _ Ox X. left. repeat split.
      + rewrite (timer_frame _ _ _ r (good_at k)) with (2 := X); auto. rewrite Pk. discriminate.
      + eapply past_step; eauto. apply good_at.
      + pose proof (now_mono k (S k) ltac:(lia)). lia.
    - repeat split; auto. pose proof (now_mono a b L). lia. }
  assert (A2 : forall b, a <= b -> timer (run b) r = TAsleep u -> hcrit (handler (run b)) r = true -> exists m, b <= m /\ timer (run m) r = TLocked).
  { intros b L Pb Hb. destruct (h_not_running b) as (m & Lm & Hm); [intros q Eq; rewrite Eq in Hb; discriminate Hb|].
    destruct (Stay b Pb m Lm) as [K'|K']; [exact K'|]. destruct (A1 m) as (j & Lj & Hj); [lia|exact K'|rewrite Hm; intros []|]. exists j. split; [lia|exact Hj]. }
  destruct (hcrit (handler (run a)) r) eqn:Hc; [destruct (A2 a) as (m & L & H); auto; exists m; split; [lia|exact H]|].
  destruct (leads (KTimer r) (fun s => timer s r = TAsleep u /\ hcrit (handler s) r = false /\ (u <= now s)%Z)
    (fun s => timer s r = TLocked \/ timer s r = TAsleep u /\ hcrit (handler s) r = true /\ (u <= now s)%Z) (Tim r)) with (n := a) as (m & L & X); [..|auto|].
  - intros k (Pk & Hk & Uk) R. enabled R (TLock r). rewrite Pk in R. destruct (good_at k) as (_ & _ & Lk). pose proof (l_lock _ Lk r) as X. rewrite Hk, Pk in X. cbn in X.
    replace (u <=? now (run k))%Z with true in R by (symmetry; apply Z.leb_le; lia). destruct (rq_locked (reqs (run k) r)); [discriminate X|]. discriminate (R eq_refl).
  - intros k x (Pk & Hk & Uk) _ Ox X. left. eapply Lock; eauto.
  - intros k x (Pk & Hk & Uk) _ Ox X. assert (Pn : timer (run (S k)) r = TAsleep u) by (rewrite (timer_frame _ _ _ r (good_at k)) with (2 := X); auto; rewrite Pk; discriminate).
    pose proof (now_mono k (S k) ltac:(lia)). destruct (hcrit (handler (run (S k))) r) eqn:E1; [right; right|left]; repeat split; auto; lia.
  - destruct X as [X|(X & Y & _)]; [exists m; split; [lia|exact X]|]. destruct (A2 m L X Y) as (j & Lj & Hj). exists j. split; [lia|exact Hj].
Qed.
Lemma started_done r n : In r (started (hist (run n))) -> exists m, n <= m /\ rq_done (reqs (run m) r) = true.
Proof.
  intros S0. destruct (good_at n) as (_ & F & _). apply (f_timer _ F) in S0.
  assert (E : forall n, tcrit (timer (run n) r) = true \/ timer (run n) r = TEnded -> exists m, n <= m /\ rq_done (reqs (run m) r) = true).
  { intros k [C|C].
    - destruct (t_ends r k (Tim r) C) as (m & L & H). exists m. split; [lia|]. pose proof (tdone_at m r) as X. rewrite H in X. exact X.
    - exists k. split; [lia|]. pose proof (tdone_at k r) as X. rewrite C in X. exact X. }
  assert (A : forall n u, timer (run n) r = TAsleep u -> exists m, n <= m /\ rq_done (reqs (run m) r) = true).
  { intros k u P. destruct (asleep_locks r u k P) as (m & L & H). destruct (E m) as (j & Lj & Hj); [left; rewrite H; reflexivity|]. exists j. split; [lia|exact Hj]. }
  destruct (timer (run n) r) as [|ns|u| | | | |] eqn:P; [congruence| |eapply A; eauto|apply E; rewrite P; auto..].
  destruct (leads (KTimer r) (fun s => timer s r = TStarted ns) (fun s => exists u, timer s r = TAsleep u) (Tim r)) with (n := n) as (m & L & u & H); [..|exact P|].
  - intros k Pk R. enabled R (TSleep r). rewrite Pk in R. discriminate (R eq_refl).
  - intros k x Pk _ Ox X. destruct x; cbn [of_task] in Ox; try contradiction; subst; steps X; try congruence. rewrite upd_same. eauto.
  - intros k x Pk _ Ox X. left. rewrite (timer_frame _ _ _ r (good_at k)) with (2 := X); auto. rewrite Pk. discriminate.
  - destruct (A m u H) as (j & Lj & Hj). exists j. split; [lia|exact Hj].
Qed.
End Proof.

Section Main.
Context {O V : Type} (T : target O V) (o : O).
Implicit Types (run : nat -> chan O V) (lab : nat -> option (label V)).
(* the timeouts (C77) *)
Theorem started_call_returns run lab : endless T o run lab -> disciplined lab -> no_panic run -> (forall k, k <> KMethod -> goes_on T run lab k) -> clock_advances run ->
  forall n r g c m args t x, In (EIssue r g c m args) (hist (run n)) -> In (EStart r t x) (hist (run n)) -> exists n' a, n <= n' /\ In (EReturn g r r a) (hist (run n')).
Proof.
  intros R D P G C n r g c m args t x I0 S0. destruct (whole_exec T _ _ _ (reached T o run lab R n)) as (_ & I1 & _).
  destruct (i_only _ I1 _ _ _ _ _ I0) as [Hr Eq]. injection Eq as -> -> -> ->.
  destruct (started_done T o run lab R D P (G KHandler ltac:(discriminate)) (fun r => G (KTimer r) ltac:(discriminate)) C r n (in_started _ _ _ _ S0)) as (i & L & Di).
  pose proof (nreqs_mono T o run lab R n i L) as Ln.
  destruct (done_returns T o run lab R D P (G KHandler ltac:(discriminate)) (fun r => G (KTimer r) ltac:(discriminate)) (fun g => G (KReceive g) ltac:(discriminate)) r i ltac:(lia) Di) as (m & a & Lm & H).
  exists m, a. split; [lia|]. replace (rq_gor (reqs (run n) r)) with (rq_gor (reqs (run i) r)); [exact H|].
  clear -L Hr R. induction L as [|i L IH]; [reflexivity|]. pose proof (e_step _ _ _ _ R i) as X. destruct (lab i) as [l|]; [|rewrite X; exact IH].
  pose proof (nreqs_mono T o run lab R n i L). destruct (req_kept T _ _ _ r X) as (-> & _); [lia|exact IH].
Qed.
(* the calls (C77) *)
Theorem call_returns run lab : endless T o run lab -> disciplined lab -> no_panic run -> (forall k, goes_on T run lab k) -> turns T run lab ->
  forall n r g c m args, In (EIssue r g c m args) (hist (run n)) -> exists n' a, n <= n' /\ In (EReturn g r r a) (hist (run n')).
Proof. intros R D P G Tn n r g c m args. apply (issued_returns T o run lab R D P (G KHandler) (fun r => G (KTimer r)) (fun g => G (KReceive g)) (G KMethod) Tn). Qed.
End Main.
