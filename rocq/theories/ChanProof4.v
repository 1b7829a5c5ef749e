(* chancall: every call comes back (C29, positive half). *)
From Verif Require Import Lts GoInt GoFloat ChanModel ChanSpec ChanProof ChanProof2 ChanProof3.
From Coq Require Import Arith Bool.
Open Scope nat_scope.

Section Proof.
Context {O V : Type} (T : target O V).
Implicit Types (s : chan O V).

(* a started request the handler has finished with is done *)
Definition hbefore (h : hpoint V) : list nat :=
  match h with HRun r => [r] | HResult r _ => [r] | HLocked r _ => [r] | HSet r _ => [r] | _ => [] end.
Definition settled s : Prop := forall r, In r (started (hist s)) -> ~ In r (hbefore (handler s)) -> rq_done (reqs s r) = true.
Lemma settled_step s l s' : good s -> settled s -> cstep T s l = Some s' -> settled s'.
Proof.
  intros (B & F & L) K H x. specialize (K x).
  assert (Hb : In x (started (hist s)) -> x < nreqs s).
  { intros Hx. apply (f_bound _ F). rewrite (f_queue _ F), in_app_iff. left. exact Hx. }
  destruct l; steps H; auto.
  all: rewrite ?started_app; cbn [started flat_map]; rewrite ?app_nil_r; auto.
  all: repeat match goal with E : handler _ = _ |- _ => rewrite E in *; clear E end; cbn [hbefore In] in *; auto.
  all: unfold upd; try match goal with |- context [?y =? ?n] => destruct (Nat.eqb_spec y n); subst end; proj; auto; try tauto.
  all: try (intros Hx; specialize (Hb Hx); lia).
  all: intros Hx Hn; try (rewrite in_app_iff in Hx; cbn in Hx; tauto).
  all: try (apply K; [exact Hx|]; intuition congruence).
  destruct (Nat.eq_dec r x); [subst; assumption|]. tauto.
Qed.

(* an answer not yet received is in its caller's channel *)
Definition kept s : Prop := forall g r, gor s g = GWaiting r -> answers r (hist s) <> [] ->
  exists a, In (r, a) (responses s (rq_caller (reqs s r))).
Lemma kept_step s l s' : good s -> own s -> (forall r, ~ In r (started (hist s)) -> answers r (hist s) = []) ->
  kept s -> cstep T s l = Some s' -> kept s'.
Proof.
  intros (B & F & L) W U K H g0 q. specialize (K g0 q).
  pose proof (b_gor _ B g0 q) as Bq.
  destruct l; steps H; auto.
  all: rewrite ?answers_app; cbn [answers flat_map app]; rewrite ?app_nil_r; auto.
  all: rewrite ?caller_locked, ?caller_done; auto.
  - intros Hg Ha. unfold upd in Hg. destruct (Nat.eqb_spec g0 g); [discriminate Hg|]. rewrite Hg in Bq. specialize (Bq (or_introl eq_refl)).
    rewrite upd_other by lia. auto.
  - intros Hg Ha. unfold upd in Hg. destruct (Nat.eqb_spec g0 g); [|auto]. subst. injection Hg as ->.
    exfalso. apply Ha, U. intros X. apply (proj1 (f_sending _ F _ _ E0)). rewrite (f_queue _ F), in_app_iff. left. exact X.
  - intros Hg Ha. unfold upd in Hg. destruct (Nat.eqb_spec g0 g) as [|Ne]; [discriminate Hg|].
    destruct (K Hg Ha) as [b Hb]. rewrite upd_other; [eauto|]. intros Ec. apply Ne.
    apply (o_excl _ W g0 g q r); unfold active; [rewrite Hg|rewrite E0|]; auto.
  - intros Hg Ha. destruct (Nat.eq_dec q r).
    + subst. rewrite upd_same. eexists. rewrite in_app_iff. right. left. reflexivity.
    + destruct (Nat.eqb_spec r q); [congruence|]. rewrite app_nil_r in Ha. destruct (K Hg Ha) as [b Hb]. exists b.
      unfold upd. destruct (_ =? _) eqn:Eq; [|exact Hb]. apply Nat.eqb_eq in Eq. rewrite <- Eq, in_app_iff. left. exact Hb.
  - intros Hg Ha. destruct (Nat.eq_dec q r).
    + subst. rewrite upd_same. eexists. rewrite in_app_iff. right. left. reflexivity.
    + destruct (Nat.eqb_spec r q); [congruence|]. rewrite app_nil_r in Ha. destruct (K Hg Ha) as [b Hb]. exists b.
      unfold upd. destruct (_ =? _) eqn:Eq; [|exact Hb]. apply Nat.eqb_eq in Eq. rewrite <- Eq, in_app_iff. left. exact Hb.
Qed.

Lemma settled_exec o ls s : exec (cstep T) (new_chan o) ls = Some s -> settled s.
Proof.
  intros H. apply (exec_inv (cstep T) (fun x => good x /\ settled x)) with (ls := ls) (s := new_chan o); auto.
  - intros a l b [G K] E. split; [apply (good_step T _ _ _ G E)|apply (settled_step _ _ _ G K E)].
  - split; [apply good_init|intros r []].
Qed.
Lemma kept_exec o ls : forall s, exec (cstep T) (new_chan o) ls = Some s -> one_goroutine_per_caller ls -> kept s.
Proof.
  induction ls as [|l ls IH] using rev_ind; intros s H D.
  - injection H as <-. intros g r Hg. discriminate Hg.
  - apply exec_split in H. destruct H as (m & H1 & H2). cbn in H2. destruct (cstep T m l) eqn:E; [|discriminate]. injection H2 as <-.
    assert (D' : one_goroutine_per_caller ls).
    { intros a g cc mm args b -> g'. apply (D a g cc mm args (b ++ [l])). rewrite <- app_assoc. reflexivity. }
    refine (kept_step m l c (good_exec T _ _ _ H1) (proj1 (own_exec T _ _ _ H1 D')) _ (IH m H1 D') E).
    intros r. apply (unstarted_unanswered T _ _ _ _ H1).
Qed.

(* Nothing can happen any more by itself: no goroutine of the package, and no method
   body, has a step. *)
Lemma quiet_all_returned o ls s : exec (cstep T) (new_chan o) ls = Some s -> one_goroutine_per_caller ls -> crashed s = false ->
  (forall l, match l with LTick _ | LSetTimeout _ _ | LCall _ _ _ _ => True | _ => cstep T s l = None end) ->
  forall g, gor s g = GIdle.
Proof.
  intros H D C Q g. destruct (good_exec T _ _ _ H) as (B & F & L). pose proof (settled_exec _ _ _ H) as S0.
  pose proof (kept_exec _ _ _ H D) as K. destruct (never_blocked T _ _ _ H D) as [N1 N2].
  assert (Hh : handler s = HIdle).
  { destruct (handler s) as [|r|r l|r l|r l|r l|r] eqn:Eh; [reflexivity|exfalso..].
    - specialize (Q LEnd). cbv beta iota in Q. unfold cstep in Q. rewrite C, Eh in Q. destruct (if known T _ then _ else _) as [[]|]; discriminate Q.
    - pose proof (Q LLock) as X. cbv beta iota in X. unfold cstep in X. rewrite C, Eh in X. destruct (rq_locked (reqs s r)) eqn:El; [|discriminate X].
      pose proof (l_lock _ L r) as Y. rewrite Eh, El in Y. cbn in Y. destruct (timer s r) eqn:Et; try (cbn in Y; lia).
      + specialize (Q (TCheck r)). cbv beta iota in Q. unfold cstep in Q. rewrite C, Et in Q. discriminate Q.
      + specialize (Q (TDone r)). cbv beta iota in Q. unfold cstep in Q. rewrite C, Et in Q. discriminate Q.
      + exact (N2 r Et C (Q (TRespond r))).
      + specialize (Q (TRelease r)). cbv beta iota in Q. unfold cstep in Q. rewrite C, Et in Q. discriminate Q.
    - specialize (Q LCheck). cbv beta iota in Q. unfold cstep in Q. rewrite C, Eh in Q. discriminate Q.
    - specialize (Q LDone). cbv beta iota in Q. unfold cstep in Q. rewrite C, Eh in Q. discriminate Q.
    - exact (N1 r l eq_refl C (Q LRespond)).
    - specialize (Q LUnlock). cbv beta iota in Q. unfold cstep in Q. rewrite C, Eh in Q. discriminate Q. }
  assert (Hq : queue s = []).
  { destruct (queue s) eqn:Eq; [reflexivity|]. specialize (Q LPick). cbv beta iota in Q. unfold cstep in Q. rewrite C, Hh, Eq in Q. discriminate Q. }
  destruct (gor s g) as [|r|r] eqn:Eg; [reflexivity|exfalso..].
  - specialize (Q (LEnqueue g)). cbv beta iota in Q. unfold cstep in Q. rewrite C, Eg, Hq in Q. discriminate Q.
  - destruct (f_waiting _ F _ _ Eg) as [We _]. rewrite (f_queue _ F), Hq, app_nil_r in We.
    assert (Hd : rq_done (reqs s r) = true) by (apply S0; [exact We|rewrite Hh; intros []]).
    assert (Ha : answers r (hist s) <> []).
    { intros X. pose proof (l_done _ L r) as Y. rewrite X, Hd, Hh in Y. cbn in Y. destruct (timer s r) eqn:Et; cbn in Y; try lia.
      exact (N2 r Et C (Q (TRespond r))). }
    destruct (K g r Eg Ha) as [a Hin]. specialize (Q (LReceive g)). cbv beta iota in Q. unfold cstep in Q. rewrite C, Eg in Q.
    destruct (responses s (rq_caller (reqs s r))) as [|[]]; [destruct Hin|discriminate Q].
Qed.
End Proof.
