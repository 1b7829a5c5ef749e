(* Property theorems C74: endless runs of networks whose connections are dialled. *)
From Verif Require Import Lts GoVal Tables DockModel DockSpec SysModel SysSpec WorldModel WorldSpec LiveSpec LiveProof5 LiveProof6 WorldProps.
From Verif Require HubModel HubSpec.
From Coq Require Import Arith Bool List ZArith Lia.
Import ListNotations.
Open Scope nat_scope.

(* Every call returns: along every endless run in which no task is held up for ever, every
   range over the waiting calls ends, nothing is lost and nothing breaks, each call of a
   feature carried by some dock that connects to the hub, be it before or after the call,
   returns once, with what the one execution of its method, at a dock that carries it, gave. *)
Theorem C74_calls_return : forall V carried (carry : nat -> nat -> list V -> option (list V)) black raddr r lab,
  endless carried carry black raddr r lab -> fair carry black raddr r lab -> undisturbed r lab -> ranges_end r ->
  (forall i j l, carry i j l <> None) ->
  forall n i c q j n', In (ENew c q) (hist (sd (ws (r n)) i)) -> lab n' = Some (WDial j true) -> carries (carried j) (q_slot q) true ->
  exists m x j' k, n <= m /\ returns c (hist (sd (ws (r m)) i)) = [x] /\ executed carried (ends (r m)) carry (ws (r m)) i q j' k x.
Proof. exact @fair_call. Qed.
Print Assumptions C74_calls_return.
(* the run of WorldProps.v, after which nothing happens *)
Definition L_run (n : nat) : world nat := W_end (firstn n W_all).
Definition L_lab (n : nat) : option (wlab nat) := nth_error W_all n.
Lemma L_over n : 65 <= n -> L_run n = W_end W_all.
Proof. intros H. unfold L_run. rewrite firstn_all2; [reflexivity|exact H]. Qed.
Lemma L_polls t : wstep W_carry [] W_raddr (W_end W_all) (WHub (HubModel.QStep t)) = None.
Proof. do 24 (destruct t as [|t]; [vm_compute; reflexivity|]); vm_compute; reflexivity. Qed.
Lemma L_lossless : nothing_lost W_all.
Proof. intros l H; vm_compute in H; repeat (destruct H as [<-|H]; [exact I|]); destruct H. Qed.
Lemma L_steps : forall ls w w', exec W_step w ls = Some w' -> forall n, match nth_error ls n with
  | Some l => exists w1 w2, exec W_step w (firstn n ls) = Some w1 /\ W_step w1 l = Some w2 /\ exec W_step w (firstn (S n) ls) = Some w2
  | None => True end.
Proof.
  intros ls w w' E n. destruct (nth_error ls n) as [l|] eqn:N; [|exact I]. apply nth_error_split in N as (a & b & -> & <-).
  rewrite exec_app in E. destruct (exec W_step w a) as [w1|] eqn:E1; [|discriminate]. cbn in E. destruct (W_step w1 l) as [w2|] eqn:E2; [|discriminate].
  exists w1, w2. rewrite firstn_app, Nat.sub_diag, firstn_all, app_nil_r. split; auto. split; auto.
  rewrite firstn_app, Nat.sub_succ_l, Nat.sub_diag, firstn_all2 by lia. cbn [firstn]. rewrite exec_app, E1. cbn. rewrite E2. reflexivity.
Qed.
Lemma L_endless : endless W_carried W_carry [] W_raddr L_run L_lab.
Proof.
  split; [reflexivity|]. intros n. pose proof (L_steps _ _ _ W_runs n) as X. unfold L_lab, L_run. destruct (nth_error W_all n) as [l|] eqn:N.
  - destruct X as (w1 & w2 & E1 & E2 & E3). unfold W_end. rewrite E1, E3. exact E2.
  - apply nth_error_None in N. rewrite !firstn_all2 by lia. reflexivity.
Qed.
Lemma L_fair : fair W_carry [] W_raddr L_run L_lab.
Proof.
  intros T n. exists (max n 65). split; [lia|]. left. rewrite L_over by lia. intros l O. destruct W_settled as [St _].
  destruct T; cbn in O; try (apply St; subst; exact I).
  - apply St. destruct l as [i' l| | | | | | | | | |]; try destruct O; try exact I. destruct l; try contradiction; exact I.
  - destruct O as (ns & acc & ->). apply St. exact I.
  - destruct O as (acc & ->). apply St. exact I.
  - apply St. destruct O as [(res & err & ->)|(acc & ->)]; exact I.
  - rewrite O. exact (L_polls t).
Qed.
Lemma L_undisturbed : undisturbed L_run L_lab.
Proof.
  split.
  - intros n. unfold L_lab. destruct (nth_error W_all n) as [l|] eqn:E; [|exact I]. apply nth_error_In in E. apply L_lossless in E. destruct l; exact E || exact I.
  - intros n. destruct (exec W_step (winit W_carried) (firstn n W_all)) as [w|] eqn:E.
    + unfold L_run, W_end. rewrite E. apply (healthy_before W_carried W_carry [] W_raddr (skipn n W_all) _ w (W_end W_all) E); [| |exact W_healthy].
      * intros l H. apply L_lossless. rewrite <- (firstn_skipn n W_all). apply in_or_app. auto.
      * change (exec W_step w (skipn n W_all) = Some (W_end W_all)). pose proof W_runs as R. rewrite <- (firstn_skipn n W_all) in R at 1. rewrite exec_app, E in R. exact R.
    + exfalso. pose proof W_runs as R. rewrite <- (firstn_skipn n W_all) in R at 1. rewrite exec_app, E in R. discriminate.
Qed.
Lemma L_ranges : ranges_end L_run.
Proof. intros i p n. exists (max n 65). split; [lia|]. rewrite L_over by lia. destruct i as [|[|i]]; destruct p as [|[|[|p]]]; vm_compute; auto. Qed.
Example C74_calls_return_case : endless W_carried W_carry [] W_raddr L_run L_lab /\ fair W_carry [] W_raddr L_run L_lab /\ undisturbed L_run L_lab /\ ranges_end L_run /\
  In (ENew 0 (mkReq 7 wF wm [5] true)) (hist (sd (ws (L_run 38)) 0)) /\ L_lab 0 = Some (WDial 1 true) /\ carries (W_carried 1) wF true.
Proof.
  split; [exact L_endless|]. split; [exact L_fair|]. split; [exact L_undisturbed|]. split; [exact L_ranges|].
  split; [vm_compute; tauto|]. split; [reflexivity|]. exists [], []. split; [reflexivity|intros []].
Qed.

(* Fairness is needed: if the dock never gets to dial at the address it was given, the call
   waits for ever. *)
Definition U_run (n : nat) : world nat := W_end (firstn n W_talk).
Definition U_lab (n : nat) : option (wlab nat) := nth_error W_talk n.
Lemma U_runs : exec W_step (winit W_carried) W_talk = Some (W_end W_talk).
Proof. vm_compute. reflexivity. Qed.
Lemma U_meets : exec W_step (W_end W_talk) (W_meet ++ W_answer) = Some (W_end W_all).
Proof. pose proof W_runs as R. unfold W_all in R at 1. rewrite exec_app, U_runs in R. exact R. Qed.
Theorem C74_unfair_refuted : ~ forall V carried (carry : nat -> nat -> list V -> option (list V)) black raddr r lab,
  endless carried carry black raddr r lab -> undisturbed r lab -> ranges_end r ->
  (forall i j l, carry i j l <> None) ->
  forall n i c q j n', In (ENew c q) (hist (sd (ws (r n)) i)) -> lab n' = Some (WDial j true) -> carries (carried j) (q_slot q) true ->
  exists m x, n <= m /\ In (EReturn c x) (hist (sd (ws (r m)) i)).
Proof.
  intros H. assert (Len : length W_talk = 36) by (vm_compute; reflexivity).
  assert (Over : forall n, 36 <= n -> U_run n = W_end W_talk) by (intros n L; unfold U_run; rewrite firstn_all2; [reflexivity|rewrite Len; exact L]).
  assert (N : nothing_lost W_talk) by (intros l X; apply L_lossless; unfold W_all; apply in_or_app; auto).
  destruct (H nat W_carried W_carry [] W_raddr U_run U_lab) with (n := 36) (i := 0) (c := 0) (q := mkReq 7 wF wm [5] true) (j := 1) (n' := 0) as (m & x & L & X).
  - split; [reflexivity|]. intros n. pose proof (L_steps _ _ _ U_runs n) as X. unfold U_lab, U_run. destruct (nth_error W_talk n) as [l|] eqn:E.
    + destruct X as (w1 & w2 & E1 & E2 & E3). unfold W_end. rewrite E1, E3. exact E2.
    + apply nth_error_None in E. rewrite !firstn_all2 by lia. reflexivity.
  - split.
    + intros n. unfold U_lab. destruct (nth_error W_talk n) as [l|] eqn:E; [|exact I]. apply nth_error_In in E. apply N in E. destruct l; exact E || exact I.
    + intros n. assert (R := U_runs). rewrite <- (firstn_skipn n W_talk) in R at 1. rewrite exec_app in R. unfold U_run, W_end at 1. destruct (exec W_step (winit W_carried) (firstn n W_talk)) as [w|] eqn:E; [|discriminate].
      apply (healthy_before W_carried W_carry [] W_raddr (skipn n W_talk ++ W_meet ++ W_answer) _ w (W_end W_all) E); [| |exact W_healthy].
      * intros l X. apply L_lossless. unfold W_all. apply in_app_or in X as [X|X]; apply in_or_app; [left|right; exact X]. rewrite <- (firstn_skipn n W_talk). apply in_or_app. auto.
      * change (exec W_step w (skipn n W_talk ++ W_meet ++ W_answer) = Some (W_end W_all)). rewrite exec_app, R. exact U_meets.
  - intros i p n. exists (max n 36). split; [lia|]. rewrite Over by lia. destruct i as [|[|i]]; destruct p as [|[|[|p]]]; vm_compute; auto.
  - discriminate.
  - vm_compute. tauto.
  - reflexivity.
  - exists [], []. split; [reflexivity|intros []].
  - rewrite Over in X by exact L. vm_compute in X. intuition discriminate.
Qed.
Print Assumptions C74_unfair_refuted.
