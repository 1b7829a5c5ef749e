(* Property theorems C76: endless runs of networks down to the bytes. *)
From Verif Require Import Lts GoInt GoVal Tables CodecSpec ProtoModel ProtoSpec SysCodec DockModel DockSpec SysModel SysSpec WorldModel WorldSpec WorldProof WorldProps.
From Verif Require Import LiveSpec ByteModel ByteSpec ByteProps FleetModel FleetSpec FleetProps FleetLiveSpec FleetLiveProof5.
From Verif Require HubModel HubSpec.
From Coq Require Import Arith Bool List ZArith Lia.
Import ListNotations.
Open Scope nat_scope.

(* Every call returns: along every endless run in which no goroutine that can go on is held
   up for ever (send and receive routines, handlers, calls, and the rest), every range over
   the waiting calls ends, no process or routine ends, no queue overflows and nothing breaks,
   each call of a feature carried by some dock that connects to the hub, be it before or after
   the call, returns once, with what the one execution of its method, at a dock that carries
   it, gave, the values as the codec carries them. *)
Theorem C76_calls_return : forall carried black raddr wz r lab,
  fendless carried black raddr wz r lab -> ffair black raddr wz r lab -> fundisturbed r -> flegitimate wz r -> franges_end r ->
  forall n i c q j n', In (ENew c q) (hist (bd (fb (r n)) i)) -> lab n' = Some (FDial j true) -> carries (carried j) (q_slot q) true ->
  exists m x j' k, n <= m /\ returns c (hist (bd (fb (r m)) i)) = [x] /\ executed carried (fends (r m)) (fun _ _ => through) (parts (fb (r m))) i q j' k x.
Proof. exact fleet_fair_call. Qed.
Print Assumptions C76_calls_return.
(* the run of FleetProps.v, after which nothing happens *)
Definition G_run (ls : list flab) (n : nat) : fleet := F_end (firstn n ls).
Definition G_lab (ls : list flab) (n : nat) : option flab := nth_error ls n.
Lemma G_over ls n : length ls <= n -> G_run ls n = F_end ls.
Proof. intros H. unfold G_run. rewrite firstn_all2; [reflexivity|exact H]. Qed.
Lemma G_steps : forall ls w w', exec F_step w ls = Some w' -> forall n, match nth_error ls n with
  | Some l => exists w1 w2, exec F_step w (firstn n ls) = Some w1 /\ F_step w1 l = Some w2 /\ exec F_step w (firstn (S n) ls) = Some w2
  | None => True end.
Proof.
  intros ls w w' E n. destruct (nth_error ls n) as [l|] eqn:N; [|exact I]. apply nth_error_split in N as (a & b & -> & <-).
  rewrite exec_app in E. destruct (exec F_step w a) as [w1|] eqn:E1; [|discriminate]. cbn [exec] in E. destruct (F_step w1 l) as [w2|] eqn:E2; [|discriminate].
  exists w1, w2. rewrite firstn_app, Nat.sub_diag, firstn_all, app_nil_r. split; [exact E1|]. split; [exact E2|].
  rewrite firstn_app, Nat.sub_succ_l, Nat.sub_diag, firstn_all2 by lia. cbn [firstn]. rewrite exec_app, E1. cbn [exec]. rewrite E2. reflexivity.
Qed.
Lemma G_endless ls : exec F_step (finit W_carried) ls = Some (F_end ls) -> fendless W_carried [] W_raddr B_ws (G_run ls) (G_lab ls).
Proof.
  intros R. split; [reflexivity|]. intros n. pose proof (G_steps _ _ _ R n) as X. unfold G_lab, G_run. destruct (nth_error ls n) as [l|] eqn:N.
  - destruct X as (w1 & w2 & E1 & E2 & E3). unfold F_end. rewrite E1, E3. exact E2.
  - apply nth_error_None in N. rewrite !firstn_all2 by lia. reflexivity.
Qed.
Lemma G_calm ls more : F_all = ls ++ more -> forall n, Forall (legitimate (across (G_run ls n)) B_ws) (handed (fb (G_run ls n))) /\ unbroken (G_run ls n) /\ dropped (fb (G_run ls n)) = false /\ healthy (parts (fb (G_run ls n))).
Proof.
  intros Ea n. pose proof F_runs as R. rewrite Ea in R at 1. rewrite <- (firstn_skipn n ls), <- app_assoc, exec_app in R. unfold G_run, F_end.
  destruct (exec F_step (finit W_carried) (firstn n ls)) as [w|] eqn:E; [|discriminate R].
  apply (before W_carried [] W_raddr B_ws (firstn n ls) (skipn n ls ++ more) w (F_end F_all) E R F_legits F_unbroken); [vm_compute; reflexivity|exact F_healthy].
Qed.
Lemma G_undisturbed ls more : F_all = ls ++ more -> fundisturbed (G_run ls) /\ flegitimate B_ws (G_run ls).
Proof. intros H. split; intros n; destruct (G_calm ls more H n) as (A & B & C & D); auto. Qed.
Lemma G_fair : ffair [] W_raddr B_ws (G_run F_all) (G_lab F_all).
Proof.
  intros T n. exists (max n 121). split; [lia|]. left. rewrite G_over by (change (length F_all) with 121; lia). intros l O. destruct F_settled as [St _].
  destruct T; cbn [of_ftask] in O.
  - apply St. destruct O as [-> | ->]; exact I.
  - apply St. destruct O as [->|[(k & Hk & ->)|O]]; [exact I|exact Hk|]. destruct e as [i p|h]; cbn [handling] in O; [|subst l; exact I].
    destruct l as [i' l| | | | | | |]; try (exfalso; exact O); try exact I. destruct l; try (exfalso; exact O); exact I.
  - apply St. subst l. exact I.
  - apply St. destruct O as (ns & acc & ->). exact I.
  - apply St. destruct O as (acc & ->). exact I.
  - apply St. destruct O as [(res & err & ->)|(acc & ->)]; exact I.
  - apply St. subst l. exact I.
  - subst l. do 24 (destruct t as [|t]; [vm_compute; reflexivity|]). vm_compute. reflexivity.
Qed.
Lemma G_ranges : franges_end (G_run F_all).
Proof. intros i p n. exists (max n 121). split; [lia|]. rewrite G_over by (change (length F_all) with 121; lia). destruct i as [|[|i]]; destruct p as [|[|[|p]]]; vm_compute; auto. Qed.
Lemma F_all_nil : F_all = F_all ++ []. Proof. symmetry. apply app_nil_r. Qed.
Example C76_calls_return_case : fendless W_carried [] W_raddr B_ws (G_run F_all) (G_lab F_all) /\ ffair [] W_raddr B_ws (G_run F_all) (G_lab F_all) /\
  fundisturbed (G_run F_all) /\ flegitimate B_ws (G_run F_all) /\ franges_end (G_run F_all) /\
  In (ENew 0 (mkReq 7 wF wm [f5] true)) (hist (bd (fb (G_run F_all 60)) 0)) /\ In (FDial 1 true) F_all /\ G_lab F_all 0 = Some (FDial 1 true) /\ carries (W_carried 1) wF true.
Proof.
  split; [exact (G_endless _ F_runs)|]. split; [exact G_fair|]. split; [exact (proj1 (G_undisturbed _ _ F_all_nil))|]. split; [exact (proj2 (G_undisturbed _ _ F_all_nil))|].
  split; [exact G_ranges|]. split; [vm_compute; tauto|]. split; [left; reflexivity|]. split; [reflexivity|]. exists [], []. split; [reflexivity|intros []].
Qed.

(* The send routines are needed: if only they may be held up for ever, the query of a call may
   stay in the queue to the hub, and the call never returns. *)
Definition F_queued : list flab := Eval vm_compute in F_run (finit W_carried) (F_boot 1 [wF] 3 3 ++ F_boot 0 [] 2 1 ++ fd 0 [LCall wF wm [f5] true 7; CStep 0 true; CStep 0 true]).
Definition F_later : list flab := Eval vm_compute in skipn (length F_queued) F_all.
Lemma F_split : F_all = F_queued ++ F_later.
Proof. vm_compute. reflexivity. Qed.
Lemma F_queues : exec F_step (finit W_carried) F_queued = Some (F_end F_queued).
Proof. unfold F_end. destruct (exec F_step (finit W_carried) F_queued) eqn:E; [reflexivity|]. exfalso. revert E. vm_compute. discriminate. Qed.
Lemma Q_rest T : (forall e, T <> FtSend e) -> fresting [] W_raddr B_ws T (F_end F_queued).
Proof.
  intros N l O. change (F_step (F_end F_queued) l = None). destruct T as [e|e|j q|i j|i c|i k|i b|t]; cbn [of_ftask] in O.
  - elim (N e). reflexivity.
  - destruct O as [->|[(k & Hk & ->)|O]].
    + destruct e as [i p|h]; [destruct i as [|[|i]]; destruct p as [|[|[|p]]]|destruct h as [|[|h]]]; vm_compute; reflexivity.
    + apply F_no_read; [|exact Hk]. destruct e as [i p|h]; [destruct i as [|[|i]]; destruct p as [|[|[|p]]]|destruct h as [|[|h]]]; vm_compute; first [reflexivity|exact I].
    + destruct e as [i p|h]; cbn [handling] in O; [|subst l; W_one h].
      destruct l as [i' l|l|l|i' ok|i' p' ok|i' p' j m|i' p'|j q]; try (exfalso; exact O); [|destruct O as [-> ->]; W_two i p..].
      destruct l; try (exfalso; exact O); destruct O as [-> ->];
      match goal with |- context [HSend ?p ?ns ?acc] => apply (F_no_send (F_end F_queued) i p ns acc); W_two i p | _ => W_two i p end.
  - subst l. W_one j.
  - destruct O as (ns & acc & ->). W_two i j.
  - destruct O as (acc & ->). W_two i c.
  - destruct O as [(res & err & ->)|(acc & ->)]; W_two i k.
  - subst l. W_two i b.
  - subst l. do 24 (destruct t as [|t]; [vm_compute; reflexivity|]). vm_compute. reflexivity.
Qed.
Theorem C76_stalled_send_routine_refuted : ~ forall carried black raddr wz r lab,
  fendless carried black raddr wz r lab ->
  (forall T n, (forall e, T <> FtSend e) -> exists m, n <= m /\ (fresting black raddr wz T (r m) \/ exists l, lab m = Some l /\ of_ftask T l)) ->
  fundisturbed r -> flegitimate wz r -> franges_end r ->
  forall n i c q j n', In (ENew c q) (hist (bd (fb (r n)) i)) -> lab n' = Some (FDial j true) -> carries (carried j) (q_slot q) true ->
  exists m x, n <= m /\ In (EReturn c x) (hist (bd (fb (r m)) i)).
Proof.
  intros H. assert (Len : length F_queued = 56) by (vm_compute; reflexivity). assert (Over : forall n, 56 <= n -> G_run F_queued n = F_end F_queued) by (intros n L; apply G_over; rewrite Len; exact L).
  destruct (G_undisturbed _ _ F_split) as [Un Lg].
  destruct (H W_carried [] W_raddr B_ws (G_run F_queued) (G_lab F_queued)) with (n := 56) (i := 0) (c := 0) (q := mkReq 7%Z wF wm [f5] true) (j := 1) (n' := 0) as (m & x & L & X); auto.
  - exact (G_endless _ F_queues).
  - intros T n N. exists (max n 56). split; [lia|]. left. rewrite Over by lia. apply Q_rest, N.
  - intros i p n. exists (max n 56). split; [lia|]. rewrite Over by lia. destruct i as [|[|i]]; destruct p as [|[|[|p]]]; vm_compute; auto.
  - vm_compute. tauto.
  - exists [], []. split; [reflexivity|intros []].
  - rewrite Over in X by exact L. vm_compute in X. intuition discriminate.
Qed.
Print Assumptions C76_stalled_send_routine_refuted.
