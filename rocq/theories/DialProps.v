(* Property theorems C75: how many connections the calls of a dock open. *)
From Verif Require Import Lts GoVal Tables DockModel DockSpec SysModel SysSpec WorldModel WorldSpec LiveSpec DialSpec WorldProps LiveProps DialProof DialProof2 DialProof3.
From Verif Require HubModel HubSpec.
From Coq Require Import Arith Bool List ZArith Lia.
Import ListNotations.
Open Scope nat_scope.

(* A dock dials other docks at most as often as it asked the hub: in every run, whatever is
   lost and whatever breaks. *)
Theorem C75_one_dial_per_query : forall V carried (carry : nat -> nat -> list V -> option (list V)) black raddr ls w i,
  exec (wstep carry black raddr) (winit carried) ls = Some w -> dials i ls <= asked (hist (sd (ws w) i)).
Proof. exact @dials_asked. Qed.
Print Assumptions C75_one_dial_per_query.
(* the run of WorldProps.v: one question and one dial *)
Example C75_one_dial_per_query_case : exec W_step (winit W_carried) W_all = Some (W_end W_all) /\ dials 0 W_all = 1 /\ connections 0 W_all = 1 /\ asked (hist (sd (ws (W_end W_all)) 0)) = 1.
Proof. split; [exact W_runs|]. repeat split; vm_compute; reflexivity. Qed.

(* A dock that stops calling stops dialling: along every endless run in which no task is held
   up for ever, every range over the waiting calls ends, nothing is lost and nothing breaks,
   a dock that makes no new call after some moment, and whose calls are of features carried by
   docks that connect to the hub, dials other docks only so often. *)
Theorem C75_dials_end : forall V carried (carry : nat -> nat -> list V -> option (list V)) black raddr r lab,
  endless carried carry black raddr r lab -> fair carry black raddr r lab -> undisturbed r lab -> ranges_end r ->
  (forall i j l, carry i j l <> None) ->
  forall i n0, (forall n c q, In (ENew c q) (hist (sd (ws (r n)) i)) -> In (ENew c q) (hist (sd (ws (r n0)) i))) ->
  (forall c q, In (ENew c q) (hist (sd (ws (r n0)) i)) -> exists j n', lab n' = Some (WDial j true) /\ carries (carried j) (q_slot q) true) ->
  exists b, forall n, dials i (labels lab n) <= b.
Proof. exact @dials_end. Qed.
Print Assumptions C75_dials_end.
Lemma C75_slot c q : In (ENew c q) (hist (sd (ws (L_run 65)) 0)) -> q_slot q = wF.
Proof. intros H. vm_compute in H. repeat (destruct H as [H|H]; [try discriminate H; injection H as _ <-; reflexivity|]). destruct H. Qed.
Example C75_dials_end_case : endless W_carried W_carry [] W_raddr L_run L_lab /\ fair W_carry [] W_raddr L_run L_lab /\ undisturbed L_run L_lab /\ ranges_end L_run /\
  (forall n c q, In (ENew c q) (hist (sd (ws (L_run n)) 0)) -> In (ENew c q) (hist (sd (ws (L_run 65)) 0))) /\
  (forall c q, In (ENew c q) (hist (sd (ws (L_run 65)) 0)) -> exists j n', L_lab n' = Some (WDial j true) /\ carries (W_carried j) (q_slot q) true) /\
  requests (hist (sd (ws (L_run 65)) 0)) = [qq] /\ dials 0 (labels L_lab 65) = 1.
Proof.
  split; [exact L_endless|]. split; [exact L_fair|]. split; [exact L_undisturbed|]. split; [exact L_ranges|]. split; [|split; [|split; vm_compute; reflexivity]].
  - intros n c q H. destruct (le_ge_dec n 65) as [L|L].
    + exact (LiveProof.event_stays W_carried W_carry [] W_raddr L_run L_lab L_endless L_undisturbed n 65 0 _ L H).
    + rewrite (L_over n L) in H. rewrite (L_over 65 (le_n _)). exact H.
  - intros c q H. exists 1, 0. split; [reflexivity|]. assert (E : q_slot q = wF) by (exact (C75_slot c q H)). rewrite E. exists [], []. split; [reflexivity|intros []].
Qed.

(* But the number of calls bounds neither: whatever bound one may give, in terms of the slots
   that the docks carry and the number of calls of the dock, some run, in which nothing is lost
   and nothing breaks, has the dock connect to others more often. *)
Theorem C75_bounded_by_calls_refuted : ~ exists f : (nat -> list (name * bool)) -> nat -> nat,
  forall V carried (carry : nat -> nat -> list V -> option (list V)) black raddr ls w i,
  exec (wstep carry black raddr) (winit carried) ls = Some w -> nothing_lost ls -> healthy (ws w) ->
  connections i ls <= f carried (length (requests (hist (sd (ws w) i)))).
Proof.
  intros (f & H). destruct (unbounded (S (f W_carried 1))) as (ls & w & E & N & Hw & C & R & _). specialize (H _ _ _ _ _ _ _ 0 E N Hw). rewrite C, R in H. exact (Nat.nle_succ_diag_l _ H).
Qed.
Print Assumptions C75_bounded_by_calls_refuted.
(* one call of one dock, still waiting, and a hundred connections to the one other dock *)
Example C75_bounded_by_calls_refuted_case : exists ls w, exec W_step (winit W_carried) ls = Some w /\ nothing_lost ls /\ healthy (ws w) /\
  connections 0 ls = 100 /\ (forall i, requests (hist (sd (ws w) i)) = match i with 0 => [qq] | _ => [] end) /\ returns 0 (hist (sd (ws w) 0)) = [].
Proof. exact (unbounded 100). Qed.
