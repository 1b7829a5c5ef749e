(* Property theorems C80: a network whose hub has ended. *)
From Verif Require Import Lts GoInt GoVal Tables CodecSpec ProtoModel ProtoSpec SysCodec DockModel DockSpec SysModel SysSpec FullModel FullSpec WorldModel WorldSpec WorldProof WorldProps.
From Verif Require Import LiveSpec ByteModel ByteSpec ByteProof3 ByteProps FleetModel FleetSpec FleetProps HarborModel HarborSpec HarborProof HarborProof2 HarborProof3 HarborProof4 HarborProof5 HarborProof6 HarborProps HarborEndProps.
From Verif Require ChanModel ChanSpec HubModel HubSpec.
From Coq Require Import Arith Bool List ZArith Lia.
Import ListNotations.
Open Scope nat_scope.

(* -- the network of the examples of C78: the hub is ended when both docks have registered;
   then dock 0 calls "F", which dock 1 carries and has announced to the hub *)
Definition K_boot : list hlab := Eval vm_compute in map HFleet (F_run (finit W_carried) (F_boot 1 [wF] 3 3 ++ F_boot 0 [] 2 1)).
Definition K_ended : list hlab := K_boot ++ [HKill None].
Definition K_after : list hlab := map HFleet [FDock 0 (LCall wF wm [f5] true 7); FDock 0 (CStep 0 true); FDock 0 (CStep 0 true); FRoutine (BPop (DockEnd 0 0)); FRoutine (BWrite (DockEnd 0 0))].
Lemma K_runs : exec H_step H_init K_ended = Some (H_end K_ended).
Proof. apply H_ends. vm_compute. reflexivity. Qed.
Lemma K_runs2 : exec H_step H_init (K_ended ++ K_after) = Some (H_end (K_ended ++ K_after)).
Proof. apply H_ends. vm_compute. reflexivity. Qed.
Lemma K_wired : wired (fends (hf (H_end (K_ended ++ K_after)))) hub_end.
Proof.
  split.
  - intros [|[|i]] [|[|p]] j q H; vm_compute in H; try discriminate H; injection H as <- <-; vm_compute; reflexivity.
  - intros i p h. split.
    + destruct i as [|[|i]], p as [|[|p]]; intros H; vm_compute in H; try discriminate H; injection H as <-; reflexivity.
    + unfold hub_end. intros [= -> <-]. destruct i as [|[|i]]; vm_compute; reflexivity.
Qed.
Lemma K_legits : Forall (legitimate (across (hf (H_end (K_ended ++ K_after)))) B_ws) (handed (fb (hf (H_end (K_ended ++ K_after))))).
Proof. apply (legit_checked _ _ _ K_wired). vm_compute. reflexivity. Qed.
Lemma K_over : hub_over (H_end K_ended).
Proof. right. vm_compute. reflexivity. Qed.
Lemma K_cut : cut_off (H_end K_ended).
Proof.
  split; [exact K_over|]. intros i. split; [destruct i as [|[|i]]; vm_compute; reflexivity|]. split; [destruct i as [|[|i]]; vm_compute; reflexivity|].
  intros p a. destruct i as [|[|i]]; destruct p as [|[|p]]; vm_compute; discriminate.
Qed.

(* A hub that has ended does nothing any more, whatever the docks do, and none joins it; *)
Theorem C80_hub_ended_for_good : forall O black raddr wz code (T : nat -> name -> ChanModel.target O gval) s ls s',
  hub_over s -> exec (hstep black raddr wz code T) s ls = Some s' ->
  hub_over s' /\ bh (fb (hf s')) = bh (fb (hf s)) /\ forall i, ~ In (HFleet (FDial i true)) ls.
Proof. exact @hub_stays. Qed.
Print Assumptions C80_hub_ended_for_good.
Example C80_ended_case : hub_over (H_end K_ended) /\ exec H_step (H_end K_ended) K_after = Some (H_end (K_ended ++ K_after)) /\
  length (hist (bd (fb (hf (H_end K_ended))) 0)) < length (hist (bd (fb (hf (H_end (K_ended ++ K_after)))) 0)).
Proof. split; [exact K_over|]. split; [exact (E_then _ _ K_runs K_runs2)|]. apply Nat.ltb_lt. vm_compute. reflexivity. Qed.

(* once nothing of it is under way the connections of the network are final; *)
Theorem C80_connections_final : forall O carried black raddr wz code (T : nat -> name -> ChanModel.target O gval) o0 ls1 s1 ls2 s2,
  exec (hstep black raddr wz code T) (hinit carried o0) ls1 = Some s1 -> exec (hstep black raddr wz code T) s1 ls2 = Some s2 ->
  Forall (legitimate (across (hf s2)) wz) (handed (fb (hf s2))) -> cut_off s1 -> cut_off s2 /\ fends (hf s2) = fends (hf s1).
Proof. exact @cut_stays. Qed.
Print Assumptions C80_connections_final.
Example C80_final_case : exec H_step H_init K_ended = Some (H_end K_ended) /\ exec H_step (H_end K_ended) K_after = Some (H_end (K_ended ++ K_after)) /\
  Forall (legitimate (across (hf (H_end (K_ended ++ K_after)))) B_ws) (handed (fb (hf (H_end (K_ended ++ K_after))))) /\ cut_off (H_end K_ended).
Proof. exact (conj K_runs (conj (E_then _ _ K_runs K_runs2) (conj K_legits K_cut))). Qed.

(* and a call never returns that any dock makes, or has made, of a feature which no dock
   connected to it carries, although others may, and have announced it to the hub; *)
Theorem C80_undiscovered_calls_hang : forall O carried black raddr wz code (T : nat -> name -> ChanModel.target O gval) o0 ls1 s1 ls2 s2 i c q,
  exec (hstep black raddr wz code T) (hinit carried o0) ls1 = Some s1 -> exec (hstep black raddr wz code T) s1 ls2 = Some s2 ->
  Forall (legitimate (across (hf s2)) wz) (handed (fb (hf s2))) -> cut_off s1 ->
  NoDup (map q_index (requests (hist (bd (fb (hf s2)) i)))) -> In (ENew c q) (hist (bd (fb (hf s2)) i)) ->
  (forall j p r, fends (hf s1) j p = ToDock i r -> ~ carries (carried j) (q_slot q) true) -> forall x, ~ In (EReturn c x) (hist (bd (fb (hf s2)) i)).
Proof. exact @cut_hangs. Qed.
Print Assumptions C80_undiscovered_calls_hang.
Lemma K_unconnected (s : harbor Z) j p r : (forall j p, match fends (hf s) j p with ToDock _ _ => false | _ => true end = true) -> fends (hf s) j p <> ToDock 0 r.
Proof. intros N E. specialize (N j p). rewrite E in N. discriminate. Qed.
Example C80_undiscovered_case : exec H_step H_init K_ended = Some (H_end K_ended) /\ exec H_step (H_end K_ended) K_after = Some (H_end (K_ended ++ K_after)) /\
  Forall (legitimate (across (hf (H_end (K_ended ++ K_after)))) B_ws) (handed (fb (hf (H_end (K_ended ++ K_after))))) /\ cut_off (H_end K_ended) /\
  NoDup (map q_index (requests (hist (bd (fb (hf (H_end (K_ended ++ K_after)))) 0)))) /\ In (ENew 0 (mkReq 7%Z wF wm [f5] true)) (hist (bd (fb (hf (H_end (K_ended ++ K_after)))) 0)) /\
  (forall j p r, fends (hf (H_end K_ended)) j p = ToDock 0 r -> ~ carries (W_carried j) wF true) /\ carries (W_carried 1) wF true.
Proof.
  split; [exact K_runs|]. split; [exact (E_then _ _ K_runs K_runs2)|]. split; [exact K_legits|]. split; [exact K_cut|].
  split; [replace (map q_index _) with [7%Z] by (vm_compute; reflexivity); repeat constructor; intros []|].
  split; [vm_compute; tauto|].
  split; [|exists [], []; split; [reflexivity|intros []]].
  intros j p r E. exfalso. revert E. apply K_unconnected. intros j' p'. destruct j' as [|[|j']]; destruct p' as [|p']; vm_compute; reflexivity.
Qed.

(* while docks that are connected go on calling each other: in this run the hub is ended
   before the second call of C78's examples, which is executed and returns. *)
Definition K_second : list hlab := H_all ++ [HKill None] ++ H_more.
Example C80_connected_case : exec H_step H_init K_second = Some (H_end K_second) /\ hub_over (H_end K_second) /\
  returns 1 (hist (bd (fb (hf (H_end K_second))) 0)) = [mkRet [f300] None] /\ ChanModel.object (feat (H_end K_second) 1 wF) = 20%Z.
Proof. split; [apply H_ends; vm_compute; reflexivity|]. split; [right; vm_compute; reflexivity|]. split; vm_compute; reflexivity. Qed.
