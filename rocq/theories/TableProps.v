(* Property theorems C81: the tables of pending calls. *)
From Verif Require Import Lts GoInt GoVal Tables DockModel DockSpec DockProps DockProof12 SysModel SysSpec WorldModel WorldSpec WorldProps ByteModel ByteSpec ByteProps FleetModel FleetSpec FleetProps FleetLiveSpec HarborModel HarborSpec HarborProof7 HarborProps.
From Verif Require ChanModel.
From Coq Require Import Arith Bool List ZArith Lia.
Import ListNotations.
Open Scope nat_scope.

(* A call is in the table from the moment it is made until a response for it is there: *)
Theorem C81_in_table_until_response : forall V carried ls (d : dock V) c q, exec dstep (new_dock carried) ls = Some d -> NoDup (map q_index (requests (hist d))) -> In (ENew c q) (hist d) ->
  (forall p r, In (ERecv p (KResponse r)) (hist d) -> p_index r <> q_index q) -> zget (rpcs d) (q_index q) = Some c.
Proof. exact @unanswered_stays. Qed.
Print Assumptions C81_in_table_until_response.
Example C81_until_case : exists d, exec dstep (new_dock D_carried) (D_boot ++ D_call ++ D_link ++ D_ready ++ D_answer ++ [LCall fc mm [7] true 2000%Z]) = Some d /\
  map q_index (requests (hist d)) = [1000%Z; 2000%Z] /\ In (ENew 1 (mkReq 2000 fc mm [7] true)) (hist d) /\ (forall p r, In (ERecv p (KResponse r)) (hist d) -> p_index r <> 2000%Z).
Proof.
  eexists. split; [vm_compute; reflexivity|]. split; [reflexivity|]. split; [vm_compute; tauto|].
  intros p r I. vm_compute in I. repeat (destruct I as [I|I]; [try discriminate I; try (injection I as _ <-; discriminate)|]). destruct I.
Qed.

(* when neither callers nor delivering goroutines can take a step, it holds exactly the calls
   that have not returned: a call that never returns is never forgotten; *)
Theorem C81_table_at_rest : forall V carried ls (d : dock V) i c, exec dstep (new_dock carried) ls = Some d -> state d = Alive -> NoDup (map q_index (requests (hist d))) ->
  (forall b, dstep d (BStep b) = None) -> (forall c acc, dstep d (CStep c acc) = None) ->
  zget (rpcs d) i = Some c <-> exists q, In (ENew c q) (hist d) /\ q_index q = i /\ returns c (hist d) = [].
Proof. exact @table_at_rest. Qed.
Print Assumptions C81_table_at_rest.
Definition T_second : list (label nat) := D_boot ++ D_call ++ D_link ++ D_ready ++ D_answer ++ [LCall fc mm [7] true 2000%Z; CStep 1 true; CStep 1 true].
Example C81_rest_case : exists d, exec dstep (new_dock D_carried) T_second = Some d /\ state d = Alive /\ map q_index (requests (hist d)) = [1000%Z; 2000%Z] /\
  (forall b, dstep d (BStep b) = None) /\ (forall c acc, dstep d (CStep c acc) = None) /\ returns 0 (hist d) = [mkRet [8; 9] None] /\ returns 1 (hist d) = [].
Proof.
  eexists. split; [vm_compute; reflexivity|]. split; [reflexivity|]. split; [reflexivity|]. split; [intros [|[|b]]; reflexivity|]. split; [intros [|[|[|c]]] acc; reflexivity|]. split; reflexivity.
Qed.
(* so nothing bounds it. *)
Theorem C81_bounded_refuted : forall V, ~ exists N, forall carried ls (d : dock V), exec dstep (new_dock carried) ls = Some d -> state d = Alive -> NoDup (map q_index (requests (hist d))) ->
  (forall b, dstep d (BStep b) = None) -> (forall c acc, dstep d (CStep c acc) = None) -> length (rpcs d) <= N.
Proof. exact table_unbounded. Qed.
Print Assumptions C81_bounded_refuted.

(* Along every endless fair run, while its dock's process runs, a call that has returned is
   removed from the table for good. *)
Theorem C81_returned_calls_go : forall O carried black raddr wz code (T : nat -> name -> ChanModel.target O gval) o0 run lab,
  hendless carried black raddr wz code T o0 run lab -> hfair black raddr wz code T run lab ->
  forall i, (forall n, up i (run n) = true) -> (forall n, NoDup (map q_index (requests (hist (bd (fb (hf (run n))) i))))) ->
  forall n c, returns c (hist (bd (fb (hf (run n))) i)) <> [] -> exists m, n <= m /\ forall m' x, m <= m' -> zget (rpcs (bd (fb (hf (run m'))) i)) x <> Some c.
Proof. exact @entry_goes. Qed.
Print Assumptions C81_returned_calls_go.
Lemma T_up n : up 0 (HG_run H_all n) = true.
Proof.
  unfold up. rewrite (HG_no_panic n (Some 0)). destruct (proj1 HG_undisturbed n) as (U & _ & H). pose proof (h_alive _ H 0 : state (bd (fb (hf (HG_run H_all n))) 0) = Alive) as A.
  rewrite A, (proj1 U (Some 0)). reflexivity.
Qed.
Example C81_go_case : hendless W_carried [] W_raddr B_ws H_code (fun _ _ => H_counter) (fun _ _ => 10%Z) (HG_run H_all) (HG_lab H_all) /\
  hfair [] W_raddr B_ws H_code (fun _ _ => H_counter) (HG_run H_all) (HG_lab H_all) /\ (forall n, up 0 (HG_run H_all n) = true) /\
  (forall n, NoDup (map q_index (requests (hist (bd (fb (hf (HG_run H_all n))) 0))))) /\ returns 0 (hist (bd (fb (hf (HG_run H_all 130))) 0)) <> [] /\
  zget (rpcs (bd (fb (hf (HG_run H_all 130))) 0)) 7%Z = Some 0.
Proof.
  split; [exact (HG_endless _ H_runs)|]. split; [exact HG_fair|]. split; [exact T_up|]. split; [|split; [vm_compute; discriminate|vm_compute; reflexivity]].
  intros n. destruct (proj1 HG_undisturbed n) as (_ & _ & H). exact (h_ids _ H 0).
Qed.
