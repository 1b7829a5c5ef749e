(* Property theorems C73: networks whose connections are dialled, down to the bytes. *)
From Verif Require Import Lts GoInt GoVal Tables CodecSpec ProtoModel ProtoSpec SysCodec DockModel DockSpec SysModel SysSpec WorldModel WorldSpec WorldProof WorldProps.
From Verif Require Import ByteModel ByteSpec ByteProof3 ByteProps FleetModel FleetSpec FleetProof2.
From Verif Require HubModel HubSpec.
From Coq Require Import Arith Bool List ZArith Lia.
Import ListNotations.
Open Scope nat_scope.

(* -- the network of the examples of C71: dock 0 on a 32-bit platform, dock 1 and the hub on
   64-bit ones; each packet goes as bytes: popped, written, read in two pieces, taken *)
Definition F_step := fstep [] W_raddr B_ws.
Definition F_bytes (n : fleet) (e : endp) : list flab :=
  match across n e with
  | Some e' =>
      let k := match queue (out (fb n) e') with p :: _ => match marshal (B_ws (proc e')) (pack p) with SOk f => length f | _ => 0 end | [] => 0 end in
      map FRoutine [BPop e'; BWrite e'; BRead e 5; BRead e (k - 5); BTake e]
  | None => []
  end.
Definition F_lower (n : fleet) (l : wlab gval) : list flab :=
  match l with
  | WDock i l => [FDock i l] | WHub l => [FHub l] | WDeliver i p => F_bytes n (DockEnd i p) | WHubDeliver h => F_bytes n (HubEnd h)
  | WDial i ok => [FDial i ok] | WListen i p ok => [FListen i p ok] | WConnect i p j m => [FConnect i p j m] | WFail i p => [FFail i p] | WAccept j q => [FAccept j q]
  | _ => []
  end.
Fixpoint F_run (n : fleet) (ls : list (wlab gval)) : list flab :=
  match ls with
  | [] => []
  | l :: ls => F_lower n l ++ match exec F_step n (F_lower n l) with Some n' => F_run n' ls | None => [] end
  end.
Definition f5 : gval := VInt 0 IInt 5%Z.
Definition f300 : gval := VInt 0 I16 300%Z.
Definition fd (i : nat) (ls : list (label gval)) : list (wlab gval) := map (WDock i) ls.
Definition fh (l : HubModel.label) (n : nat) : list (wlab gval) := repeat (WHub l) n.
Definition F_boot (i : nat) (fs : list name) (n m : nat) : list (wlab gval) :=
  [WDial i true] ++ fd i [LRun; LAnnounce 0 fs true] ++ [WHubDeliver i] ++ fh (HubModel.HStep i) n ++
  [WDeliver i 0; WListen i 0 true] ++ fd i [HGo 0; HSend 0 fs true; HGo 0] ++ [WHubDeliver i] ++ fh (HubModel.HStep i) m.
Definition F_ask : list (wlab gval) := fd 0 [LCall wF wm [f5] true 7; CStep 0 true; CStep 0 true] ++ [WHubDeliver 0] ++ fh (HubModel.QStep 10) 2 ++ [WDeliver 0 0].
Definition F_meet : list (wlab gval) :=
  [WConnect 0 0 1 20001%Z] ++ fd 0 [HGo 0; LAnnounce 1 [] true] ++ [WAccept 1 1] ++ fd 1 [LAnnounce 1 [wF] true] ++
  [WDeliver 0 1] ++ fd 0 [HSend 1 [] true; HGo 1; HGo 1] ++ [WDeliver 1 1] ++ fd 1 [HSend 1 [wF] true; HGo 1] ++ [WDeliver 1 1] ++ fd 1 [HGo 1] ++ [WDeliver 0 1].
Definition F_reply : list (wlab gval) :=
  fd 0 [HGo 1; HPick 1 7; HGo 1; HCommit 1 true; HGo 1; HGo 1] ++ [WDeliver 1 1] ++ fd 1 [SExec 0 [f300] None; SSend 0 true] ++
  [WDeliver 0 1] ++ fd 0 [BStep 0; CStep 0 true; CStep 0 true; BStep 0].
Definition F_talk : list flab := Eval vm_compute in F_run (finit W_carried) (F_boot 1 [wF] 3 3 ++ F_boot 0 [] 2 1 ++ F_ask).
Definition F_all : list flab := Eval vm_compute in F_run (finit W_carried) (F_boot 1 [wF] 3 3 ++ F_boot 0 [] 2 1 ++ F_ask ++ F_meet ++ F_reply).
Definition F_end (ls : list flab) : fleet := match exec F_step (finit W_carried) ls with Some n => n | None => finit W_carried end.
Lemma F_runs : exec F_step (finit W_carried) F_all = Some (F_end F_all).
Proof. unfold F_end. destruct (exec F_step (finit W_carried) F_all) eqn:E; [reflexivity|]. exfalso. revert E. vm_compute. discriminate. Qed.
Lemma F_talks : exec F_step (finit W_carried) F_talk = Some (F_end F_talk).
Proof. unfold F_end. destruct (exec F_step (finit W_carried) F_talk) eqn:E; [reflexivity|]. exfalso. revert E. vm_compute. discriminate. Qed.
Lemma F_wired : wired (fends (F_end F_all)) hub_end.
Proof.
  split.
  - intros [|[|i]] [|[|p]] j q H; vm_compute in H; try discriminate H; injection H as <- <-; vm_compute; reflexivity.
  - intros i p h. split.
    + destruct i as [|[|i]], p as [|[|p]]; intros H; vm_compute in H; try discriminate H; injection H as <-; reflexivity.
    + unfold hub_end. intros [= -> <-]. destruct i as [|[|i]]; vm_compute; reflexivity.
Qed.
Lemma F_legits : Forall (legitimate (across (F_end F_all)) B_ws) (handed (fb (F_end F_all))).
Proof. apply (legit_checked _ _ _ F_wired). vm_compute. reflexivity. Qed.
Lemma T_wired : wired (fends (F_end F_talk)) hub_end.
Proof.
  split.
  - intros [|[|i]] [|[|p]] j q H; vm_compute in H; discriminate H.
  - intros i p h. split.
    + destruct i as [|[|i]], p as [|[|p]]; intros H; vm_compute in H; try discriminate H; injection H as <-; reflexivity.
    + unfold hub_end. intros [= -> <-]. destruct i as [|[|i]]; vm_compute; reflexivity.
Qed.
Lemma T_legits : Forall (legitimate (across (F_end F_talk)) B_ws) (handed (fb (F_end F_talk))).
Proof. apply (legit_checked _ _ _ T_wired). vm_compute. reflexivity. Qed.
Lemma F_healthy : healthy (parts (fb (F_end F_all))).
Proof.
  split.
  - intros [|[|i]]; vm_compute; reflexivity.
  - vm_compute; reflexivity.
  - intros [|[|i]] H; vm_compute in H; intuition discriminate.
  - intros [|[|i]] p k H; vm_compute in H; intuition discriminate.
  - intros [|[|i]] k f H; vm_compute in H; intuition (try discriminate); congruence.
  - intros [|[|i]]; vm_compute; repeat constructor; intuition.
Qed.
Lemma F_unbroken : unbroken (F_end F_all).
Proof.
  split; [intros [o|]; vm_compute; reflexivity|]. intros [[|[|i]] [|[|p]]|[|[|h]]] _; vm_compute; split; reflexivity.
Qed.
Lemma F_no_send n i p ns acc : handlers (bd (fb n) i) p = HIdle -> F_step n (FDock i (HSend p ns acc)) = None.
Proof.
  intros H. assert (E : dstep (bd (fb n) i) (HSend p ns acc) = None) by (unfold dstep; rewrite H; destruct (state (bd (fb n) i)); try destruct (reorders _ _); reflexivity).
  unfold F_step. cbn [fstep bstep]. unfold dock_does. rewrite E. destruct (gone _ _); reflexivity.
Qed.
Lemma F_no_read n e k : match across n e with Some e' => flight (out (fb n) e') = [] | None => True end -> 0 < k -> F_step n (FRoutine (BRead e k)) = None.
Proof.
  intros H K. unfold F_step. cbn [fstep site bstep]. destruct (there n e); [|reflexivity]. unfold across in H. destruct (other (fends n) hub_end e) as [e'|]; [|reflexivity].
  rewrite H. destruct k; [lia|]. cbn [length Nat.ltb Nat.leb]. rewrite !orb_true_r. reflexivity.
Qed.
Lemma F_stuck n : (forall l, fdue l -> F_step n l = None) -> (forall t, F_step n (FHub (HubModel.QStep t)) = None) -> fsettled [] W_raddr B_ws n.
Proof.
  intros A Q. split; [exact A|]. intros t [|k] n' H; [injection H as <-; reflexivity|].
  cbn [repeat exec] in H. fold F_step in H. rewrite Q in H. discriminate.
Qed.
Lemma F_settled : fsettled [] W_raddr B_ws (F_end F_all).
Proof.
  apply F_stuck.
  - intros l D. destruct l as [i l|l|l|i ok|i p ok|i p j m|i p|j q]; try (exfalso; exact D).
    + destruct l; try (exfalso; exact D); clear D;
      match goal with
      | |- context [HSend ?p ?ns ?acc] => apply (F_no_send (F_end F_all) i p ns acc); W_two i p
      | |- context [LAnnounce ?j _ _] => W_two i j
      | |- context [SExec ?j _ _] => W_two i j
      | |- context [HPick ?p _] => W_two i p
      | |- context [HCommit ?p _] => W_two i p
      | |- context [CStep ?p _] => W_two i p
      | |- context [SSend ?p _] => W_two i p
      | |- context [FDock ?i (_ ?p)] => W_two i p
      end.
    + destruct l as [| |p|]; try (exfalso; exact D). W_one p.
    + destruct l as [| |e|e| | |e k|e|]; try (exfalso; exact D); [..|apply F_no_read; [|exact D]|]; clear D; (destruct e as [i p|h]; [destruct i as [|[|i]]; destruct p as [|[|[|p]]]|destruct h as [|[|h]]]); vm_compute; first [reflexivity|exact I].
    + W_two i p.
    + W_two i p.
    + W_two i p.
    + W_one j.
  - intros t. do 24 (destruct t as [|t]; [vm_compute; reflexivity|]). vm_compute. reflexivity.
Qed.

(* Whatever a network does when its packets travel as bytes, a network of packets does (C71):
   the same docks and hub, connections, and listeners; nothing is lost there unless a query
   or a packet of the hub found a full queue; and when nothing is left to do down to the
   bytes, nothing is left to do there. *)
Theorem C73_bytes_to_networks : forall carried black raddr wz ls n,
  exec (fstep black raddr wz) (finit carried) ls = Some n -> Forall (legitimate (across n) wz) (handed (fb n)) ->
  exists ls' w, exec (wstep (fun _ _ => through) black raddr) (winit carried) ls' = Some w /\ (forall i, sd (ws w) i = bd (fb n) i) /\ sh (ws w) = bh (fb n) /\
    ends w = fends n /\ peers w = fpeers n /\ backlog w = fbacklog n /\ listeners w = flisteners n /\
    (dropped (fb n) = false -> nothing_lost ls') /\ (forall j, In (FDial j true) ls -> In (WDial j true) ls') /\
    (dropped (fb n) = false -> unbroken n -> healthy (parts (fb n)) -> fsettled black raddr wz n -> settled (fun _ _ => through) black raddr w).
Proof. exact fleet_to_network. Qed.
Print Assumptions C73_bytes_to_networks.
Example C73_bytes_to_networks_case : exec F_step (finit W_carried) F_all = Some (F_end F_all) /\ length F_all = 121 /\
  Forall (legitimate (across (F_end F_all)) B_ws) (handed (fb (F_end F_all))) /\ length (handed (fb (F_end F_all))) = 14 /\
  dropped (fb (F_end F_all)) = false /\ unbroken (F_end F_all) /\ healthy (parts (fb (F_end F_all))) /\ fsettled [] W_raddr B_ws (F_end F_all).
Proof.
  split; [exact F_runs|]. split; [reflexivity|]. split; [exact F_legits|]. split; [vm_compute; reflexivity|]. split; [vm_compute; reflexivity|].
  split; [exact F_unbroken|]. split; [exact F_healthy|exact F_settled].
Qed.

(* A remote call in such a network returns only if its method ran exactly once, on a dock
   that carries the feature, with the caller's arguments as the codec carries them. *)
Theorem C73_returned_call_ran_once : forall carried black raddr wz ls n i c x,
  exec (fstep black raddr wz) (finit carried) ls = Some n -> Forall (legitimate (across n) wz) (handed (fb n)) ->
  NoDup (map q_index (requests (hist (bd (fb n) i)))) -> In (EReturn c x) (hist (bd (fb n) i)) ->
  exists q j k, In (ENew c q) (hist (bd (fb n) i)) /\ executed carried (fends n) (fun _ _ => through) (parts (fb n)) i q j k x /\
    forall j' k' q', served carried (fends n) (parts (fb n)) i j' k' q' -> q_index q' = q_index q -> j' = j /\ k' = k.
Proof. exact fleet_returned. Qed.
Print Assumptions C73_returned_call_ran_once.
Example C73_returned_case : exec F_step (finit W_carried) F_all = Some (F_end F_all) /\ Forall (legitimate (across (F_end F_all)) B_ws) (handed (fb (F_end F_all))) /\
  map q_index (requests (hist (bd (fb (F_end F_all)) 0))) = [7%Z] /\ In (EReturn 0 (mkRet [f300] None)) (hist (bd (fb (F_end F_all)) 0)) /\
  runs 0 (hist (bd (fb (F_end F_all)) 1)) = [([f300], None)].
Proof. split; [exact F_runs|]. split; [exact F_legits|]. split; [vm_compute; reflexivity|]. split; [vm_compute; tauto|vm_compute; reflexivity]. Qed.

(* A dial reaches the dock the hub meant. *)
Theorem C73_dials_reach_the_right_dock : forall carried black raddr wz ls n i p j m n',
  exec (fstep black raddr wz) (finit carried) ls = Some n -> Forall (legitimate (across n) wz) (handed (fb n)) -> fstep black raddr wz n (FConnect i p j m) = Some n' ->
  exists t f k, In (HubModel.EAnswer t i f k (machine raddr j) m) (HubModel.hist (bh (fb n))) /\ carries (carried j) f true /\
    (exists c q, In (ENew c q) (hist (bd (fb n) i)) /\ q_slot q = f) /\ (~ cleared (hist (bd (fb n) i)) -> j <> i).
Proof. exact fleet_dials. Qed.
Print Assumptions C73_dials_reach_the_right_dock.
Lemma F_enabled ls l : match F_step (F_end ls) l with Some _ => true | None => false end = true -> exists n', F_step (F_end ls) l = Some n'.
Proof. destruct (F_step (F_end ls) l); [eauto|discriminate]. Qed.
Example C73_dials_case : exec F_step (finit W_carried) F_talk = Some (F_end F_talk) /\ Forall (legitimate (across (F_end F_talk)) B_ws) (handed (fb (F_end F_talk))) /\
  (exists n', F_step (F_end F_talk) (FConnect 0 0 1 20001%Z) = Some n') /\ F_step (F_end F_talk) (FConnect 0 0 0 20002%Z) = None.
Proof.
  split; [exact F_talks|]. split; [exact T_legits|]. split; [apply F_enabled|]; vm_compute; reflexivity.
Qed.

(* Every call is answered: in a healthy network in which no packet found a full queue, no
   process or routine has ended and nothing is left to do, each call of a feature that some
   connected dock carries has returned once, with what the one execution of its method, at a
   dock that carries it, gave. *)
Theorem C73_every_call_answered : forall carried black raddr wz ls n i c q j,
  exec (fstep black raddr wz) (finit carried) ls = Some n -> Forall (legitimate (across n) wz) (handed (fb n)) -> dropped (fb n) = false ->
  unbroken n -> healthy (parts (fb n)) -> fsettled black raddr wz n ->
  In (ENew c q) (hist (bd (fb n) i)) -> In (FDial j true) ls -> carries (carried j) (q_slot q) true ->
  exists x j' k, returns c (hist (bd (fb n) i)) = [x] /\ executed carried (fends n) (fun _ _ => through) (parts (fb n)) i q j' k x.
Proof. exact fleet_answers. Qed.
Print Assumptions C73_every_call_answered.
Example C73_every_call_answered_case : exec F_step (finit W_carried) F_all = Some (F_end F_all) /\
  Forall (legitimate (across (F_end F_all)) B_ws) (handed (fb (F_end F_all))) /\ dropped (fb (F_end F_all)) = false /\
  unbroken (F_end F_all) /\ healthy (parts (fb (F_end F_all))) /\ fsettled [] W_raddr B_ws (F_end F_all) /\
  In (ENew 0 (mkReq 7 wF wm [f5] true)) (hist (bd (fb (F_end F_all)) 0)) /\ In (FDial 1 true) F_all /\ carries (W_carried 1) wF true /\
  returns 0 (hist (bd (fb (F_end F_all)) 0)) = [mkRet [f300] None].
Proof.
  split; [exact F_runs|]. split; [exact F_legits|]. split; [vm_compute; reflexivity|]. split; [exact F_unbroken|]. split; [exact F_healthy|]. split; [exact F_settled|].
  split; [vm_compute; tauto|]. split; [left; reflexivity|]. split; [exists [], []; split; [reflexivity|intros []]|vm_compute; reflexivity].
Qed.
