(* Property theorems C52 and C64: a hub and docks together. *)
From Verif Require Import Lts GoVal Tables DockModel DockSpec SysModel SysSpec SysProof SysProof2 SysProof3 SysProof4.
From Verif Require Import GoInt ProtoModel ProtoSpec CallModel SysCodec.
From Verif Require HubModel CodecSpec CallSpec.
From Coq Require Import Arith Bool List ZArith.
Import ListNotations.
Open Scope nat_scope.

(* -- the system of the examples: dock 0 calls feature "F" of dock 1; peers 0 go to the
   hub, peers 1 join the docks; values are Go values, carried by the codec *)
Definition gF : name := [70]%Z.
Definition gm : name := [109]%Z.
Definition gn : name := [110]%Z.
Definition G_carried (i : nat) : list (name * bool) := match i with 1 => [(gF, true)] | _ => [] end.
Definition G_link (i p : nat) : wend :=
  match i, p with 0, 0 => ToHub 0 | 1, 0 => ToHub 1 | 0, 1 => ToDock 1 1 | 1, 1 => ToDock 0 1 | _, _ => Nowhere end.
Definition G_hublink (h : nat) : option (nat * nat) := match h with 0 => Some (0, 0) | 1 => Some (1, 0) | _ => None end.
Definition G_raddr (h : nat) : name := match h with 0 => [65; 58; 49]%Z | _ => [66; 58; 50]%Z end. (* "A:1", "B:2" *)
Definition G_hostport (host : name) (port : Z) : name := host ++ [58; port]%Z.
Definition G_step := sstep G_link G_hublink (fun _ _ => through) [] G_raddr G_hostport.
Lemma G_wired : wired G_link G_hublink.
Proof.
  split.
  - intros [|[|i]] [|[|p]] j q H; cbn in H; try discriminate; injection H as <- <-; reflexivity.
  - intros [|[|i]] [|[|p]] [|[|h]]; cbn; split; intros H; try discriminate; try reflexivity; destruct i; discriminate.
Qed.
Definition on (i : nat) (ls : list (label gval)) : list (slab gval) := map (fun l => SDock i l []) ls.
(* dock 1 registers with the hub, gets its port, listens and says it is ready *)
Definition G_boot : list (slab gval) :=
  on 1 [LDial true; LRun; LConnected 0; LAnnounce 0 [gF] true] ++ [SHubDeliver 1] ++ repeat (SHub (HubModel.HStep 1)) 3 ++
  [SDeliver 1 0] ++ on 1 [HNet 0 true; HGo 0; HSend 0 [gF] true; HGo 0] ++ [SHubDeliver 1] ++ repeat (SHub (HubModel.HStep 1)) 3.
Definition G_args : list gval := [VInt 0 I64 5%Z; VStr 0 [104; 105]%Z].
(* dock 0 calls; the hub is asked and answers; dock 0 dials dock 1; the docks greet each other *)
Definition G_call (m : name) (clock : Z) : list (slab gval) := on 0 [LCall gF m G_args true clock].
Definition G_ask : list (slab gval) :=
  on 0 [LDial true; LRun; CStep 0 true] ++ [SDock 0 (CStep 0 true) [0]; SHubDeliver 0; SHub (HubModel.QStep 6); SHub (HubModel.QStep 6)].
Definition G_meet : list (slab gval) :=
  [SDeliver 0 0] ++ on 0 [HNet 0 true; HGo 0; LConnected 1; LAnnounce 0 [] true] ++ on 1 [LConnected 1; LAnnounce 1 [gF] true] ++
  [SDeliver 0 1] ++ on 0 [HSend 1 [] true; HGo 1; HGo 1] ++ [SDeliver 1 1] ++ on 1 [HSend 1 [gF] true; HGo 1] ++ [SDeliver 1 1] ++ on 1 [HGo 1] ++ [SDeliver 0 1].
(* dock 0 sends the request, dock 1 runs the method and answers, the call returns *)
Definition G_answer : list (slab gval) :=
  on 0 [HGo 1; HPick 1 7; HGo 1; HCommit 1 true; HGo 1; HGo 1] ++ [SDeliver 1 1] ++ on 1 [SExec 0 [VInt 0 IInt 300%Z] None; SSend 0 true] ++ [SDeliver 0 1].
Definition G_run (m : name) : list (slab gval) := G_boot ++ G_call m 7 ++ G_ask ++ G_meet ++ G_answer.
Definition G_all : list (slab gval) := G_run gm ++ on 0 [BStep 0; CStep 0 true; CStep 0 true; BStep 0].

(* -- C52: remote calls *)
(* A remote call returns only if its method ran exactly once, on a dock that carries the
   feature as discoverable: no other request with its identifier from this dock is served
   anywhere. *)
Theorem C52_returned_call_ran_once : forall V carried link hublink (carry : nat -> nat -> list V -> option (list V)) black raddr hostport,
  wired link hublink -> forall ls s i c x, exec (sstep link hublink carry black raddr hostport) (sinit carried) ls = Some s ->
  NoDup (map q_index (requests (hist (sd s i)))) -> In (EReturn c x) (hist (sd s i)) ->
  exists q j k, In (ENew c q) (hist (sd s i)) /\ executed carried link carry s i q j k x /\
    forall j' k' q', served carried link s i j' k' q' -> q_index q' = q_index q -> j' = j /\ k' = k.
Proof. exact @remote_call_spec. Qed.
Print Assumptions C52_returned_call_ran_once.
(* with the codec between the docks: equal arguments in, equal results out *)
Theorem C52_returned_values : forall carried link hublink black raddr hostport,
  wired link hublink -> forall ls s i c x, exec (sstep link hublink (fun _ _ => through) black raddr hostport) (sinit carried) ls = Some s ->
  NoDup (map q_index (requests (hist (sd s i)))) -> In (EReturn c x) (hist (sd s i)) ->
  exists q j k args res err, In (ENew c q) (hist (sd s i)) /\ carries (carried j) (q_slot q) true /\
    served carried link s i j k (mkReq (q_index q) (q_slot q) (q_method q) args (q_withres q)) /\ runs k (hist (sd s j)) = [(res, err)] /\
    r_err x = error_seen err /\
    (forall ws, CallSpec.carried ws (q_args q) -> Forall2 CodecSpec.same_value (q_args q) args) /\
    (forall ws, CallSpec.carried ws (if q_withres q then res else []) -> Forall2 CodecSpec.same_value (if q_withres q then res else []) (r_result x)).
Proof. exact returned_values. Qed.
Print Assumptions C52_returned_values.
(* what [through] says is what marshalling, framing, any cutting of the byte stream,
   reassembly and unmarshalling do *)
Theorem C52_request_transfer : forall ws ws' cut i s m args w, in_s 64 i -> str_ok s = true -> str_ok m = true -> CallSpec.whole cut ->
  CodecSpec.go_value ws (VArr ASliceIface args) = true -> CallSpec.short ws ws' (PRpcRequest i s m args w) ->
  match through args with
  | Some a => transfer ws ws' cut idRpcRequest (PRpcRequest i s m args w) = Arrived (PRpcRequest i s m a w)
  | None => transfer ws ws' cut idRpcRequest (PRpcRequest i s m args w) = SenderDown \/ transfer ws ws' cut idRpcRequest (PRpcRequest i s m args w) = ReceiverDown
  end.
Proof. exact request_through. Qed.
Print Assumptions C52_request_transfer.
Theorem C52_response_transfer : forall ws ws' cut i s m res e, in_s 64 i -> str_ok s = true -> str_ok m = true -> str_ok e = true -> CallSpec.whole cut ->
  CodecSpec.go_value ws (VArr ASliceIface res) = true -> CallSpec.short ws ws' (PRpcResponse i s m res e) ->
  match through res with
  | Some a => transfer ws ws' cut idRpcResponse (PRpcResponse i s m res e) = Arrived (PRpcResponse i s m a e)
  | None => transfer ws ws' cut idRpcResponse (PRpcResponse i s m res e) = SenderDown \/ transfer ws ws' cut idRpcResponse (PRpcResponse i s m res e) = ReceiverDown
  end.
Proof. exact response_through. Qed.
Print Assumptions C52_response_transfer.
(* the call of the examples returns 300, an int; it arrives as an int16 *)
Example C52_call_case : exists s, exec G_step (sinit G_carried) G_all = Some s /\ In (EReturn 0 (mkRet [VInt 0 I16 300%Z] None)) (hist (sd s 0)) /\
  map q_index (requests (hist (sd s 0))) = [7%Z] /\ runs 0 (hist (sd s 1)) = [([VInt 0 IInt 300%Z], None)] /\
  served G_carried G_link s 0 1 0 (mkReq 7 gF gm [VInt 0 I8 5%Z; VStr 0 [104; 105]%Z] true).
Proof. eexists. split; [vm_compute; reflexivity|]. split; [vm_compute; intuition|]. split; [reflexivity|]. split; [reflexivity|]. exists 1, 1. split; reflexivity. Qed.

(* Calls made in the same nanosecond share an identifier; then a call may return without
   having run anywhere, with the result of another. *)
Definition G_mix : list (slab gval) :=
  G_boot ++ G_call gm 7 ++ G_ask ++ G_meet ++ removelast G_answer ++ G_call gn 7 ++ [SDeliver 0 1] ++ on 0 [BStep 0; CStep 1 true; CStep 1 true; CStep 1 true; CStep 1 true].
Theorem C52_shared_identifier_refuted : ~ forall V carried link hublink (carry : nat -> nat -> list V -> option (list V)) black raddr hostport,
  wired link hublink -> forall ls s i c x, exec (sstep link hublink carry black raddr hostport) (sinit carried) ls = Some s ->
  In (EReturn c x) (hist (sd s i)) -> exists q j k, In (ENew c q) (hist (sd s i)) /\ executed carried link carry s i q j k x.
Proof.
  intros H. concrete G_step (@sinit gval G_carried) G_mix s E. unfold G_step in E.
  destruct (H _ _ _ _ _ _ _ _ G_wired _ _ 0 1 (mkRet [VInt 0 I16 300%Z] None) E) as (q & j & k & Nq & _ & args & res & err & _ & (p & r & Lk & Acc) & _);
    vm_compute in E; injection E as <-; [vm_compute; intuition|].
  assert (q = mkReq 7 gF gn G_args true) as ->
    by (vm_compute in Nq; repeat (destruct Nq as [Nq|Nq]; [first [discriminate Nq|injection Nq as <-; reflexivity]|]); destruct Nq).
  destruct j as [|[|j]]; [destruct p as [|[|p]]; discriminate| |destruct p as [|[|p]]; discriminate].
  vm_compute in Acc. destruct k as [|k]; [discriminate|destruct k; discriminate].
Qed.
Print Assumptions C52_shared_identifier_refuted.

(* Requests that get through are answered: nothing lost, nothing closed, nothing left to
   do for the serving goroutines of j and for the call and the callbacks of i. *)
Theorem C52_committed_calls_return : forall V carried link hublink (carry : nat -> nat -> list V -> option (list V)) black raddr hostport,
  wired link hublink -> forall ls s i c p j p', exec (sstep link hublink carry black raddr hostport) (sinit carried) ls = Some s -> lossless ls ->
  (forall l, carry i j l <> None) -> (forall l, carry j i l <> None) -> NoDup (map q_index (requests (hist (sd s i)))) ->
  In (ECommit c p true) (hist (sd s i)) -> link i p = ToDock j p' -> ~ cleared (hist (sd s j)) ->
  state (sd s i) = Alive -> state (sd s j) = Alive -> wire s j p' = [] -> wire s i p = [] ->
  (forall k res err, dstep (sd s j) (SExec k res err) = None) -> (forall k acc, dstep (sd s j) (SSend k acc) = None) ->
  (forall b, dstep (sd s i) (BStep b) = None) -> (forall acc, dstep (sd s i) (CStep c acc) = None) ->
  (forall q k, ~ In (ESend q k false) (hist (sd s j))) -> returns c (hist (sd s i)) <> [].
Proof. exact @committed_returns. Qed.
Print Assumptions C52_committed_calls_return.
Example C52_committed_case : exists s, exec (sstep G_link G_hublink (fun _ _ => Some) [] G_raddr G_hostport) (sinit G_carried) G_all = Some s /\ lossless G_all /\
  In (ECommit 0 1 true) (hist (sd s 0)) /\ ~ cleared (hist (sd s 1)) /\ state (sd s 0) = Alive /\ state (sd s 1) = Alive /\ wire s 1 1 = [] /\ wire s 0 1 = [] /\
  (forall k res err, dstep (sd s 1) (SExec k res err) = None) /\ (forall k acc, dstep (sd s 1) (SSend k acc) = None) /\
  (forall b, dstep (sd s 0) (BStep b) = None) /\ (forall acc, dstep (sd s 0) (CStep 0 acc) = None) /\ (forall q k, ~ In (ESend q k false) (hist (sd s 1))).
Proof.
  eexists. split; [vm_compute; reflexivity|]. split; [intros l; vm_compute; intuition; subst; auto|]. split; [vm_compute; intuition|].
  split; [vm_compute; intuition discriminate|]. do 4 (split; [reflexivity|]). split; [intros [|[|k]]; reflexivity|]. split; [intros [|[|k]]; reflexivity|].
  split; [intros [|[|k]]; reflexivity|]. split; [reflexivity|]. vm_compute. intuition discriminate.
Qed.

(* Between docks packets arrive in order, none twice, none invented; *)
Theorem C52_in_order : forall V carried link hublink (carry : nat -> nat -> list V -> option (list V)) black raddr hostport,
  wired link hublink -> forall ls s i p j q, exec (sstep link hublink carry black raddr hostport) (sinit carried) ls = Some s -> link i p = ToDock j q ->
  exists got, Forall2 (arrives (carry j i)) got (got_on p (hist (sd s i)) ++ wire s i p) /\ subseq got (sent_on q (hist (sd s j))).
Proof. exact @in_order. Qed.
Print Assumptions C52_in_order.
(* and all of them, if the wires lose none *)
Theorem C52_nothing_lost : forall V carried link hublink (carry : nat -> nat -> list V -> option (list V)) black raddr hostport,
  wired link hublink -> forall ls s i p j q, exec (sstep link hublink carry black raddr hostport) (sinit carried) ls = Some s -> lossless ls -> link i p = ToDock j q ->
  (forall l, carry j i l <> None) -> Forall2 (arrives (carry j i)) (sent_on q (hist (sd s j))) (got_on p (hist (sd s i)) ++ wire s i p).
Proof. exact @complete. Qed.
Print Assumptions C52_nothing_lost.
(* registrations and ready packets reach the hub in order; all of them, if none are lost *)
Theorem C52_hub_in_order : forall V carried link hublink (carry : nat -> nat -> list V -> option (list V)) black raddr hostport,
  wired link hublink -> forall ls s h i p, exec (sstep link hublink carry black raddr hostport) (sinit carried) ls = Some s -> hublink h = Some (i, p) ->
  let arrived := filter announcement (hub_got h (HubModel.hist (sh s)) ++ hwire s h) in
  let sent := filter announcement (map to_hub (sent_on p (hist (sd s i)))) in
  subseq arrived sent /\ (lossless ls -> arrived = sent).
Proof. exact @hub_order. Qed.
Print Assumptions C52_hub_in_order.
(* a packet on its way can be delivered to a dock that is up and not busy with that peer *)
Theorem C52_deliverable : forall V link hublink (carry : nat -> nat -> list V -> option (list V)) black raddr hostport (s : sys V) i p k q,
  wire s i p = k :: q -> state (sd s i) = Alive -> handlers (sd s i) p = HIdle ->
  exists s', sstep link hublink carry black raddr hostport s (SDeliver i p) = Some s' /\ got_on p (hist (sd s' i)) = got_on p (hist (sd s i)) ++ [k].
Proof. exact @deliverable. Qed.
Print Assumptions C52_deliverable.
(* the hub has heard dock 1 and its answer is on the way to dock 0 *)
Example C52_order_case : exists s, exec G_step (sinit G_carried) (G_boot ++ G_call gm 7 ++ G_ask) = Some s /\
  wire s 0 0 = [KAddress [66; 58; 20001]%Z] /\ state (sd s 0) = Alive /\ handlers (sd s 0) 0 = HIdle /\
  filter announcement (hub_got 1 (HubModel.hist (sh s))) = [HubModel.PRegister [gF]; HubModel.PReady [gF]].
Proof. eexists. split; [vm_compute; reflexivity|]. repeat split; reflexivity. Qed.
(* the response delivered, or lost *)
Example C52_lost_case : exists s, exec G_step (sinit G_carried) (G_run gm ++ [SLose 0 1 0]) = Some s /\ exists s1, exec G_step (sinit G_carried) (removelast (G_run gm) ++ [SLose 0 1 0]) = Some s1 /\
  got_on 1 (hist (sd s 0)) = got_on 1 (hist (sd s1 0)) ++ [KResponse (mkResp 7 gF gm [VInt 0 I16 300%Z] [])] /\ wire s1 0 1 = [].
Proof. eexists. split; [vm_compute; reflexivity|]. eexists. split; [vm_compute; reflexivity|]. split; reflexivity. Qed.

(* -- C64: discovery *)
(* An address given to dock i answers its own query and is that of a dock which carries the
   feature as discoverable, registered it with the hub over another connection, and
   listens on the port it was told; that port is the one in the address when the dock
   registered once on that connection. *)
Theorem C64_discovered_dock : forall V carried link hublink (carry : nat -> nat -> list V -> option (list V)) black raddr hostport,
  wired link hublink -> forall ls s i p a, exec (sstep link hublink carry black raddr hostport) (sinit carried) ls = Some s ->
  In (ERecv p (KAddress a)) (hist (sd s i)) ->
  exists h f k j p' h' port n,
    link i p = ToHub h /\ In (EQuery k f) (hist (sd s i)) /\
    link j p' = ToHub h' /\ carries (carried j) f true /\ a = hostport (HubModel.pickIP (raddr h')) port /\
    In (ERecv p' (KRegistered n)) (hist (sd s j)) /\ In (ESocket (SListen n)) (hist (sd s j)) /\
    (length (registers p' (hist (sd s j))) <= 1 -> n = port).
Proof. exact @discovery. Qed.
Print Assumptions C64_discovered_dock.
Example C64_case : exists s, exec G_step (sinit G_carried) G_all = Some s /\ In (ERecv 0 (KAddress [66; 58; 20001]%Z)) (hist (sd s 0)) /\
  In (ESocket (SListen 20001)) (hist (sd s 1)) /\ length (registers 0 (hist (sd s 1))) = 1.
Proof. eexists. split; [vm_compute; reflexivity|]. vm_compute. intuition. Qed.
