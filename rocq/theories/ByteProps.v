(* Property theorems C72: a hub and docks, down to the bytes. *)
From Verif Require Import Lts GoInt GoVal Tables CodecSpec ProtoModel ProtoSpec SysCodec DockModel DockSpec SysModel SysSpec SysProps ByteModel ByteSpec ByteProof3 ByteProof4.
From Verif Require HubModel.
From Coq Require Import Arith Bool List ZArith Lia.
Import ListNotations.
Open Scope nat_scope.

(* -- the system of the examples of C52: dock 0 on a 32-bit platform, dock 1 and the hub on
   64-bit ones *)
Definition B_ws (o : option nat) : wsize := match o with Some 0 => W32 | _ => W64 end.
Definition B_hostport (host : name) (port : Z) : name := host ++ [58; 48 + (port mod 10)]%Z.
Definition B_step := bstep G_link G_hublink [] G_raddr B_hostport B_ws.
(* the same steps, each packet sent as bytes: popped, written, read in two pieces, taken *)
Definition B_bytes (e' e : endp) (b : bsys) : list blab :=
  let n := match queue (out b e') with p :: _ => match marshal (B_ws (proc e')) (pack p) with SOk f => length f | _ => 0 end | [] => 0 end in
  [BPop e'; BWrite e'; BRead e 5; BRead e (n - 5); BTake e].
Definition B_lower (b : bsys) (l : slab gval) : list blab :=
  match l with
  | SDock i l ps => [BDock i l ps] | SHub l => [BHub l]
  | SDeliver i p => match other G_link G_hublink (DockEnd i p) with Some e' => B_bytes e' (DockEnd i p) b | None => [] end
  | SHubDeliver h => match other G_link G_hublink (HubEnd h) with Some e' => B_bytes e' (HubEnd h) b | None => [] end
  | _ => []
  end.
Fixpoint B_run (b : bsys) (ls : list (slab gval)) : list blab :=
  match ls with
  | [] => []
  | l :: ls => B_lower b l ++ match exec B_step b (B_lower b l) with Some b' => B_run b' ls | None => [] end
  end.
Definition B_all : list blab := Eval vm_compute in B_run (binit G_carried) G_all.
Ltac B_observe E obs H :=
  match type of E with exec ?st ?i ?ls = Some ?s =>
    let v := eval vm_compute in (option_map obs (exec st i ls)) in
    match v with Some ?x => assert (H : obs s = x) by (apply (f_equal (fun o => match o with Some y => y | None => x end) (x := Some (obs s)) (y := Some x)); transitivity (option_map obs (exec st i ls)); [rewrite E; reflexivity|vm_compute; reflexivity]); cbv beta in H end
  end.
Lemma B_runs ls : match exec B_step (binit G_carried) ls with Some _ => true | None => false end = true -> exists b, exec B_step (binit G_carried) ls = Some b.
Proof. destruct (exec B_step (binit G_carried) ls); [eauto|discriminate]. Qed.
Definition B_legit (b : bsys) : bool := forallb (legit_check G_link G_hublink B_ws) (handed b).
Definition B_still (b : bsys) : bool :=
  forallb (fun e => match queue (out b e), holding (out b e), flight (out b e) with
    | [], None, [] => negb (ended (out b e)) && (slice (B_ws (proc e)) (buffer (inb b e)) <=? 0)%Z | _, _, _ => false end)
    [DockEnd 0 0; DockEnd 0 1; DockEnd 1 0; DockEnd 1 1; HubEnd 0; HubEnd 1].
Lemma B_quiet b : B_still b = true -> quiet (other G_link G_hublink) B_ws b.
Proof.
  intros H e e' O. unfold B_still in H. rewrite forallb_forall in H.
  assert (I : In e [DockEnd 0 0; DockEnd 0 1; DockEnd 1 0; DockEnd 1 1; HubEnd 0; HubEnd 1]).
  { destruct e as [[|[|i]] [|[|p]]|[|[|h]]]; cbn in O; try discriminate O; cbn; tauto. }
  specialize (H e I). cbv beta in H. destruct (queue (out b e)), (holding (out b e)), (flight (out b e)); try discriminate.
  apply andb_true_iff in H as [A B]. apply negb_true_iff in A. apply Z.leb_le in B. auto.
Qed.

Lemma B_ran : exists b, exec B_step (binit G_carried) B_all = Some b.
Proof. apply B_runs. vm_compute. reflexivity. Qed.

(* Whatever docks and hub do when their packets travel as bytes, cut anywhere, with queues,
   write errors, closed streams and processes ended by the serializer, they do in the model
   of packets; no packet is lost there unless a query or a packet of the hub found a full
   queue; and when nothing is under way on the connections, no packet is under way. *)
Theorem C72_bytes_to_packets : forall carried link hublink black raddr hostport ws, wired link hublink ->
  forall ls b, exec (bstep link hublink black raddr hostport ws) (binit carried) ls = Some b -> Forall (legitimate (other link hublink) ws) (handed b) ->
  exists ls' s, exec (sstep link hublink (fun _ _ => through) black raddr hostport) (sinit carried) ls' = Some s /\
    (forall i, sd s i = bd b i) /\ sh s = bh b /\ (dropped b = false -> lossless ls') /\
    (dropped b = false -> quiet (other link hublink) ws b ->
     (forall i p, link i p <> Nowhere -> SysModel.wire s i p = []) /\ (forall h, hublink h <> None -> hwire s h = [])).
Proof. exact bytes_to_packets. Qed.
Print Assumptions C72_bytes_to_packets.
(* the call of C52, sent as bytes, each frame read in two pieces *)
Example C72_bytes_case : exists b, exec B_step (binit G_carried) B_all = Some b /\ Forall (legitimate (other G_link G_hublink) B_ws) (handed b) /\ length (handed b) = 11 /\
  dropped b = false /\ quiet (other G_link G_hublink) B_ws b.
Proof.
  destruct B_ran as [b E]. exists b. split; [exact E|].
  B_observe E B_legit L. B_observe E B_still Q. B_observe E (fun b => (length (handed b), dropped b)) H. injection H as H1 H2.
  split; [now apply (legit_checked _ _ _ G_wired)|]. split; [exact H1|]. split; [exact H2|]. now apply B_quiet.
Qed.

(* Down to the bytes: a remote call returns only if its method ran exactly once, on a dock
   that carries the feature, with the caller's arguments as the codec carries them. *)
Theorem C72_returned_call_ran_once : forall carried link hublink black raddr hostport ws, wired link hublink ->
  forall ls b i c x, exec (bstep link hublink black raddr hostport ws) (binit carried) ls = Some b -> Forall (legitimate (other link hublink) ws) (handed b) ->
  NoDup (map q_index (requests (hist (bd b i)))) -> In (EReturn c x) (hist (bd b i)) ->
  exists q j k, In (ENew c q) (hist (bd b i)) /\ executed carried link (fun _ _ => through) (parts b) i q j k x /\
    forall j' k' q', served carried link (parts b) i j' k' q' -> q_index q' = q_index q -> j' = j /\ k' = k.
Proof. exact bytes_returned. Qed.
Print Assumptions C72_returned_call_ran_once.
Example C72_returned_case : exists b, exec B_step (binit G_carried) B_all = Some b /\ Forall (legitimate (other G_link G_hublink) B_ws) (handed b) /\
  map q_index (requests (hist (bd b 0))) = [7%Z] /\ In (EReturn 0 (mkRet [VInt 0 I16 300%Z] None)) (hist (bd b 0)) /\ runs 0 (hist (bd b 1)) = [([VInt 0 IInt 300%Z], None)].
Proof.
  destruct B_ran as [b E]. exists b. split; [exact E|].
  B_observe E B_legit L. B_observe E (fun b => (map q_index (requests (hist (bd b 0))), hist (bd b 0), runs 0 (hist (bd b 1)))) H. injection H as H1 H2 H3.
  split; [now apply (legit_checked _ _ _ G_wired)|]. split; [exact H1|]. split; [|exact H3]. rewrite H2. repeat (try (left; reflexivity); right).
Qed.

(* A call whose request has been put into a send queue returns, once nothing is under way on
   the connections and neither dock can go on with it. *)
Theorem C72_committed_calls_return : forall carried link hublink black raddr hostport ws, wired link hublink ->
  forall ls b i c p j p', exec (bstep link hublink black raddr hostport ws) (binit carried) ls = Some b -> Forall (legitimate (other link hublink) ws) (handed b) ->
  dropped b = false -> quiet (other link hublink) ws b ->
  NoDup (map q_index (requests (hist (bd b i)))) -> In (ECommit c p true) (hist (bd b i)) -> link i p = ToDock j p' -> ~ cleared (hist (bd b j)) ->
  state (bd b i) = Alive -> state (bd b j) = Alive ->
  (forall k res err, dstep (bd b j) (SExec k res err) = None) -> (forall k acc, dstep (bd b j) (SSend k acc) = None) ->
  (forall n, dstep (bd b i) (BStep n) = None) -> (forall acc, dstep (bd b i) (CStep c acc) = None) ->
  (forall q k, ~ In (ESend q k false) (hist (bd b j))) -> returns c (hist (bd b i)) <> [].
Proof. exact bytes_committed. Qed.
Print Assumptions C72_committed_calls_return.
Example C72_committed_case : exists b, exec B_step (binit G_carried) B_all = Some b /\ Forall (legitimate (other G_link G_hublink) B_ws) (handed b) /\
  dropped b = false /\ quiet (other G_link G_hublink) B_ws b /\ In (ECommit 0 1 true) (hist (bd b 0)) /\ ~ cleared (hist (bd b 1)) /\
  state (bd b 0) = Alive /\ state (bd b 1) = Alive /\
  (forall k res err, dstep (bd b 1) (SExec k res err) = None) /\ (forall k acc, dstep (bd b 1) (SSend k acc) = None) /\
  (forall n, dstep (bd b 0) (BStep n) = None) /\ (forall acc, dstep (bd b 0) (CStep 0 acc) = None) /\
  (forall q k, ~ In (ESend q k false) (hist (bd b 1))) /\ returns 0 (hist (bd b 0)) = [mkRet [VInt 0 I16 300%Z] None].
Proof.
  destruct B_ran as [b E]. exists b. split; [exact E|].
  B_observe E B_legit L. B_observe E B_still Q. B_observe E dropped D.
  B_observe E (fun b => hist (bd b 0)) H0. B_observe E (fun b => hist (bd b 1)) H1.
  B_observe E (fun b => state (bd b 0)) A0. B_observe E (fun b => state (bd b 1)) A1. B_observe E (fun b => servers (bd b 1)) S1.
  B_observe E (fun b => callbacks (bd b 0)) C0. B_observe E (fun b => calls (bd b 0)) K0.
  split; [now apply (legit_checked _ _ _ G_wired)|]. split; [exact D|]. split; [now apply B_quiet|]. rewrite H0, H1, A0, A1.
  split; [repeat (try (left; reflexivity); right)|]. split; [cbn; intuition discriminate|]. split; [reflexivity|]. split; [reflexivity|].
  unfold dstep. rewrite A0, A1, S1, C0, K0.
  split; [intros [|[|k]] res err; reflexivity|]. split; [intros [|[|k]] acc; reflexivity|]. split; [intros [|[|n]]; reflexivity|].
  split; [reflexivity|]. split; [cbn; intuition discriminate|reflexivity].
Qed.

(* While something is under way, a routine can go on: the connections never block each other. *)
Theorem C72_routines_go_on : forall link hublink black raddr hostport ws, wired link hublink -> forall b, ready (other link hublink) b ->
  (forall e e', other link hublink e = Some e' -> bstep link hublink black raddr hostport ws b (BPop e) = None /\ bstep link hublink black raddr hostport ws b (BWrite e) = None /\
     bstep link hublink black raddr hostport ws b (BTake e) = None /\ forall n, 0 < n -> bstep link hublink black raddr hostport ws b (BRead e n) = None) ->
  quiet (other link hublink) ws b.
Proof. exact bytes_move. Qed.
Print Assumptions C72_routines_go_on.
(* after the call, and after its request has been written but not read *)
Definition B_ready (b : bsys) : bool :=
  forallb (fun e => negb (gone b (proc e)) && negb (ended (out b e)) && reading (inb b e) && free e b) [DockEnd 0 0; DockEnd 0 1; DockEnd 1 0; DockEnd 1 1; HubEnd 0; HubEnd 1].
Lemma B_readies b : B_ready b = true -> state (bd b 0) = Alive -> state (bd b 1) = Alive -> HubModel.halted (bh b) = false -> ready (other G_link G_hublink) b.
Proof.
  intros H A0 A1 Ah e e' O. unfold B_ready in H. rewrite forallb_forall in H.
  assert (I : In e [DockEnd 0 0; DockEnd 0 1; DockEnd 1 0; DockEnd 1 1; HubEnd 0; HubEnd 1]).
  { destruct e as [[|[|i]] [|[|p]]|[|[|h]]]; cbn in O; try discriminate O; cbn; tauto. }
  specialize (H e I). cbv beta in H. apply andb_true_iff in H as [H F]. apply andb_true_iff in H as [H R]. apply andb_true_iff in H as [G N].
  apply negb_true_iff in G, N. split; [|auto]. destruct e as [[|[|i]] p|h]; cbn; auto. cbn in O. destruct i; discriminate.
Qed.
Lemma B_stuck b : B_still b = true -> forall e e', other G_link G_hublink e = Some e' ->
  B_step b (BPop e) = None /\ B_step b (BWrite e) = None /\ B_step b (BTake e) = None /\ forall n, 0 < n -> B_step b (BRead e n) = None.
Proof.
  intros Q e e' O. destruct (B_quiet _ Q e e' O) as (Qe & Hn & _ & _ & Sl). destruct (B_quiet _ Q e' e) as (_ & _ & _ & Fl & _).
  { clear - O. destruct e as [[|[|i]] [|[|p]]|[|[|h]]]; cbn in O; try discriminate O; injection O as <-; reflexivity. }
  unfold B_step. cbn [bstep]. unfold marshalled. rewrite O, Qe, Hn, Fl. apply Z.leb_le in Sl. rewrite Sl, !orb_true_r. cbn [length].
  split; [destruct (_ || _); reflexivity|]. split; [destruct (gone _ _); reflexivity|]. split; [reflexivity|].
  intros n Hn'. destruct n; [lia|]. cbn [Nat.ltb Nat.leb]. rewrite !orb_true_r. reflexivity.
Qed.
Definition B_view (b : bsys) := (B_ready b, B_still b, state (bd b 0), state (bd b 1), HubModel.halted (bh b)).
Definition B_reads (b : bsys) : bool := match B_step b (BRead (DockEnd 1 1) 1) with Some _ => true | None => false end.
Lemma B_read_some b : B_reads b = true -> exists b', B_step b (BRead (DockEnd 1 1) 1) = Some b'.
Proof. unfold B_reads. destruct (B_step b _); [eauto|discriminate]. Qed.
Example C72_go_on_case :
  (exists b, exec B_step (binit G_carried) B_all = Some b /\ ready (other G_link G_hublink) b /\
    forall e e', other G_link G_hublink e = Some e' -> B_step b (BPop e) = None /\ B_step b (BWrite e) = None /\ B_step b (BTake e) = None /\ forall n, 0 < n -> B_step b (BRead e n) = None) /\
  exists b b', exec B_step (binit G_carried) (firstn 86 B_all) = Some b /\ ready (other G_link G_hublink) b /\ flight (out b (DockEnd 0 1)) <> [] /\ B_step b (BRead (DockEnd 1 1) 1) = Some b'.
Proof.
  split.
  - destruct B_ran as [b E]. exists b. split; [exact E|]. B_observe E B_view H. unfold B_view in H. injection H as R Q A0 A1 Ah. split; [exact (B_readies _ R A0 A1 Ah)|exact (B_stuck _ Q)].
  - assert (X : exists b, exec B_step (binit G_carried) (firstn 86 B_all) = Some b) by (apply B_runs; vm_compute; reflexivity). destruct X as [b E]. exists b.
    B_observe E B_view H. unfold B_view in H. injection H as R _ A0 A1 Ah.
    B_observe E (fun b => flight (out b (DockEnd 0 1))) Y1. B_observe E B_reads Y2. destruct (B_read_some _ Y2) as [b' Eb]. exists b'. split; [exact E|].
    split; [exact (B_readies _ R A0 A1 Ah)|]. split; [rewrite Y1; discriminate|exact Eb].
Qed.

(* A send queue holds at most 20 packets; a packet of a dock is refused only at a full one,
   and so is a query or a packet of the hub. *)
Theorem C72_queues : forall link hublink black raddr hostport ws carried ls b,
  exec (bstep link hublink black raddr hostport ws) (binit carried) ls = Some b ->
  (forall e, length (queue (out b e)) <= 20) /\
  forall l b', bstep link hublink black raddr hostport ws b l = Some b' ->
    (forall i es p k, hist (bd b' i) = hist (bd b i) ++ es -> In (ESend p k false) es -> length (queue (out b' (DockEnd i p))) = 20) /\
    (dropped b = false -> dropped b' = true -> exists e, length (queue (out b' e)) = 20).
Proof. exact queues_hold. Qed.
Print Assumptions C72_queues.
(* dock 0 announces itself 21 times on a connection whose send routine does nothing *)
Definition B_many : list blab := repeat (BDock 0 (LConnected 1) []) 21 ++ map (fun j => BDock 0 (LAnnounce j [] true) []) (seq 0 20).
Example C72_queues_case : exists b b', exec B_step (binit G_carried) B_many = Some b /\ length (queue (out b (DockEnd 0 1))) = 20 /\
  B_step b (BDock 0 (LAnnounce 20 [] true) []) = None /\ B_step b (BDock 0 (LAnnounce 20 [] false) []) = Some b' /\
  hist (bd b' 0) = hist (bd b 0) ++ [ESend 1 (KRegister []) false].
Proof. eexists. eexists. split; [vm_compute; reflexivity|]. repeat (split; [vm_compute; reflexivity|]). vm_compute. reflexivity. Qed.
