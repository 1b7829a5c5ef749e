(* A whole system down to the bytes: one hub and docks as in SysModel.v, each connection with
   the send queues, send routines, byte streams and receive routines of its two peers
   (network/peer.go) and the serializer "ferry" (serializer.go) between them.
   Simplifications: which peer is connected to which is a parameter as in SysModel.v; Send is
   one step (its check and its channel send apart: C24, C65); TCP hands over bytes in order,
   unchanged, in pieces of any size; a send or receive routine may end at any time (an error,
   a close); one process per dock.  A message without a case in the handler (dock.go:75-196)
   leaves a dock as it is. *)
From Verif Require Import Lts GoInt GoVal Tables ProtoModel ProtoSpec DockModel SysModel.
From Verif Require HubModel PeerSendModel ConnModel.
From Coq Require Import Arith Bool List ZArith.
Import ListNotations.
Open Scope nat_scope.

(* A *peer of a dock or of the hub (network/peer.go:31-40). *)
(* peer p of dock i, peer h of the hub *)
Inductive endp := DockEnd (i p : nat) | HubEnd (h : nat).
(* The same *peer (network/peer.go:31-40). *)
Definition end_eqb (a b : endp) : bool :=
  match a, b with DockEnd i p, DockEnd j q => (i =? j) && (p =? q) | HubEnd h, HubEnd g => h =? g | _, _ => false end.
(* A field of one *peer is set (network/peer.go:31-40). *)
Definition upde {A} (f : endp -> A) (e : endp) (x : A) : endp -> A := fun a => if end_eqb a e then x else f a.
(* The program the *peer is in: hub.run (hub.go:134-143) or dock.run (dock.go:199-205) made its
   socket. *)
(* whose process: a dock's or the hub's *)
Definition proc (e : endp) : option nat := match e with DockEnd i _ => Some i | HubEnd _ => None end.
(* A field of one program (hub.go:30-37, dock.go:34-41) is set. *)
Definition updo {A} (f : option nat -> A) (o : option nat) (x : A) : option nat -> A :=
  fun a => match a, o with Some i, Some j => if i =? j then x else f a | None, None => x | _, _ => f a end.

(* the message structs for the packets of DockModel.v and back (protocol.go) *)
Definition proto_of (k : packet gval) : proto :=
  match k with
  | KError => PError [] | KReady sl => PReady sl | KRegister sl => PRegisterRequest sl | KRegistered port => PRegisterResponse port
  | KQuery f => PQueryRequest f | KAddress a => PQueryResponse a
  | KRequest q => PRpcRequest (q_index q) (q_slot q) (q_method q) (q_args q) (q_withres q)
  | KResponse r => PRpcResponse (p_index r) (p_slot r) (p_method r) (p_result r) (p_err r)
  end.
(* dock.go:75-196; None: no case *)
Definition dock_packet (p : proto) : option (packet gval) :=
  match p with
  | PReady sl => Some (KReady sl) | PRegisterRequest sl => Some (KRegister sl) | PRegisterResponse port => Some (KRegistered port)
  | PQueryResponse a => Some (KAddress a)
  | PRpcRequest i s m a w => Some (KRequest (mkReq i s m a w))
  | PRpcResponse i s m r e => Some (KResponse (mkResp i s m r e))
  | PError _ | PHeartbeat | PQueryRequest _ => None
  end.
(* hub.go:61-131 *)
Definition hub_packet (p : proto) : HubModel.packet :=
  match p with
  | PRegisterRequest sl => HubModel.PRegister sl | PReady sl => HubModel.PReady sl | PQueryRequest f => HubModel.PQuery f
  | _ => HubModel.POther
  end.

(* The sending half of a peer: p.sendPackets, the message the send routine has taken,
   whether the routine has ended, and the bytes written but not read yet. *)
Record half := mkHalf { queue : list proto; holding : option proto; ended : bool; flight : bytes }.
(* network/peer.go:39, 80-100 *)
(* The receiving half: p.recvBuffer, and whether the receive routine goes on. *)
Record inbox := mkInbox { buffer : bytes; reading : bool }.
(* dock.go:34-41, hub.go:22-37, network/peer.go:31-40 of all programs *)
(* [gone]: the process has been ended by Marshal or Unmarshal.  Ghost: [handed], what Send was
   given with room in the queue; [dropped]: some query or some packet of the hub found none. *)
Record bsys := mkB {
  bd : nat -> dock gval; bh : HubModel.hub; gone : option nat -> bool;
  out : endp -> half; inb : endp -> inbox; handed : list (endp * proto); dropped : bool }.
(* newDock, dock.go:17-32; the hub, hub.go:22-37; newPeer, network/peer.go:18-29 *)
Definition binit (carried : nat -> list (name * bool)) : bsys :=
  mkB (fun i => new_dock (carried i)) HubModel.new_hub (fun _ => false) (fun _ => mkHalf [] None false []) (fun _ => mkInbox [] true) [] false.

(* Field updates of [bsys]: the sending half of a peer (network/peer.go:37), the receiving half
   (peer.go:39), a dock (dock.go:34-41), the hub (hub.go:22-37); log.Fatal or a panic in the
   serializer (serializer.go). *)
Definition with_out e o b := mkB (bd b) (bh b) (gone b) (upde (out b) e o) (inb b) (handed b) (dropped b).
Definition with_inb e x b := mkB (bd b) (bh b) (gone b) (out b) (upde (inb b) e x) (handed b) (dropped b).
Definition with_dock i d b := mkB (updp (bd b) i d) (bh b) (gone b) (out b) (inb b) (handed b) (dropped b).
Definition with_hub h b := mkB (bd b) h (gone b) (out b) (inb b) (handed b) (dropped b).
Definition lose_process o b := mkB (bd b) (bh b) (updo (gone b) o true) (out b) (inb b) (handed b) (dropped b).

(* len(p.sendPackets) == cap(p.sendPackets), network/peer.go:55 *)
Definition room (e : endp) (b : bsys) : bool := length (queue (out b e)) <? PeerSendModel.cSendChanSize.
(* network/peer.go:52-60 *)
Definition push (e : endp) (p : proto) (b : bsys) : bsys :=
  let o := out b e in
  mkB (bd b) (bh b) (gone b) (upde (out b) e (mkHalf (queue o ++ [p]) (holding o) (ended o) (flight o))) (inb b) (handed b ++ [(e, p)]) (dropped b).
(* network/peer.go:54-60 *)
Definition send (e : endp) (p : proto) (b : bsys) : bsys :=
  if room e b then push e p b else mkB (bd b) (bh b) (gone b) (out b) (inb b) (handed b) true.

Section Bytes.
Variable link : nat -> nat -> wend.
Variable hublink : nat -> option (nat * nat).
Variables (black : list Z) (raddr : nat -> name).
Variable hostport : name -> Z -> name.
Variable ws : option nat -> wsize.   (* the word size of each process *)

(* the other end *)
Definition other (e : endp) : option endp :=
  match e with
  | DockEnd i p => match link i p with ToDock j q => Some (DockEnd j q) | ToHub h => Some (HubEnd h) | Nowhere => None end
  | HubEnd h => match hublink h with Some (i, p) => Some (DockEnd i p) | None => None end
  end.

(* What the new events of dock i hand to Send; a packet is accepted exactly if there is room.
   A query goes to the peers ps of the hub's socket (network/socket.go:96-100). *)
Definition dock_event (i : nat) (ps : list nat) (b : option bsys) (e : event gval) : option bsys :=
  match b with
  | Some b =>
      match e with
      | ESend p k true => if room (DockEnd i p) b then Some (push (DockEnd i p) (proto_of k) b) else None
      | ESend p k false => if room (DockEnd i p) b then None else Some b
      | EQuery _ f => Some (fold_left (fun b p => send (DockEnd i p) (PQueryRequest f) b) ps b)
      | _ => Some b
      end
  | None => None
  end.
(* A step of dock.go or rpc.go (dstep of DockModel.v), and network/peer.go:54-60 for what it
   sends. *)
Definition dock_does (i : nat) (l : label gval) (ps : list nat) (b : bsys) : option bsys :=
  match dstep (bd b i) l with
  | Some d => fold_left (dock_event i ps) (new_events (hist (bd b i)) (hist d)) (Some (with_dock i d b))
  | None => None
  end.
(* network/peer.go:54-60 for what the hub sends *)
Definition hub_event (b : bsys) (e : HubModel.event) : bsys :=
  match e with
  | HubModel.EReply h port => send (HubEnd h) (PRegisterResponse port) b                                (* hub.go:83-89 *)
  | HubModel.EAnswer _ h _ _ host port => send (HubEnd h) (PQueryResponse (hostport host port)) b       (* hub.go:172-179 *)
  | _ => b
  end.
(* A step of hub.go (hstep of HubModel.v), and what it sends. *)
Definition hub_does (l : HubModel.label) (b : bsys) : option bsys :=
  match HubModel.hstep black raddr (bh b) l with
  | Some h => Some (fold_left hub_event (new_events (HubModel.hist (bh b)) (HubModel.hist h)) (with_hub h b))
  | None => None
  end.

(* the receive routine is not inside OnPacket *)
Definition free (e : endp) (b : bsys) : bool :=
  match e with
  | DockEnd i p => match handlers (bd b i) p with HIdle => true | _ => false end
  | HubEnd h => match HubModel.handlers (bh b) h with HubModel.HIdle => true | _ => false end
  end.

(* The steps: of dock.go and hub.go; of the send routine, network/peer.go:64-76; of the receive
   routine, network/peer.go:79-100. *)
Inductive blab :=
| BDock (i : nat) (l : label gval) (ps : list nat) | BHub (l : HubModel.label)  (* a step that is not a receive *)
| BPop (e : endp) | BWrite (e : endp) | BFail (e : endp) (n : nat) | BEnd (e : endp)  (* the send routine *)
| BRead (e : endp) (n : nat) | BTake (e : endp) | BStop (e : endp).                   (* the receive routine *)

(* data := p.serializer.Marshal(packet), network/peer.go:71; serializer.go *)
Definition marshalled (e : endp) (b : bsys) (k : bytes -> option bsys) : option bsys :=
  match holding (out b e) with
  | Some p => match marshal (ws (proc e)) (pack p) with SOk f => k f | _ => Some (lose_process (proc e) b) end
  | None => None
  end.

Definition bstep (b : bsys) (l : blab) : option bsys :=
  match l with
  | BDock i (LRecv _ _) _ => None
  | BDock i l ps => if gone b (Some i) then None else dock_does i l ps b
  | BHub (HubModel.LRecv _ _) => None
  | BHub l => if gone b None then None else hub_does l b
  | BPop e => (* peer.go:66-69 *)
      let o := out b e in
      if gone b (proc e) || ended o then None else
      match holding o, queue o with None, p :: q => Some (with_out e (mkHalf q (Some p) false (flight o)) b) | _, _ => None end
  | BWrite e => (* peer.go:71-72 *)
      let o := out b e in
      if gone b (proc e) then None else
      marshalled e b (fun f => Some (with_out e (mkHalf (queue o) None (ended o) (flight o ++ f)) b))
  | BFail e n => (* peer.go:72-75, after n bytes *)
      let o := out b e in
      if gone b (proc e) then None else
      marshalled e b (fun f => Some (with_out e (mkHalf (queue o) None true (flight o ++ firstn n f)) b))
  | BEnd e => (* peer.go:67-69 *)
      let o := out b e in
      match holding o with None => Some (with_out e (mkHalf (queue o) None true (flight o)) b) | Some _ => None end
  | BRead e n => (* peer.go:81-87; back from the inner loop *)
      match other e with
      | Some e' =>
          let o := out b e' in let x := inb b e in
          if gone b (proc e) || negb (reading x) || negb (free e b) || (0 <? slice (ws (proc e)) (buffer x))%Z ||
             (ConnModel.cRecvBytesSize <? Z.of_nat n)%Z || (length (flight o) <? n) then None
          else Some (with_inb e (mkInbox (buffer x ++ firstn n (flight o)) true)
                    (with_out e' (mkHalf (queue o) (holding o) (ended o) (skipn n (flight o))) b))
      | None => None
      end
  | BTake e => (* peer.go:88-98 *)
      let x := inb b e in let n := slice (ws (proc e)) (buffer x) in
      if gone b (proc e) || negb (reading x) || negb (free e b) || (n <=? 0)%Z then None else
      match unmarshal (ws (proc e)) (firstn (Z.to_nat n) (buffer x)) with
      | SOk m =>
          let b1 := with_inb e (mkInbox (skipn (Z.to_nat n) (buffer x)) true) b in
          match e with
          | DockEnd i p => match dock_packet (p_p m) with Some k => dock_does i (LRecv p k) [] b1 | None => Some b1 end
          | HubEnd h => hub_does (HubModel.LRecv h (hub_packet (p_p m))) b1
          end
      | _ => Some (lose_process (proc e) b)
      end
  | BStop e => (* peer.go:82-84 *) Some (with_inb e (mkInbox (buffer (inb b e)) false) b)
  end.
End Bytes.
