(* Model of the sink side of network/peer.go (receive routine against close) and of
   network/socket.go (accepting against closing). *)
From Verif Require Import Lts.
From Coq Require Import Arith Bool.

(* --- a peer's sink --- *)

(* Receive routine, peer.go:80-100: in conn.Read or slicing; has unmarshalled a
   packet; has seen a non-nil sink (peer.go:95) and is about to read it again for the
   call (peer.go:96); left the loop. *)
Inductive rpoint := RReading | RPacket | RChecked | REnded.
(* close, peer.go:103-115, after the lock: before Send(nil); before the sink check;
   OnClosed called, sink not yet cleared; before conn.Close. *)
Inductive cpoint := CMark | CSink | CNotified | CConn.

Record sinkst := mkSink {
  sink : bool;                       (* p.sink is not nil *)
  recv : rpoint;
  closing : option (nat * cpoint);   (* holder of p.Mutex *)
  on_packet : nat; on_closed : nat;  (* ghost: calls made on the sink *)
  closes : nat;                      (* ghost: completed closes *)
  panicked : bool }.                 (* nil interface method call: the process died *)

(* newPeer, peer.go:18-29 *)
Definition new_sink : sinkst := mkSink true RReading None 0 0 0 false.

(* The steps of peer.go:80-115. *)
Inductive slabel := LArrive | LCheckSink | LCallSink | LReadError
  | LLock (t : nat) | LMark (t : nat) | LNotify (t : nat) | LClear (t : nat) | LConn (t : nat).

(* Goroutine t is at point c of peer.go:103-115. *)
Definition at_close (s : sinkst) (t : nat) (c : cpoint) : bool :=
  match closing s with
  | Some (u, d) => (t =? u) && match c, d with CMark, CMark | CSink, CSink | CNotified, CNotified | CConn, CConn => true | _, _ => false end
  | None => false
  end.

Definition sstep (s : sinkst) (l : slabel) : option sinkst :=
  if panicked s then None else
  match l with
  | LArrive => (* peer.go:82-94 *)
      match recv s with
      | RReading => Some (mkSink (sink s) RPacket (closing s) (on_packet s) (on_closed s) (closes s) false)
      | _ => None
      end
  | LCheckSink => (* peer.go:95 *)
      match recv s with
      | RPacket => Some (mkSink (sink s) (if sink s then RChecked else RReading) (closing s) (on_packet s) (on_closed s) (closes s) false)
      | _ => None
      end
  | LCallSink => (* peer.go:96 *)
      match recv s with
      | RChecked =>
          if sink s then Some (mkSink true RReading (closing s) (S (on_packet s)) (on_closed s) (closes s) false)
          else Some (mkSink false RReading (closing s) (on_packet s) (on_closed s) (closes s) true)
      | _ => None
      end
  | LReadError => (* peer.go:83-85: the other side, or close, ended the connection *)
      match recv s with
      | RReading => Some (mkSink (sink s) REnded (closing s) (on_packet s) (on_closed s) (closes s) false)
      | _ => None
      end
  | LLock t => (* peer.go:104 *)
      match closing s with
      | None => Some (mkSink (sink s) (recv s) (Some (t, CMark)) (on_packet s) (on_closed s) (closes s) false)
      | Some _ => None
      end
  | LMark t => (* peer.go:107 *)
      if at_close s t CMark then Some (mkSink (sink s) (recv s) (Some (t, CSink)) (on_packet s) (on_closed s) (closes s) false) else None
  | LNotify t => (* peer.go:109-110 *)
      if at_close s t CSink then
        if sink s then Some (mkSink true (recv s) (Some (t, CNotified)) (on_packet s) (S (on_closed s)) (closes s) false)
        else Some (mkSink false (recv s) (Some (t, CConn)) (on_packet s) (on_closed s) (closes s) false)
      else None
  | LClear t => (* peer.go:111 *)
      if at_close s t CNotified then Some (mkSink false (recv s) (Some (t, CConn)) (on_packet s) (on_closed s) (closes s) false) else None
  | LConn t => (* peer.go:114, and the deferred unlock *)
      if at_close s t CConn then Some (mkSink (sink s) (recv s) None (on_packet s) (on_closed s) (S (closes s)) false) else None
  end.

(* --- a listening socket --- *)

(* socket.go:12-53, 84-100.  Peers are numbered in the order of Accept.  The accept
   goroutine is in Accept, holds a new connection, or has ended. *)
Inductive apoint := AAccept | AConn | AEnded.
(* Close: not called; listener closed, peers of the snapshot still to close; done *)
Inductive clpoint := KOpen | KClosing (todo : list nat) | KDone.

Record sock := mkSock {
  peers : list nat;          (* s.peers *)
  accepting : apoint;
  close_pc : clpoint;
  next : nat;                (* ghost: number of connections accepted so far *)
  running : list nat;        (* ghost: peers created and not closed *)
  sent : list (nat * nat) }. (* ghost: (peer, packet) passed to peer.Send *)

(* API.go:67-77, socket.go:12-19 *)
Definition new_sock : sock := mkSock [] AAccept KOpen 0 [] [].

(* The steps of socket.go:21-53, 84-100. *)
Inductive klabel := KAccept | KAppend | KAcceptError | KClose | KClosePeer | KCloseEnd | KSend (x : nat).

Definition kstep (s : sock) (l : klabel) : option sock :=
  match l with
  | KAccept => (* socket.go:37; a connection completed before the listener was closed may be returned after it *)
      match accepting s with AAccept => Some (mkSock (peers s) AConn (close_pc s) (next s) (running s) (sent s)) | _ => None end
  | KAppend => (* socket.go:43-50 *)
      match accepting s with
      | AConn => Some (mkSock (peers s ++ [next s]) AAccept (close_pc s) (S (next s)) (running s ++ [next s]) (sent s))
      | _ => None
      end
  | KAcceptError => (* socket.go:38-41, once the listener is closed *)
      match accepting s, close_pc s with
      | AAccept, KOpen => None
      | AAccept, _ => Some (mkSock (peers s) AEnded (close_pc s) (next s) (running s) (sent s))
      | _, _ => None
      end
  | KClose => (* socket.go:86-90: the range expression is evaluated once *)
      match close_pc s with KOpen => Some (mkSock (peers s) (accepting s) (KClosing (peers s)) (next s) (running s) (sent s)) | _ => None end
  | KClosePeer => (* socket.go:90-92 *)
      match close_pc s with
      | KClosing (p :: r) => Some (mkSock (peers s) (accepting s) (KClosing r) (next s) (filter (fun q => negb (q =? p)) (running s)) (sent s))
      | _ => None
      end
  | KCloseEnd => (* socket.go:93 *)
      match close_pc s with KClosing [] => Some (mkSock [] (accepting s) KDone (next s) (running s) (sent s)) | _ => None end
  | KSend x => (* socket.go:96-100 *)
      Some (mkSock (peers s) (accepting s) (close_pc s) (next s) (running s) (sent s ++ map (fun p => (p, x)) (peers s)))
  end.
