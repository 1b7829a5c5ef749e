(* One direction of a connection: the sending half of a peer (PeerSendModel.v), the bytes
   on their way, the receive routine of the other peer (PeerRecvModel.v); network/peer.go.
   Simplifications: TCP hands over bytes in order, unchanged, in pieces of any size, and
   may break at any time; the call of the sink is part of the read step. *)
From Verif Require Import Lts GoInt GoVal CodecModel ProtoModel PeerSendModel PeerRecvModel.
From Coq Require Import Arith.
Open Scope nat_scope.

(* peer.go:15, the receive buffer *)
Definition cRecvBytesSize : Z := 1024 * 10.

(* [reading]: the receive routine has not ended; [down]: Marshal took the sender's process
   down; [got]: what the receive routine has done. *)
Record conn := mkConn { sender : peer packer; down : bool; flight : bytes; reading : bool; got : received packer }.
(* two peers after run() *)
Definition new_conn : conn := mkConn new_peer false [] true (mkReceived [] [] false).

Inductive nlabel :=
| NCheck (t : nat) (x : option packer) | NPush (t : nat) | NClose  (* Send, and conn.Close, at the sender *)
| NPop | NWrite | NWriteFails (n : nat) (* an error after n bytes went out *)
| NRead (n : nat) | NReadError.

Section Conn.
Variables ws ws' : wsize. (* of the sender and of the receiver *)

Definition with_sender (p : option (peer packer)) (out : bytes) (s : conn) : option conn :=
  match p with Some x => Some (mkConn x (down s) (flight s ++ out) (reading s) (got s)) | None => None end.

(* peer.go:71, then k on the bytes *)
Definition marshalled (s : conn) (k : bytes -> option conn) : option conn :=
  match routine (sender s) with
  | WHolding p => match marshal ws p with SOk f => k f | _ => Some (mkConn (sender s) true (flight s) (reading s) (got s)) end
  | _ => None
  end.

Definition nstep (s : conn) (l : nlabel) : option conn :=
  match l with
  | NRead n => (* peer.go:80-99 *)
      if reading s && negb (crashed (got s)) && (Z.of_nat n <=? cRecvBytesSize)%Z && (n <=? length (flight s))
      then Some (mkConn (sender s) (down s) (skipn n (flight s)) true (recv_chunk (ferry_serializer ws') (firstn n (flight s)) (got s)))
      else None
  | NReadError => (* peer.go:81-83 *) Some (mkConn (sender s) (down s) (flight s) false (got s))
  | _ =>
      if down s then None else
      match l with
      | NCheck t x => with_sender (pstep (sender s) (LCheck t x)) [] s
      | NPush t => with_sender (pstep (sender s) (LPush t)) [] s
      | NClose => with_sender (pstep (sender s) LConnClose) [] s
      | NPop => with_sender (pstep (sender s) LPop) [] s
      | NWrite => marshalled s (fun f => with_sender (pstep (sender s) LWrite) f s)
      | NWriteFails n => marshalled s (fun f => with_sender (pstep (sender s) LWriteFails) (firstn n f) s)
      | _ => None
      end
  end.
End Conn.
