(* Model of the receive routine of network/peer.go, over any serializer. *)
From Verif Require Import GoInt GoVal CodecModel ProtoModel.

(* network/API.go:13-22, the two methods the receiver uses *)
Record serializer (P : Type) := mkSerializer { ser_slice : bytes -> Z; ser_unmarshal : bytes -> sres P }.
Arguments mkSerializer {P}. Arguments ser_slice {P}. Arguments ser_unmarshal {P}.

(* What a receive routine has done: packets handed to sink.OnPacket, bytes left in
   recvBuffer, and whether Unmarshal took the process down. *)
Record received (P : Type) := mkReceived { delivered : list P; buffered : bytes; crashed : bool }.
Arguments mkReceived {P}. Arguments delivered {P}. Arguments buffered {P}. Arguments crashed {P}.

Section Recv.
Context {P : Type} (s : serializer P).

(* peer.go:88-98, the inner loop; one unit of fuel per iteration, each of which
   removes at least one byte.  recvBuffer.Read fills slice completely because Slice
   never exceeds the buffer (proved where needed); the rest of slice would be zero. *)
Fixpoint drain (fuel : nat) (buf : bytes) : received P :=
  match fuel with
  | O => mkReceived [] buf false
  | S f =>
      let length := ser_slice s buf in
      if 0 <? length then
        let n := Z.to_nat length in
        let slice := firstn n buf ++ repeat 0 (n - List.length buf) in
        match ser_unmarshal s slice with
        | SOk p => let x := drain f (skipn n buf) in
                   mkReceived (p :: delivered x) (buffered x) (crashed x)
        | _ => mkReceived [] (skipn n buf) true
        end
      else mkReceived [] buf false
  end.

(* peer.go:82-99: one successful conn.Read delivering [chunk] *)
Definition recv_chunk (chunk : bytes) (st : received P) : received P :=
  if crashed st then st
  else
    let buf := buffered st ++ chunk in
    let x := drain (S (length buf)) buf in
    mkReceived (delivered st ++ delivered x) (buffered x) (crashed x).

(* the routine run on the results of successive reads *)
Definition recv_all (chunks : list bytes) : received P :=
  fold_left (fun st c => recv_chunk c st) chunks (mkReceived [] [] false).
End Recv.

(* serializer.go:21-25, as registered under the name "ferry" *)
Definition ferry_serializer (ws : wsize) : serializer packer :=
  mkSerializer (slice ws) (unmarshal ws).

(* network/txt_serializer.go:19-27 *)
Fixpoint txt_slice_from (i : Z) (source : bytes) : Z :=
  match source with
  | [] => 0
  | c :: r => if 0 =? c then i + 1 else txt_slice_from (i + 1) r
  end.
Definition txt_slice (source : bytes) : Z := txt_slice_from 0 source.
(* network/txt_serializer.go:15-17, 10-13 (a string is its bytes) *)
Definition txt_serializer : serializer bytes := mkSerializer txt_slice (fun data => SOk data).
Definition txt_marshal (s : bytes) : bytes := s.
