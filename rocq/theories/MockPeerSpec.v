(* C69: what the routines of two peers do on a connection of the mock network. *)
From Verif Require Import GoInt GoVal MockModel MockSpec ConnModel.

(* conn c is written by the send routine of a peer only (network/peer.go:71-76), these
   frames, and closed any number of times. *)
Definition peer_writes (c : nat) (h : list mev) (frames : list (list Z)) : Prop :=
  exists n, MockSpec.sent c h = map Some frames ++ repeat None n.
(* conn d is read by the receive routine of a peer only (network/peer.go:80-99) *)
Definition peer_reads (d : nat) (h : list mev) : Prop := forall n r, In (n, r) (reads d h) -> Z.of_nat n = cRecvBytesSize.
(* the bytes its Reads returned *)
Definition chunks (d : nat) (h : list mev) : list (list Z) :=
  flat_map (fun nr => match snd nr with Some r => [r] | None => [] end) (reads d h).
(* a frame that fits the receive buffer *)
Definition short (f : list Z) : Prop := (Z.of_nat (length f) <= cRecvBytesSize)%Z.
Definition total (fs : list (list Z)) : Z := Z.of_nat (length (concat fs)).
