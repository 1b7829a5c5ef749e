(* Vocabulary for the theorems about a connection. *)
From Verif Require Import Lts GoInt GoVal CodecModel ProtoModel ProtoSpec PeerSendModel PeerSendSpec PeerRecvModel ConnModel.

(* equal messages, lists of values up to wire types *)
Definition same_packet (a b : packer) : Prop := exists p q, a = pack p /\ b = pack q /\ same_proto p q.
(* every packet sent is a legitimate message of a frame not too long *)
Definition legitimate (ws ws' : wsize) (ls : list nlabel) : Prop :=
  forall t x, In (NCheck t (Some x)) ls -> exists p f, x = pack p /\ sent ws ws' p f.
(* the packets put into the send queue, in that order (the stop mark of close left out) *)
Definition packets (l : list (option packer)) : list packer := flat_map (fun x => match x with Some p => [p] | None => [] end) l.
(* the packets the sender has tried to write *)
Definition attempted (s : conn) : list packer := written (log (sender s)) ++ failed (log (sender s)).
(* a beginning of a list *)
Definition prefix {A} (a l : list A) : Prop := exists r, l = a ++ r.
(* nothing is under way *)
Definition idle (s : conn) : Prop := quiet (sender s) /\ flight s = [].
(* a step of the two peers and the network that is neither a Send, a close nor an error *)
Definition inner (l : nlabel) : Prop := match l with NPush _ | NPop | NWrite => True | NRead n => (1 <= n)%nat | _ => False end.
