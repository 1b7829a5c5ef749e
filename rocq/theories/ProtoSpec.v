(* Specification vocabulary for the protocol and framing properties. *)
From Verif Require Import GoInt GoVal CodecModel CodecSpec ProtoModel.

(* the identifier of a message type (README and protocol.go constants) *)
Definition proto_id (p : proto) : Z :=
  match p with
  | PError _ => 0 | PHeartbeat => 1 | PReady _ => 2 | PRegisterRequest _ => 3 | PRegisterResponse _ => 4
  | PQueryRequest _ => 5 | PQueryResponse _ => 6 | PRpcRequest _ _ _ _ _ => 7 | PRpcResponse _ _ _ _ _ => 8
  end.

Definition str_ok (s : list Z) : bool := forallb (in_ub 8) s && small_len s.

(* field values in the range of their Go types; argument lists that survive the codec *)
Definition proto_ok (ws : wsize) (p : proto) : bool :=
  let args_ok l := go_value ws (VArr ASliceIface l) && safe (VArr ASliceIface l) in
  match p with
  | PError e => str_ok e
  | PHeartbeat => true
  | PReady l | PRegisterRequest l => forallb str_ok l && small_len l
  | PRegisterResponse n => in_sb (wbits ws) n
  | PQueryRequest s | PQueryResponse s => str_ok s
  | PRpcRequest i s m a _ => in_sb 64 i && str_ok s && str_ok m && args_ok a
  | PRpcResponse i s m a e => in_sb 64 i && str_ok s && str_ok m && args_ok a && str_ok e
  end.

(* the receiver's int can hold the port *)
Definition fits (ws : wsize) (p : proto) : bool :=
  match p with PRegisterResponse n => in_sb (wbits ws) n | _ => true end.

(* equal fields, lists of values up to wire types *)
Inductive same_proto : proto -> proto -> Prop :=
| sp_refl p : (match p with PRpcRequest _ _ _ _ _ | PRpcResponse _ _ _ _ _ => False | _ => True end) -> same_proto p p
| sp_req i s m a a' w : Forall2 same_value a a' -> same_proto (PRpcRequest i s m a w) (PRpcRequest i s m a' w)
| sp_resp i s m a a' e : Forall2 same_value a a' -> same_proto (PRpcResponse i s m a e) (PRpcResponse i s m a' e).

Definition pack (p : proto) : packer := mkPacker (proto_id p) p.

(* frames (4 bytes plus body) up to here are handled *)
Definition max_frame (ws : wsize) : Z := match ws with W32 => 2 ^ 31 | W64 => 2 ^ 32 + 4 end.

(* f is the frame of the legitimate message p, sent by a ws-bit dock to a ws'-bit one *)
Definition sent (ws ws' : wsize) (p : proto) (f : list Z) : Prop :=
  proto_ok ws p = true /\ fits ws' p = true /\ marshal ws (pack p) = SOk f /\ Z.of_nat (length f) < max_frame ws'.

(* the little-endian number in the first four bytes *)
Definition le_val (d : list Z) : Z := nth 0 d 0 + 2 ^ 8 * nth 1 d 0 + 2 ^ 16 * nth 2 d 0 + 2 ^ 24 * nth 3 d 0.

(* a body with its little-endian length in front *)
Definition frame_of (body : list Z) : list Z := rev (be_bytes 4 (Z.of_nat (length body))) ++ body.

(* the NUL-terminated segments of a byte stream, and the rest *)
Fixpoint segments (s : list Z) : list (list Z) * list Z :=
  match s with
  | [] => ([], [])
  | c :: r =>
      let (segs, rest) := segments r in
      if c =? 0 then ([c] :: segs, rest)
      else match segs with
           | [] => ([], c :: rest)
           | g :: gs => ((c :: g) :: gs, rest)
           end
  end.

Definition terminated (s : list Z) : Prop := exists b, s = b ++ [0] /\ ~ In 0 b.

(* a call or an answer *)
Definition rpc (request : bool) (i : Z) (s m : list Z) (args : list gval) (w : bool) (e : list Z) : proto :=
  if request then PRpcRequest i s m args w else PRpcResponse i s m args e.
