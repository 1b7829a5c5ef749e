(* Vocabulary of the theorems about systems down to the bytes. *)
From Verif Require Import Lts GoInt GoVal Tables CodecSpec ProtoModel ProtoSpec DockModel DockSpec SysModel SysSpec ByteModel.
From Verif Require CallSpec HubModel.
From Coq Require Import Arith Bool List ZArith.
Import ListNotations.
Open Scope nat_scope.

(* fields in the range of their Go types, on a platform of this word size *)
Definition typed (ws : wsize) (p : proto) : bool :=
  let args_ok l := go_value ws (VArr ASliceIface l) in
  match p with
  | PError e => str_ok e
  | PHeartbeat => true
  | PReady l | PRegisterRequest l => forallb str_ok l && small_len l
  | PRegisterResponse n => in_sb (wbits ws) n
  | PQueryRequest s | PQueryResponse s => str_ok s
  | PRpcRequest i s m a _ => in_sb 64 i && str_ok s && str_ok m && args_ok a
  | PRpcResponse i s m a e => in_sb 64 i && str_ok s && str_ok m && args_ok a && str_ok e
  end.
(* typed, and for the one who gets it neither a port too large for its int nor a frame too long *)
Definition legitimate (other : endp -> option endp) (ws : option nat -> wsize) (x : endp * proto) : Prop :=
  typed (ws (proc (fst x))) (snd x) = true /\
  forall e, other e = Some (fst x) -> fits (ws (proc e)) (snd x) = true /\ CallSpec.short (ws (proc (fst x))) (ws (proc e)) (snd x).
(* nothing is under way on any connection: queues and streams are empty, no send routine has
   ended, and no message is complete in a receive buffer *)
Definition quiet (other : endp -> option endp) (ws : option nat -> wsize) (b : bsys) : Prop :=
  forall e e', other e = Some e' -> queue (out b e) = [] /\ holding (out b e) = None /\ ended (out b e) = false /\ flight (out b e) = [] /\
    (slice (ws (proc e)) (buffer (inb b e)) <= 0)%Z.
(* both ends of every connection are up, their routines go on, and no handler is busy *)
Definition up (e : endp) (b : bsys) : Prop := match e with DockEnd i _ => state (bd b i) = Alive | HubEnd _ => HubModel.halted (bh b) = false end.
Definition ready (other : endp -> option endp) (b : bsys) : Prop :=
  forall e e', other e = Some e' -> up e b /\ gone b (proc e) = false /\ ended (out b e) = false /\ reading (inb b e) = true /\ free e b = true.
(* its docks and its hub *)
Definition parts (b : bsys) : sys gval := mkSys (bd b) (bh b) (fun _ _ => []) (fun _ => []).
