(* A whole remote call as one function: request, bytes, frame, the receive routine,
   dispatch, response, bytes, frame, the receive routine; the local call beside it; and
   the result handling of a generated proxy.  Peers, docks and time are not part of this
   model: DockModel.v, PeerRecvModel.v and ChanModel.v have them. *)
From Verif Require Import GoInt GoFloat GoVal CodecModel ProtoModel PeerRecvModel MetaModel.
From Coq Require Import List.
Import ListNotations.

(* What becomes of one message sent from a dock of platform ws to one of platform ws'
   whose connection hands over the bytes in the pieces [cut].  Marshal at
   network/peer.go:71, the receive routine at network/peer.go:80-100. *)
Inductive transfer_result := Arrived (p : proto) | SenderDown | ReceiverDown | Incomplete.
Definition transfer (ws ws' : wsize) (cut : bytes -> list bytes) (id : Z) (p : proto) : transfer_result :=
  match marshal ws (mkPacker id p) with
  | SOk f =>
      let r := recv_all (ferry_serializer ws') (cut f) in
      if crashed r then ReceiverDown
      else match delivered r with [q] => Arrived (p_p q) | _ => Incomplete end
  | _ => SenderDown
  end.

Section Call.
Context {O : Type}.

(* How a call ends: results and error text (empty: nil error), with the feature's state;
   the caller's or the callee's process is gone; or the caller waits for ever. *)
Inductive fate := Returned (o : O) (results : list gval) (err : bytes) | CallerDown | CalleeDown | NoAnswer.

(* chancall/caller.go:16-44 and chancall/callee.go:35-39, without the timeout: what
   CallWithResult (w = true) or Call (w = false) brings back.  A panic in the handling
   goroutine is not recovered. *)
Definition run_method (ws : wsize) (open : open_conversion) (tbl : table O) (o : O) (m : bytes) (args : list gval) (w : bool)
  : option (O * list gval) :=
  match meta_call ws open tbl o m args with
  | Ran _ _ o' r => Some (o', if w then r else [])
  | Unknown => Some (o, [])
  | RanPanic _ _ | NotRun => None
  end.

(* dock.go:226-227, 237-238: the feature is in the same dock *)
Definition local_call (ws : wsize) (open : open_conversion) (tbl : table O) (o : O) (m : bytes) (args : list gval) (w : bool) : fate :=
  match run_method ws open tbl o m args w with Some (o', r) => Returned o' r [] | None => CalleeDown end.

(* dock.go:229-231, 240-242 and rpc.go:26-62 on the calling side; dock.go:141-175 on the
   serving side; dock.go:176-195 back on the calling side. *)
Definition remote_call (ws ws' : wsize) (open : open_conversion) (cut cut' : bytes -> list bytes) (tbl : table O) (o : O)
  (index : Z) (slot m : bytes) (args : list gval) (w : bool) : fate :=
  match transfer ws ws' cut idRpcRequest (PRpcRequest index slot m args w) with
  | SenderDown => CallerDown
  | ReceiverDown => CalleeDown
  | Arrived (PRpcRequest i s m' a w') =>
      match run_method ws' open tbl o m' a w' with
      | None => CalleeDown
      | Some (o', r) =>
          match transfer ws' ws cut' idRpcResponse (PRpcResponse i s m' r []) with
          | SenderDown => CalleeDown
          | ReceiverDown => CallerDown
          | Arrived (PRpcResponse i' _ _ r' e) => if i' =? index then Returned o' r' e else NoAnswer
          | _ => NoAnswer
          end
      end
  | _ => NoAnswer
  end.
End Call.
Arguments fate : clear implicits.

(* x.(T): for a non-interface type T the dynamic type must be T; for interface{} the value
   must not be nil (Go spec, "Type assertions").  Scalar types and interface{} only: the
   generator takes no other type than an identifier (tool/ferry.gen.go:134, 152), and
   defined container types are not told apart in GoVal.v. *)
Definition assert_type (ty : gtype) (v : gval) : option gval :=
  match ty, v with
  | TyAny, VNil => None
  | TyAny, _ => Some v
  | TyBool t, VBool t' _ => if t =? t' then Some v else None
  | TyF32 t, VF32 t' _ => if t =? t' then Some v else None
  | TyF64 t, VF64 t' _ => if t =? t' then Some v else None
  | TyStr t, VStr t' _ => if t =? t' then Some v else None
  | TyUint t k, VUint t' k' _ => if (t =? t') && ukind_eqb k k' then Some v else None
  | TyInt t k, VInt t' k' _ => if (t =? t') && ikind_eqb k k' then Some v else None
  | _, _ => None
  end.

(* A generated method with results, tool/ferry.gen.go:273-282 (test/proxy.gen.go:42-50):
   results[k].(Type) for each declared result; None is a panic (index or assertion). *)
Fixpoint proxy_return (tys : list gtype) (results : list gval) : option (list gval) :=
  match tys with
  | [] => Some []
  | ty :: tys' =>
      match results with
      | [] => None
      | v :: vs => match assert_type ty v with
                   | None => None
                   | Some x => match proxy_return tys' vs with None => None | Some xs => Some (x :: xs) end
                   end
      end
  end.

(* The proxy's method as a whole: what its caller sees. *)
Inductive proxy_fate := PReturns (vs : list gval) | PDefaults | PPanics | PNoReturn.
(* tool/ferry.gen.go:273-282 *)
Definition proxy_call {O} (tys : list gtype) (f : fate O) : proxy_fate :=
  match f with
  | Returned _ r [] => match proxy_return tys r with Some vs => PReturns vs | None => PPanics end
  | Returned _ _ (_ :: _) => PDefaults
  | _ => PNoReturn
  end.
