(* Specification vocabulary for whole calls. *)
From Verif Require Import GoInt GoFloat GoVal CodecSpec ProtoModel ProtoSpec MetaModel.
From Coq Require Import List.
Import ListNotations.

(* the value has exactly this scalar type *)
Inductive of_type : gtype -> gval -> Prop :=
| ot_bool t b : of_type (TyBool t) (VBool t b)
| ot_f32 t b : of_type (TyF32 t) (VF32 t b)
| ot_f64 t b : of_type (TyF64 t) (VF64 t b)
| ot_uint t k n : of_type (TyUint t k) (VUint t k n)
| ot_int t k z : of_type (TyInt t k) (VInt t k z)
| ot_str t s : of_type (TyStr t) (VStr t s).

(* not one of the float32 patterns a conversion changes *)
Definition quiet (v : gval) : Prop := match v with VF32 _ b => ~ f32_snan b | _ => True end.

(* what a method with this parameter type may be given for the argument *)
Inductive received : gtype -> gval -> gval -> Prop :=
| rc_scalar ty v : of_type ty v -> received ty v v
| rc_any v v' : v <> VNil -> same_value v v' -> received TyAny v v'
| rc_arr l v' : same_value (VArr ASliceIface l) v' -> received (TyArr ASliceIface) (VArr ASliceIface l) v'
| rc_map l v' : same_value (VMap true l) v' -> received (TyMap true) (VMap true l) v'.

(* an argument of the parameter's type *)
Definition accepts (ty : gtype) (v : gval) : Prop :=
  of_type ty v \/ (ty = TyAny /\ v <> VNil) \/ (ty = TyArr ASliceIface /\ exists l, v = VArr ASliceIface l)
  \/ (ty = TyMap true /\ exists l, v = VMap true l).

(* the message is not too long for the receiver *)
Definition short (ws ws' : wsize) (p : proto) : Prop :=
  forall f, marshal ws (pack p) = SOk f -> Z.of_nat (length f) < max_frame ws'.

(* no byte is lost or changed on the way *)
Definition whole (cut : list Z -> list (list Z)) : Prop := forall f, concat (cut f) = f.

(* the type a result has after the wire is the type it had before *)
Definition plain (v : gval) : bool :=
  match v with
  | VBool t _ | VStr t _ | VF64 t _ => t =? 0
  | VUint t k n => (t =? 0) && ukind_eqb k (narrow_u n)
  | VInt t k z => (t =? 0) && ikind_eqb k (narrow_s z)
  | _ => false
  end.

(* a list of values the codec carries unharmed, on this platform *)
Definition carried (ws : wsize) (l : list gval) : Prop :=
  go_value ws (VArr ASliceIface l) = true /\ safe (VArr ASliceIface l) = true.
