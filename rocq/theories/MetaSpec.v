(* Go's conversion rules for the types the codec carries, as a relation. *)
From Verif Require Import GoInt GoFloat GoVal MetaModel.
From Coq Require Import List.
Import ListNotations.

(* the integer a value holds *)
Inductive holds : gval -> Z -> Prop :=
| holds_u t k n : holds (VUint t k n) n
| holds_i t k z : holds (VInt t k z) z.

(* "When converting between integer types ... the value is truncated to fit in the
   result type's size" (Go spec): congruent modulo 2^width and in range. *)
Inductive converts (ws : wsize) : gtype -> gval -> gval -> Prop :=
| cv_any v : v <> VNil -> converts ws TyAny v v
| cv_bool t t' b : converts ws (TyBool t') (VBool t b) (VBool t' b)
| cv_f32 t t' b : converts ws (TyF32 t') (VF32 t b) (VF32 t' b)
| cv_f64 t t' b : converts ws (TyF64 t') (VF64 t b) (VF64 t' b)
| cv_str t t' s : converts ws (TyStr t') (VStr t s) (VStr t' s)
| cv_int t' k v z z' : holds v z -> in_s (ibits ws k) z' -> (z' mod 2 ^ ibits ws k = z mod 2 ^ ibits ws k)%Z ->
    converts ws (TyInt t' k) v (VInt t' k z')
| cv_uint t' k v z z' : holds v z -> in_u (ubits ws k) z' -> (z' mod 2 ^ ubits ws k = z mod 2 ^ ubits ws k)%Z ->
    converts ws (TyUint t' k) v (VUint t' k z')
| cv_arr l : converts ws (TyArr ASliceIface) (VArr ASliceIface l) (VArr ASliceIface l)
| cv_map l : converts ws (TyMap true) (VMap true l) (VMap true l).

(* pairs for which Go has no conversion, among the codec's types *)
Definition mixed (ty : gtype) (v : gval) : Prop :=
  match v with
  | VNil => True
  | VBool _ _ => match ty with TyAny | TyBool _ | TyOther _ => False | _ => True end
  | VStr _ _ => match ty with TyAny | TyStr _ | TyArr _ | TyOther _ => False | _ => True end
  | VF32 _ _ | VF64 _ _ => match ty with TyAny | TyF32 _ | TyF64 _ | TyUint _ _ | TyInt _ _ | TyOther _ => False | _ => True end
  | VUint _ _ _ | VInt _ _ _ => match ty with TyAny | TyF32 _ | TyF64 _ | TyUint _ _ | TyInt _ _ | TyStr _ | TyOther _ => False | _ => True end
  | VArr ASliceIface _ => match ty with TyAny | TyArr _ | TyOther _ => False | _ => True end
  | VMap true _ => match ty with TyAny | TyMap _ | TyOther _ => False | _ => True end
  | _ => False
  end.

(* Unicode code points, and their UTF-8 form *)
Definition code_point (z : Z) : Prop := (0 <= z < 0xD800 \/ 0xE000 <= z < 0x110000)%Z.
Inductive utf8 : Z -> list Z -> Prop :=
| utf8_1 z : (z < 0x80)%Z -> utf8 z [z]
| utf8_2 a b : (0 <= a < 32)%Z -> (0 <= b < 64)%Z -> (0x80 <= a * 64 + b)%Z -> utf8 (a * 64 + b) [0xC0 + a; 0x80 + b]%Z
| utf8_3 a b c : (0 <= a < 16)%Z -> (0 <= b < 64)%Z -> (0 <= c < 64)%Z -> (0x800 <= (a * 64 + b) * 64 + c)%Z ->
    utf8 ((a * 64 + b) * 64 + c) [0xE0 + a; 0x80 + b; 0x80 + c]%Z
| utf8_4 a b c d : (0 <= a < 8)%Z -> (0 <= b < 64)%Z -> (0 <= c < 64)%Z -> (0 <= d < 64)%Z -> (0x10000 <= ((a * 64 + b) * 64 + c) * 64 + d)%Z ->
    utf8 (((a * 64 + b) * 64 + c) * 64 + d) [0xF0 + a; 0x80 + b; 0x80 + c; 0x80 + d]%Z.
