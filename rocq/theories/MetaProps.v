(* Property theorems C30: dispatch of a call by name. *)
From Verif Require Import GoInt GoFloat GoVal MetaModel MetaSpec MetaProof MetaProof2.
From Coq Require Import List.
Import ListNotations.

(* [open]: conversions the model leaves open, any *)
Theorem C30_dispatch : forall O ws open (tbl : table O) o name f args cargs, NoDup (map fst tbl) -> In (name, f) tbl ->
  length args = length (params f) -> Forall2 (fun pa c => converts ws (fst pa) (snd pa) c) (combine (params f) args) cargs ->
  meta_call ws open tbl o name args = match body f o cargs with Some (o', r) => Ran f cargs o' r | None => RanPanic f cargs end.
Proof. exact @dispatch. Qed.
Print Assumptions C30_dispatch.
Theorem C30_runs_only_the_named_method : forall O ws open (tbl : table O) o name args f given o' r,
  meta_call ws open tbl o name args = Ran f given o' r ->
  In (name, f) tbl /\ length given = length args /\ length args = length (params f) /\ body f o given = Some (o', r).
Proof. exact @runs_only_named. Qed.
Print Assumptions C30_runs_only_the_named_method.
Theorem C30_unknown_method : forall O ws open (tbl : table O) o name args, ~ In name (map fst tbl) ->
  meta_call ws open tbl o name args = Unknown.
Proof. exact @unknown. Qed.
Print Assumptions C30_unknown_method.
Theorem C30_wrong_arity_panics : forall O ws open (tbl : table O) o name f args, NoDup (map fst tbl) -> In (name, f) tbl ->
  length args <> length (params f) -> meta_call ws open tbl o name args = NotRun.
Proof. exact @wrong_arity. Qed.
Print Assumptions C30_wrong_arity_panics.
Theorem C30_inconvertible_panics : forall O ws open (tbl : table O) o name f args i p a, NoDup (map fst tbl) -> In (name, f) tbl ->
  nth_error (params f) i = Some p -> nth_error args i = Some a -> mixed p a -> meta_call ws open tbl o name args = NotRun.
Proof. exact @bad_argument. Qed.
Print Assumptions C30_inconvertible_panics.
(* even for a parameter of type interface{} *)
Theorem C30_nil_argument_panics : forall O ws open (tbl : table O) o name f args, NoDup (map fst tbl) -> In (name, f) tbl ->
  In VNil args -> meta_call ws open tbl o name args = NotRun.
Proof. exact @nil_argument. Qed.
Print Assumptions C30_nil_argument_panics.
(* every integer converts to every integer type, by Go's rule, to one value *)
Theorem C30_integers_to_signed : forall ws open t k v z, holds v z ->
  exists z', convert ws open (TyInt t k) v = Some (VInt t k z') /\ converts ws (TyInt t k) v (VInt t k z').
Proof. exact convert_int. Qed.
Print Assumptions C30_integers_to_signed.
Theorem C30_integers_to_unsigned : forall ws open t k v z, holds v z ->
  exists z', convert ws open (TyUint t k) v = Some (VUint t k z') /\ converts ws (TyUint t k) v (VUint t k z').
Proof. exact convert_uint. Qed.
Print Assumptions C30_integers_to_unsigned.
Theorem C30_conversion_unique : forall ws ty v a b, converts ws ty v a -> converts ws ty v b -> a = b.
Proof. exact converts_fun. Qed.
Print Assumptions C30_conversion_unique.

(* Add(int16, int) and Name(string), called with an int8 and a uint16 *)
Definition C30_add : fcall Z := mkFcall [TyInt 0 I16; TyInt 0 IInt]
  (fun o args => match args with [VInt _ _ a; VInt _ _ b] => Some (o + a + b, [VInt 0 IInt (o + a + b); VBool 0 true])%Z | _ => None end).
Definition C30_name : fcall Z := mkFcall [TyStr 0] (fun o args => Some (o, args)).
Definition C30_tbl : table Z := [([65], C30_add); ([78], C30_name)]%Z.
Example C30_case : NoDup (map fst C30_tbl) /\ In ([65%Z], C30_add) C30_tbl /\
  Forall2 (fun pa c => converts W64 (fst pa) (snd pa) c) (combine (params C30_add) [VInt 0 I8 (-3); VUint 0 U16 65535])
    [VInt 0 I16 (-3); VInt 0 IInt 65535] /\
  meta_call W64 (fun _ _ => None) C30_tbl 10%Z [65%Z] [VInt 0 I8 (-3); VUint 0 U16 65535] =
    Ran C30_add [VInt 0 I16 (-3); VInt 0 IInt 65535] 65542%Z [VInt 0 IInt 65542; VBool 0 true].
Proof.
  split; [repeat constructor; cbn; intuition congruence|]. split; [left; reflexivity|]. split; [|reflexivity].
  repeat constructor.
  - apply cv_int with (-3)%Z; [constructor|vm_compute; split; congruence|reflexivity].
  - apply cv_int with 65535%Z; [constructor|vm_compute; split; congruence|reflexivity].
Qed.
(* a bool for an int, two arguments for one, none for one, nil, and a name not there *)
Example C30_panics : mixed (TyInt 0 I16) (VBool 0 true) /\ forall o,
  meta_call W64 (fun _ _ => None) C30_tbl o [65%Z] [VBool 0 true; VInt 0 IInt 1] = NotRun /\
  meta_call W64 (fun _ _ => None) C30_tbl o [78%Z] [VStr 0 []; VStr 0 []] = NotRun /\
  meta_call W64 (fun _ _ => None) C30_tbl o [78%Z] [] = NotRun /\
  meta_call W64 (fun _ _ => None) C30_tbl o [78%Z] [VNil] = NotRun /\
  meta_call W64 (fun _ _ => None) C30_tbl o [66%Z] [VNil] = Unknown.
Proof. repeat split. Qed.
(* "an inconvertible argument panics" covers less than one may think: an integer given
   for a string parameter is converted, to the one-character string of that code point *)
Definition C30_int_is_not_a_string : Prop := forall z, convert W64 (fun _ _ => None) (TyStr 0) (VInt 0 IInt z) = None.
Theorem C30_int_is_not_a_string_refuted : ~ C30_int_is_not_a_string.
Proof. intros H. specialize (H 65%Z). discriminate H. Qed.
Print Assumptions C30_int_is_not_a_string_refuted.
(* any integer does: the UTF-8 of the code point, or U+FFFD *)
Theorem C30_int_to_string : forall ws open t v z, holds v z -> exists s, convert ws open (TyStr t) v = Some (VStr t s) /\
  (code_point z -> utf8 z s) /\ (~ code_point z -> utf8 0xFFFD s).
Proof. exact int_to_string. Qed.
Print Assumptions C30_int_to_string.
Example C30_int_to_string_case :
  convert W64 (fun _ _ => None) (TyStr 0) (VUint 0 U16 0x20AC) = Some (VStr 0 [0xE2; 0x82; 0xAC]%Z) /\ code_point 0x20AC /\
  convert W64 (fun _ _ => None) (TyStr 0) (VInt 0 IInt (-1)) = Some (VStr 0 [0xEF; 0xBF; 0xBD]%Z) /\ holds (VInt 0 IInt (-1)) (-1).
Proof. repeat split; try constructor; vm_compute; intuition congruence. Qed.
