(* IEEE-754 conversion between binary64 and binary32, by value: [f64_scaled] and
   [f32_scaled] are the numbers times 2^1074. *)
From Verif Require Import GoInt GoFloat.

Definition f32_is_inf (b : Z) : bool := (f32_exp b =? 255) && (f32_man b =? 0).
Definition f64_is_inf (b : Z) : bool := (f64_exp b =? 2047) && (f64_man b =? 0).

(* From here on a number is infinite in binary32: 2^128 less half a unit in the last
   place, times 2^1074. *)
Definition f32_limit : Z := (2 ^ 25 - 1) * 2 ^ (103 + 1074).

(* b' is the float32 nearest to the float64 b; of two equally near ones, the one with an
   even last bit. *)
Definition nearest32 (b b' : Z) : Prop :=
  in_u 32 b' /\ f32_sign b' = f64_sign b /\
  (f64_is_nan b = true -> f32_is_nan b' = true) /\
  (f64_is_inf b = true -> f32_is_inf b' = true) /\
  (f64_finite b -> f32_limit <= Z.abs (f64_scaled b) -> f32_is_inf b' = true) /\
  (f64_finite b -> Z.abs (f64_scaled b) < f32_limit ->
     f32_finite b' /\
     forall c, in_u 32 c -> f32_finite c -> f32_scaled c <> f32_scaled b' ->
       Z.abs (f32_scaled b' - f64_scaled b) <= Z.abs (f32_scaled c - f64_scaled b) /\
       (Z.abs (f32_scaled b' - f64_scaled b) = Z.abs (f32_scaled c - f64_scaled b) -> Z.even b' = true)).

(* b' is the float64 equal to the float32 b *)
Definition widened (b b' : Z) : Prop :=
  in_u 64 b' /\ f64_sign b' = f32_sign b /\
  (f32_is_nan b = true -> f64_is_nan b' = true) /\
  (f32_is_inf b = true -> f64_is_inf b' = true) /\
  (f32_finite b -> f64_finite b' /\ f64_scaled b' = f32_scaled b).
