(* IEEE-754 binary32/binary64 as bit patterns (what math.Float32bits and
   math.Float64bits return), and the two conversions the code performs:
   float64(x) for a float32 x (reflect.Value.Float, codec/encoder.go:180-181;
   codec/any.go:222) and float32(x) for a float64 x (codec/any.go:213;
   reflect.Value.Convert, chancall/meta.go:49). *)
From Verif Require Import GoInt.

Definition f32_sign (b : Z) : Z := b / 2 ^ 31.
Definition f32_exp (b : Z) : Z := (b / 2 ^ 23) mod 2 ^ 8.
Definition f32_man (b : Z) : Z := b mod 2 ^ 23.
Definition f64_sign (b : Z) : Z := b / 2 ^ 63.
Definition f64_exp (b : Z) : Z := (b / 2 ^ 52) mod 2 ^ 11.
Definition f64_man (b : Z) : Z := b mod 2 ^ 52.

Definition f32_is_nan (b : Z) : bool := (f32_exp b =? 255) && negb (f32_man b =? 0).
Definition f64_is_nan (b : Z) : bool := (f64_exp b =? 2047) && negb (f64_man b =? 0).
Definition f32_is_zero (b : Z) : bool := (f32_exp b =? 0) && (f32_man b =? 0).
Definition f64_is_zero (b : Z) : bool := (f64_exp b =? 0) && (f64_man b =? 0).

(* Go's == on floats: NaN is not equal to itself, +0 == -0. *)
Definition f32_eqb (a b : Z) : bool :=
  negb (f32_is_nan a) && negb (f32_is_nan b) && ((a =? b) || (f32_is_zero a && f32_is_zero b)).
Definition f64_eqb (a b : Z) : bool :=
  negb (f64_is_nan a) && negb (f64_is_nan b) && ((a =? b) || (f64_is_zero a && f64_is_zero b)).

(* float64(x), x float32.  A signalling NaN becomes quiet (amd64 CVTSS2SD). *)
Definition f32_widen (b : Z) : Z :=
  let s := f32_sign b in let e := f32_exp b in let m := f32_man b in
  if e =? 255 then
    if m =? 0 then s * 2 ^ 63 + 2047 * 2 ^ 52
    else s * 2 ^ 63 + 2047 * 2 ^ 52 + (if m <? 2 ^ 22 then m + 2 ^ 22 else m) * 2 ^ 29
  else if e =? 0 then
    if m =? 0 then s * 2 ^ 63
    else let k := Z.log2 m in
         s * 2 ^ 63 + (k + 874) * 2 ^ 52 + (m - 2 ^ k) * 2 ^ (52 - k)
  else s * 2 ^ 63 + (e + 896) * 2 ^ 52 + m * 2 ^ 29.

(* M / 2^sh rounded to nearest, ties to even. *)
Definition round_half_even (M sh : Z) : Z :=
  let r := M / 2 ^ sh in
  let rem := M mod 2 ^ sh in
  let half := 2 ^ (sh - 1) in
  if (half <? rem) || ((rem =? half) && Z.odd r) then r + 1 else r.

(* float32(x), x float64: round to nearest even, overflow to infinity. *)
Definition f64_narrow (b : Z) : Z :=
  let s := f64_sign b in let e := f64_exp b in let m := f64_man b in
  if e =? 2047 then
    if m =? 0 then s * 2 ^ 31 + 255 * 2 ^ 23
    else s * 2 ^ 31 + 255 * 2 ^ 23
         + (let m' := m / 2 ^ 29 in if m' <? 2 ^ 22 then m' + 2 ^ 22 else m')
  else
    let M := if e =? 0 then m else m + 2 ^ 52 in
    let E := if e =? 0 then -1074 else e - 1075 in
    let q := Z.max (-149) (Z.log2 M + E - 23) in
    let r := round_half_even M (q - E) in
    s * 2 ^ 31 + Z.min (255 * 2 ^ 23) ((q + 149) * 2 ^ 23 + r).

(* Specification: the real value of a finite pattern times 2^1074, an integer. *)
Definition f32_finite (b : Z) : Prop := f32_exp b <> 255.
Definition f64_finite (b : Z) : Prop := f64_exp b <> 2047.
Definition f32_scaled (b : Z) : Z :=
  (if f32_sign b =? 0 then 1 else -1)
  * (if f32_exp b =? 0 then f32_man b * 2 ^ (1074 - 149)
     else (f32_man b + 2 ^ 23) * 2 ^ (f32_exp b - 150 + 1074)).
Definition f64_scaled (b : Z) : Z :=
  (if f64_sign b =? 0 then 1 else -1)
  * (if f64_exp b =? 0 then f64_man b
     else (f64_man b + 2 ^ 52) * 2 ^ (f64_exp b - 1)).

Lemma f64_fields s e m :
  0 <= e < 2 ^ 11 -> 0 <= m < 2 ^ 52 ->
  f64_sign (s * 2 ^ 63 + e * 2 ^ 52 + m) = s /\
  f64_exp (s * 2 ^ 63 + e * 2 ^ 52 + m) = e /\
  f64_man (s * 2 ^ 63 + e * 2 ^ 52 + m) = m.
Proof.
  intros He Hm. unfold f64_sign, f64_exp, f64_man. repeat split.
  - symmetry. apply Z.div_unique with (e * 2 ^ 52 + m); lia.
  - replace ((s * 2 ^ 63 + e * 2 ^ 52 + m) / 2 ^ 52) with (s * 2 ^ 11 + e)
      by (apply Z.div_unique with m; lia).
    symmetry. apply Z.mod_unique with s; lia.
  - symmetry. apply Z.mod_unique with (s * 2 ^ 11 + e); lia.
Qed.

Lemma f32_fields s e m :
  0 <= e < 2 ^ 8 -> 0 <= m < 2 ^ 23 ->
  f32_sign (s * 2 ^ 31 + e * 2 ^ 23 + m) = s /\
  f32_exp (s * 2 ^ 31 + e * 2 ^ 23 + m) = e /\
  f32_man (s * 2 ^ 31 + e * 2 ^ 23 + m) = m.
Proof.
  intros He Hm. unfold f32_sign, f32_exp, f32_man. repeat split.
  - symmetry. apply Z.div_unique with (e * 2 ^ 23 + m); lia.
  - replace ((s * 2 ^ 31 + e * 2 ^ 23 + m) / 2 ^ 23) with (s * 2 ^ 8 + e)
      by (apply Z.div_unique with m; lia).
    symmetry. apply Z.mod_unique with s; lia.
  - symmetry. apply Z.mod_unique with (s * 2 ^ 8 + e); lia.
Qed.

Lemma f32_decompose b : in_u 32 b ->
  b = f32_sign b * 2 ^ 31 + f32_exp b * 2 ^ 23 + f32_man b /\
  0 <= f32_sign b <= 1 /\ 0 <= f32_exp b < 2 ^ 8 /\ 0 <= f32_man b < 2 ^ 23.
Proof.
  unfold in_u, f32_sign, f32_exp, f32_man. intros H.
  pose proof (Z.div_mod b (2 ^ 23)). pose proof (Z.mod_pos_bound b (2 ^ 23)).
  pose proof (Z.div_mod (b / 2 ^ 23) (2 ^ 8)). pose proof (Z.mod_pos_bound (b / 2 ^ 23) (2 ^ 8)).
  rewrite Z.div_div in * by lia. change (2 ^ 23 * 2 ^ 8) with (2 ^ 31) in *.
  assert (0 <= b / 2 ^ 31 < 2).
  { split; [apply Z.div_pos; lia|]. apply Z.div_lt_upper_bound; lia. }
  repeat split; lia.
Qed.

Lemma f64_decompose b : in_u 64 b ->
  b = f64_sign b * 2 ^ 63 + f64_exp b * 2 ^ 52 + f64_man b /\
  0 <= f64_sign b <= 1 /\ 0 <= f64_exp b < 2 ^ 11 /\ 0 <= f64_man b < 2 ^ 52.
Proof.
  unfold in_u, f64_sign, f64_exp, f64_man. intros H.
  pose proof (Z.div_mod b (2 ^ 52)). pose proof (Z.mod_pos_bound b (2 ^ 52)).
  pose proof (Z.div_mod (b / 2 ^ 52) (2 ^ 11)). pose proof (Z.mod_pos_bound (b / 2 ^ 52) (2 ^ 11)).
  rewrite Z.div_div in * by lia. change (2 ^ 52 * 2 ^ 11) with (2 ^ 63) in *.
  assert (0 <= b / 2 ^ 63 < 2).
  { split; [apply Z.div_pos; lia|]. apply Z.div_lt_upper_bound; lia. }
  repeat split; lia.
Qed.

(* Shape of a subnormal float32 after widening. *)
Lemma subnormal_norm m : 0 < m < 2 ^ 23 ->
  let k := Z.log2 m in
  0 <= k <= 22 /\ 0 <= (m - 2 ^ k) * 2 ^ (52 - k) < 2 ^ 52 /\
  (m - 2 ^ k) * 2 ^ (52 - k) + 2 ^ 52 = m * 2 ^ (52 - k).
Proof.
  intros Hm k.
  pose proof (Z.log2_spec m ltac:(lia)) as Hk. fold k in Hk.
  assert (0 <= k) by apply Z.log2_nonneg.
  assert (k < 23) by (apply Z.log2_lt_pow2; lia).
  rewrite Z.pow_succ_r in Hk by lia.
  assert (2 ^ k * 2 ^ (52 - k) = 2 ^ 52) by (rewrite <- Z.pow_add_r by lia; f_equal; lia).
  assert (0 < 2 ^ (52 - k)) by (apply Z.pow_pos_nonneg; lia).
  split; [lia|]. split; nia.
Qed.

Lemma f32_widen_shape b : in_u 32 b ->
  exists e m, f32_widen b = f32_sign b * 2 ^ 63 + e * 2 ^ 52 + m /\
    0 <= e < 2 ^ 11 /\ 0 <= m < 2 ^ 52 /\
    (f32_exp b = 255 /\ e = 2047 /\ f32_man b = 0 /\ m = 0 \/
     f32_exp b = 255 /\ e = 2047 /\ f32_man b <> 0 /\
       m = (if f32_man b <? 2 ^ 22 then f32_man b + 2 ^ 22 else f32_man b) * 2 ^ 29 \/
     f32_exp b = 0 /\ f32_man b = 0 /\ e = 0 /\ m = 0 \/
     f32_exp b = 0 /\ 0 < f32_man b /\ e = Z.log2 (f32_man b) + 874 /\
       m + 2 ^ 52 = f32_man b * 2 ^ (52 - Z.log2 (f32_man b)) \/
     0 < f32_exp b < 255 /\ e = f32_exp b + 896 /\ m = f32_man b * 2 ^ 29).
Proof.
  intros Hb. destruct (f32_decompose b Hb) as (Hd & Hs & He & Hm).
  unfold f32_widen.
  set (s := f32_sign b) in *. set (e := f32_exp b) in *. set (m := f32_man b) in *.
  clearbody s e m.
  destruct (Z.eqb_spec e 255).
  - destruct (Z.eqb_spec m 0).
    + exists 2047, 0. repeat split; try lia.
    + destruct (Z.ltb_spec m (2 ^ 22)).
      * exists 2047, ((m + 2 ^ 22) * 2 ^ 29). repeat split; try lia.
      * exists 2047, (m * 2 ^ 29). repeat split; try lia.
  - destruct (Z.eqb_spec e 0).
    + destruct (Z.eqb_spec m 0).
      * exists 0, 0. repeat split; try lia.
      * destruct (subnormal_norm m ltac:(lia)) as (Hk & Hr & Heq).
        exists (Z.log2 m + 874), ((m - 2 ^ Z.log2 m) * 2 ^ (52 - Z.log2 m)).
        repeat split; try lia.
    + exists (e + 896), (m * 2 ^ 29). repeat split; try lia.
Qed.

Lemma f32_widen_range b : in_u 32 b -> in_u 64 (f32_widen b).
Proof.
  intros Hb. destruct (f32_widen_shape b Hb) as (e & m & -> & He & Hm & _).
  destruct (f32_decompose b Hb) as (_ & Hs & _). unfold in_u. lia.
Qed.

(* Widening is exact: same real value, same sign, finite stays finite. *)
Lemma f32_widen_exact b : in_u 32 b -> f32_finite b ->
  f64_finite (f32_widen b) /\ f64_scaled (f32_widen b) = f32_scaled b /\
  f64_sign (f32_widen b) = f32_sign b.
Proof.
  intros Hb Hf. unfold f32_finite in Hf.
  destruct (f32_widen_shape b Hb) as (e & m & -> & He & Hm & Hc).
  destruct (f64_fields (f32_sign b) e m He Hm) as (Fs & Fe & Fm).
  unfold f64_finite, f64_scaled, f32_scaled. rewrite Fs, Fe, Fm.
  destruct (f32_decompose b Hb) as (_ & _ & _ & Hmb).
  destruct Hc as [(?&?&?&?)|[(?&?&?&?)|[(Z0&Z1&Z2&Z3)|[(H0&Hp&Hee&Hmm)|(H01&Hee&Hmm)]]]]; try lia.
  - rewrite Z0, Z1, Z2, Z3. cbn. repeat split; try lia.
  - destruct (subnormal_norm (f32_man b) ltac:(lia)) as (Hk & _ & _).
    split; [lia|]. split; [|reflexivity].
    destruct (Z.eqb_spec e 0); [lia|]. rewrite H0. cbn [Z.eqb].
    f_equal. rewrite Hmm, Hee, <- Z.mul_assoc, <- Z.pow_add_r by lia. do 2 f_equal. lia.
  - split; [lia|]. split; [|reflexivity].
    destruct (Z.eqb_spec e 0); [lia|]. destruct (Z.eqb_spec (f32_exp b) 0); [lia|].
    f_equal. rewrite Hmm, Hee.
    replace (f32_man b * 2 ^ 29 + 2 ^ 52) with ((f32_man b + 2 ^ 23) * 2 ^ 29) by lia.
    rewrite <- Z.mul_assoc, <- Z.pow_add_r by lia. do 2 f_equal. lia.
Qed.

Lemma round_exact r sh : 0 < sh -> round_half_even (r * 2 ^ sh) sh = r.
Proof.
  intros Hs. unfold round_half_even.
  assert (0 < 2 ^ sh) by (apply Z.pow_pos_nonneg; lia).
  assert (0 < 2 ^ (sh - 1)) by (apply Z.pow_pos_nonneg; lia).
  rewrite Z.mod_mul, Z.div_mul by lia.
  destruct (Z.ltb_spec (2 ^ (sh - 1)) 0); [lia|].
  destruct (Z.eqb_spec 0 (2 ^ (sh - 1))); [lia|]. reflexivity.
Qed.

(* A float32 passed through float64 and back is unchanged, except that a
   signalling NaN becomes quiet. *)
Definition f32_snan (b : Z) : Prop := f32_exp b = 255 /\ 0 < f32_man b < 2 ^ 22.

Lemma f64_narrow_widen b : in_u 32 b -> ~ f32_snan b -> f64_narrow (f32_widen b) = b.
Proof.
  intros Hb Hns.
  destruct (f32_widen_shape b Hb) as (e & m & -> & He & Hm & Hc).
  destruct (f64_fields (f32_sign b) e m He Hm) as (Fs & Fe & Fm).
  unfold f64_narrow. rewrite Fs, Fe, Fm.
  destruct (f32_decompose b Hb) as (Hd & Hs & Heb & Hmb).
  destruct Hc as [(?&?&?&?)|[(?&?&?&Hmm)|[(?&?&?&?)|[(H0&Hp&Hee&Hmm)|(H01&Hee&Hmm)]]]].
  - subst e m. cbn [Z.eqb Pos.eqb]. lia.
  - subst e. cbn [Z.eqb Pos.eqb].
    unfold f32_snan in Hns.
    destruct (Z.ltb_spec (f32_man b) (2 ^ 22)); [exfalso; apply Hns; lia|].
    subst m. destruct (Z.eqb_spec (f32_man b * 2 ^ 29) 0); [lia|].
    rewrite Z.div_mul by lia. cbv zeta.
    destruct (Z.ltb_spec (f32_man b) (2 ^ 22)); lia.
  - subst e m. cbn [Z.eqb].
    replace (round_half_even 0 _) with 0 by reflexivity.
    change (Z.max (-149) (Z.log2 0 + -1074 - 23)) with (-149). lia.
  - destruct (subnormal_norm (f32_man b) ltac:(lia)) as (Hk & _ & _).
    destruct (Z.eqb_spec e 2047); [lia|]. destruct (Z.eqb_spec e 0); [lia|].
    rewrite Hmm.
    set (k := Z.log2 (f32_man b)) in *.
    assert (Hl : Z.log2 (f32_man b * 2 ^ (52 - k)) = 52).
    { rewrite Z.log2_mul_pow2 by lia. fold k. lia. }
    rewrite Hl. rewrite Hee.
    replace (Z.max (-149) (52 + (k + 874 - 1075) - 23)) with (-149) by lia.
    replace (-149 - (k + 874 - 1075)) with (52 - k) by lia.
    rewrite round_exact by lia. lia.
  - destruct (Z.eqb_spec e 2047); [lia|]. destruct (Z.eqb_spec e 0); [lia|].
    rewrite Hmm.
    replace (f32_man b * 2 ^ 29 + 2 ^ 52) with ((f32_man b + 2 ^ 23) * 2 ^ 29) by lia.
    assert (Hl : Z.log2 ((f32_man b + 2 ^ 23) * 2 ^ 29) = 52).
    { rewrite Z.log2_mul_pow2 by lia.
      replace (Z.log2 (f32_man b + 2 ^ 23)) with 23; [lia|].
      symmetry. apply Z.log2_unique; lia. }
    rewrite Hl, Hee.
    replace (Z.max (-149) (52 + (f32_exp b + 896 - 1075) - 23)) with (f32_exp b - 150) by lia.
    replace (f32_exp b - 150 - (f32_exp b + 896 - 1075)) with 29 by lia.
    rewrite round_exact by lia. lia.
Qed.

(* time.Duration(x), x float32 (chancall/callee.go:65): conversion of a float to an
   integer truncates toward zero (Go spec).  Out-of-range and NaN are
   implementation-specific in Go; here they are left at this formula's value,
   and the theorems that use it ask for a finite setting in range. *)
Definition f32_trunc (b : Z) : Z :=
  let M := if f32_exp b =? 0 then f32_man b else f32_man b + 2 ^ 23 in
  let E := if f32_exp b =? 0 then -149 else f32_exp b - 150 in
  let a := if 0 <=? E then M * 2 ^ E else M / 2 ^ (- E) in
  if f32_sign b =? 0 then a else - a.
