From Verif Require Import GoInt GoFloat FloatSpec.
From Coq Require Import Lia ZifyBool.

(* the value of a finite magnitude pattern, in units of 2^-149 *)
Definition mag (p : Z) : Z := if p <? 2 ^ 23 then p else (p mod 2 ^ 23 + 2 ^ 23) * 2 ^ (p / 2 ^ 23 - 1).

Lemma mag_at e m : 1 <= e -> 0 <= m < 2 ^ 23 -> mag (e * 2 ^ 23 + m) = (m + 2 ^ 23) * 2 ^ (e - 1).
Proof.
  intros He Hm. unfold mag. destruct (Z.ltb_spec (e * 2 ^ 23 + m) (2 ^ 23)); [lia|].
  replace (e * 2 ^ 23 + m) with (m + e * 2 ^ 23) by lia. rewrite Z.mod_add, Z.div_add by lia. rewrite Z.mod_small, Z.div_small by lia. reflexivity.
Qed.
(* q = 0 for subnormal results *)
Lemma mag_round q r : 0 <= q -> 0 <= r <= 2 ^ 24 -> (0 < q -> 2 ^ 23 <= r) -> mag (q * 2 ^ 23 + r) = r * 2 ^ q.
Proof.
  intros Hq Hr Hn. destruct (Z.eq_dec r (2 ^ 24)) as [->|Hne].
  - replace (q * 2 ^ 23 + 2 ^ 24) with ((q + 2) * 2 ^ 23 + 0) by lia. rewrite mag_at by lia.
    replace (q + 2 - 1) with (q + 1) by lia. rewrite Z.pow_add_r by lia. lia.
  - destruct (Z.lt_ge_cases r (2 ^ 23)).
    + assert (q = 0) by lia. subst. cbn [Z.mul]. unfold mag. destruct (Z.ltb_spec (0 + r) (2 ^ 23)); [|lia]. rewrite Z.mul_1_r. reflexivity.
    + replace (q * 2 ^ 23 + r) with ((q + 1) * 2 ^ 23 + (r - 2 ^ 23)) by lia. rewrite mag_at by lia.
      replace (q + 1 - 1) with q by lia. f_equal. lia.
Qed.
Lemma mag_step p : 0 <= p -> exists k, mag (p + 1) = mag p + 2 ^ k /\ 0 <= k /\ k = Z.max 0 (p / 2 ^ 23 - 1).
Proof.
  intros Hp. exists (Z.max 0 (p / 2 ^ 23 - 1)). split; [|lia].
  pose proof (Z.div_mod p (2 ^ 23)) as D. pose proof (Z.mod_pos_bound p (2 ^ 23)) as B.
  set (e := p / 2 ^ 23) in *. set (m := p mod 2 ^ 23) in *. assert (0 <= e) by (apply Z.div_pos; lia).
  destruct (Z.eq_dec e 0) as [E|E].
  - assert (p < 2 ^ 23) by lia. unfold mag at 2. destruct (Z.ltb_spec p (2 ^ 23)); [|lia]. rewrite E. cbn [Z.max]. change (2 ^ Z.max 0 (0 - 1)) with 1.
    destruct (Z.eq_dec (p + 1) (2 ^ 23)) as [->|].
    + change (2 ^ 23) with (1 * 2 ^ 23 + 0) at 1. rewrite mag_at by lia. lia.
    + unfold mag. destruct (Z.ltb_spec (p + 1) (2 ^ 23)); lia.
  - replace (Z.max 0 (e - 1)) with (e - 1) by lia. replace p with (e * 2 ^ 23 + m) at 2 by lia. rewrite mag_at by lia.
    destruct (Z.eq_dec m (2 ^ 23 - 1)) as [Em|].
    + replace (p + 1) with ((e + 1) * 2 ^ 23 + 0) by lia. rewrite mag_at by lia. replace (e + 1 - 1) with (Z.succ (e - 1)) by lia.
      rewrite Z.pow_succ_r by lia. lia.
    + replace (p + 1) with (e * 2 ^ 23 + (m + 1)) by lia. rewrite mag_at by lia. lia.
Qed.
Lemma mag_mono_nat n : forall p, 0 <= p -> mag p + Z.of_nat n <= mag (p + Z.of_nat n).
Proof.
  induction n as [|n IH]; intros p Hp; [change (Z.of_nat 0) with 0; rewrite !Z.add_0_r; lia|].
  destruct (mag_step (p + Z.of_nat n) ltac:(lia)) as (k & E & Hk & _). specialize (IH p Hp).
  replace (p + Z.of_nat (S n)) with (p + Z.of_nat n + 1) by lia. assert (0 < 2 ^ k) by (apply Z.pow_pos_nonneg; lia). lia.
Qed.
Lemma mag_lt p p' : 0 <= p < p' -> mag p < mag p'.
Proof. intros H. pose proof (mag_mono_nat (Z.to_nat (p' - p)) p ltac:(lia)) as M. rewrite Z2Nat.id in M by lia. replace (p + (p' - p)) with p' in M by lia. lia. Qed.
Lemma mag_le p p' : 0 <= p <= p' -> mag p <= mag p'.
Proof. intros H. destruct (Z.eq_dec p p') as [->|]; [lia|]. pose proof (mag_lt p p'). lia. Qed.
Lemma mag_nonneg p : 0 <= p -> 0 <= mag p.
Proof. intros H. pose proof (mag_le 0 p ltac:(lia)). change (mag 0) with 0 in *. lia. Qed.

(* the pattern without its sign *)
Lemma scaled_mag c : in_u 32 c -> f32_finite c ->
  exists p, 0 <= p < 255 * 2 ^ 23 /\ f32_scaled c = (if f32_sign c =? 0 then 1 else -1) * (mag p * 2 ^ 925) /\ c = f32_sign c * 2 ^ 31 + p.
Proof.
  intros Hc Hf. destruct (f32_decompose c Hc) as (Hd & Hs & He & Hm). unfold f32_finite in Hf.
  exists (f32_exp c * 2 ^ 23 + f32_man c). split; [lia|]. split; [|lia]. unfold f32_scaled. f_equal.
  destruct (Z.eqb_spec (f32_exp c) 0) as [E|E].
  - rewrite E. unfold mag. destruct (Z.ltb_spec (0 * 2 ^ 23 + f32_man c) (2 ^ 23)); [|lia]. reflexivity.
  - rewrite mag_at by lia. rewrite <- Z.mul_assoc, <- Z.pow_add_r by lia. do 2 f_equal. lia.
Qed.

Lemma pow_split a b : 0 <= a -> 0 <= b -> 2 ^ (a + b) = 2 ^ a * 2 ^ b.
Proof. intros. apply Z.pow_add_r; assumption. Qed.

Lemma round_bounds M sh : 0 <= M -> 0 < sh ->
  let r := round_half_even M sh in
  Z.abs (2 * (r * 2 ^ sh - M)) <= 2 ^ sh /\ (Z.abs (2 * (r * 2 ^ sh - M)) = 2 ^ sh -> Z.even r = true) /\ M / 2 ^ sh <= r <= M / 2 ^ sh + 1 /\
  (M = (M / 2 ^ sh) * 2 ^ sh -> r = M / 2 ^ sh).
Proof.
  intros HM Hs r. unfold r, round_half_even.
  assert (P : 0 < 2 ^ (sh - 1)) by (apply Z.pow_pos_nonneg; lia).
  assert (E : 2 ^ sh = 2 * 2 ^ (sh - 1)) by (rewrite <- Z.pow_succ_r by lia; f_equal; lia).
  pose proof (Z.div_mod M (2 ^ sh) ltac:(lia)) as D. pose proof (Z.mod_pos_bound M (2 ^ sh) ltac:(lia)) as B.
  set (d := M / 2 ^ sh) in *. set (rem := M mod 2 ^ sh) in *. set (half := 2 ^ (sh - 1)) in *. clearbody d rem half.
  destruct (Z.ltb_spec half rem); cbn [orb].
  - repeat split; try lia.
  - destruct (Z.eqb_spec rem half) as [Er|]; cbn [andb].
    + destruct (Z.odd d) eqn:Eo.
      * repeat split; try lia. intros _. rewrite Z.even_add, <- Z.negb_odd, Eo. reflexivity.
      * repeat split; try lia. intros _. rewrite <- Z.negb_odd, Eo. reflexivity.
    + repeat split; try lia.
Qed.

(* the shape of a finite float64 and of its rounding *)
Definition sgn (s : Z) : Z := if s =? 0 then 1 else -1.
Lemma narrow_shape b : in_u 64 b -> f64_finite b ->
  exists M sh q r, 0 <= M /\ 0 < sh /\ 0 <= q /\ r = round_half_even M sh /\
    f64_scaled b = sgn (f64_sign b) * (M * 2 ^ (q + 925 - sh)) /\ 0 <= q + 925 - sh /\
    f64_narrow b = f64_sign b * 2 ^ 31 + Z.min (255 * 2 ^ 23) (q * 2 ^ 23 + r) /\
    M < 2 ^ (24 + sh) /\ (0 < q -> 2 ^ (23 + sh) <= M).
Proof.
  intros Hb Hf. destruct (f64_decompose b Hb) as (_ & Hs & He & Hm). unfold f64_finite in Hf.
  set (M := if f64_exp b =? 0 then f64_man b else f64_man b + 2 ^ 52).
  set (E := if f64_exp b =? 0 then -1074 else f64_exp b - 1075).
  set (q := Z.max (-149) (Z.log2 M + E - 23)).
  assert (HM : 0 <= M) by (unfold M; destruct (_ =? _); lia).
  assert (HE : -1074 <= E) by (unfold E; destruct (Z.eqb_spec (f64_exp b) 0); lia).
  assert (Hsh : 0 < q - E).
  { unfold q, M, E. destruct (Z.eqb_spec (f64_exp b) 0); [lia|].
    replace (Z.log2 (f64_man b + 2 ^ 52)) with 52 by (symmetry; apply Z.log2_unique; lia). lia. }
  exists M, (q - E), (q + 149), (round_half_even M (q - E)).
  split; [exact HM|]. split; [exact Hsh|]. split; [unfold q; lia|]. split; [reflexivity|].
  split.
  { unfold f64_scaled, sgn. f_equal. replace (q + 149 + 925 - (q - E)) with (E + 1074) by lia.
    unfold M, E. destruct (Z.eqb_spec (f64_exp b) 0); [rewrite Z.mul_1_r; reflexivity|]. do 2 f_equal. lia. }
  split; [lia|]. split.
  { unfold f64_narrow. replace (f64_exp b =? 2047) with false by lia. reflexivity. }
  destruct (Z.eq_dec M 0) as [E0|E0].
  - rewrite E0. split; [apply Z.pow_pos_nonneg; lia|]. intros Hq. exfalso. unfold q in Hq. rewrite E0 in Hq. change (Z.log2 0) with 0 in Hq.
    unfold M, E in *. destruct (Z.eqb_spec (f64_exp b) 0); lia.
  - pose proof (Z.log2_spec M ltac:(lia)) as L. split.
    + apply Z.lt_le_trans with (1 := proj2 L). apply Z.pow_le_mono_r; lia.
    + intros Hq. apply Z.le_trans with (2 := proj1 L). apply Z.pow_le_mono_r; [lia|]. unfold q in *. lia.
Qed.

(* every other pattern is at least a unit away, but for those below a power of two *)
Lemma gap q r p c : 0 <= q -> 0 <= r <= 2 ^ 24 -> (0 < q -> 2 ^ 23 <= r) -> p = q * 2 ^ 23 + r -> 0 <= c -> c <> p ->
  2 ^ q <= Z.abs (mag c - mag p) \/ (0 < q /\ r = 2 ^ 23 /\ mag c < mag p).
Proof.
  intros Hq Hr Hr' Ep Hc Hne. destruct (Z.lt_ge_cases p c) as [Hpc|Hpc].
  - left. destruct (mag_step p ltac:(lia)) as (k & Ek & Hk & Kv). pose proof (mag_le (p + 1) c ltac:(lia)) as Ml.
    assert (q <= k).
    { subst k. destruct (Z.eq_dec q 0); [lia|]. assert (q + 1 <= p / 2 ^ 23) by (apply Z.div_le_lower_bound; lia). lia. }
    assert (2 ^ q <= 2 ^ k) by (apply Z.pow_le_mono_r; lia). clear Kv Ep. lia.
  - destruct (mag_step (p - 1) ltac:(lia)) as (k & Ek & Hk & Kv). replace (p - 1 + 1) with p in Ek by lia.
    pose proof (mag_le c (p - 1) ltac:(lia)) as Ml. destruct (Z.lt_ge_cases k q) as [Hkq|Hkq].
    + right. split; [lia|]. split; [|apply mag_lt; lia].
      destruct (Z.eq_dec r (2 ^ 23)); [assumption|]. exfalso.
      assert (q + 1 <= (p - 1) / 2 ^ 23) by (apply Z.div_le_lower_bound; lia). lia.
    + left. assert (2 ^ q <= 2 ^ k) by (apply Z.pow_le_mono_r; lia). clear Kv Ep. lia.
Qed.
Lemma tri V X C k : Z.abs (2 * (V - X)) <= k -> k <= Z.abs (C - V) ->
  Z.abs (V - X) <= Z.abs (C - X) /\ (Z.abs (V - X) = Z.abs (C - X) -> Z.abs (2 * (V - X)) = k).
Proof. lia. Qed.
Lemma nearest_core M sh q p c : 0 <= M -> 0 < sh -> 0 <= q -> 0 <= q + 925 - sh ->
  M < 2 ^ (24 + sh) -> (0 < q -> 2 ^ (23 + sh) <= M) ->
  p = q * 2 ^ 23 + round_half_even M sh -> 0 <= c -> c <> p ->
  let X := M * 2 ^ (q + 925 - sh) in
  Z.abs (mag p * 2 ^ 925 - X) <= Z.abs (mag c * 2 ^ 925 - X) /\
  (Z.abs (mag p * 2 ^ 925 - X) = Z.abs (mag c * 2 ^ 925 - X) -> Z.even p = true).
Proof.
  intros HM Hsh Hq Hx Hlt Hge Ep Hc Hne X.
  destruct (round_bounds M sh HM Hsh) as (Rb & Rt & Rr & Rex). set (r := round_half_even M sh) in *.
  rewrite !Z.pow_add_r in Hlt by lia. assert (P : 0 < 2 ^ sh) by (apply Z.pow_pos_nonneg; lia).
  assert (Hr : 0 <= r <= 2 ^ 24).
  { assert (0 <= M / 2 ^ sh) by (apply Z.div_pos; lia). assert (M / 2 ^ sh < 2 ^ 24) by (apply Z.div_lt_upper_bound; lia). lia. }
  assert (Hr' : 0 < q -> 2 ^ 23 <= r).
  { intros H. specialize (Hge H). rewrite Z.pow_add_r in Hge by lia. assert (2 ^ 23 <= M / 2 ^ sh) by (apply Z.div_le_lower_bound; lia). lia. }
  pose proof (mag_round q r Hq Hr Hr') as Em. rewrite <- Ep in Em.
  set (w := 2 ^ (q + 925 - sh)) in *. assert (W : 0 < w) by (apply Z.pow_pos_nonneg; lia).
  assert (Ew : 2 ^ q * 2 ^ 925 = 2 ^ sh * w) by (unfold w; rewrite <- !Z.pow_add_r by lia; f_equal; lia).
  assert (EX : X = M * w) by reflexivity. clearbody X. clearbody w.
  assert (U : 0 < 2 ^ 925) by (apply Z.pow_pos_nonneg; lia). generalize dependent (2 ^ 925). intros u Ew U.
  assert (EV : mag p * u = r * (2 ^ sh * w)) by (rewrite Em, <- Ew; ring).
  assert (D : 2 * (mag p * u - X) = (2 * (r * 2 ^ sh - M)) * w) by (rewrite EV, EX; ring).
  assert (D1 : Z.abs (2 * (mag p * u - X)) = Z.abs (2 * (r * 2 ^ sh - M)) * w) by (rewrite D, Z.abs_mul, (Z.abs_eq w) by lia; reflexivity).
  assert (Hp0 : 0 <= p) by lia.
  assert (Ev : Z.even p = Z.even r).
  { rewrite Ep, Z.even_add, Z.even_mul. change (Z.even (2 ^ 23)) with true. rewrite orb_true_r. destruct (Z.even r); reflexivity. }
  destruct (gap q r p c Hq Hr Hr' Ep Hc Hne) as [G|(Hq0 & Er & G)].
  - destruct (tri (mag p * u) X (mag c * u) (2 ^ sh * w)) as [T1 T2].
    + rewrite D1. apply Z.mul_le_mono_nonneg_r; [clear -W; lia|exact Rb].
    + rewrite <- Ew, <- Z.mul_sub_distr_r, Z.abs_mul, (Z.abs_eq u) by (clear -U; lia). apply Z.mul_le_mono_nonneg_r; [clear -U; lia|exact G].
    + split; [exact T1|]. intros Eq. rewrite Ev. apply Rt. apply Z.mul_reg_r with w; [clear -W; lia|]. rewrite <- D1. exact (T2 Eq).
  - specialize (Hge Hq0). rewrite Z.pow_add_r in Hge by (clear -Hsh; lia).
    assert (L1 : mag p * u <= X) by (rewrite EV, EX, Er, Z.mul_assoc; apply Z.mul_le_mono_nonneg_r; [clear -W; lia|exact Hge]).
    assert (L2 : mag c * u < mag p * u) by (apply Z.mul_lt_mono_pos_r; assumption).
    clear -L1 L2. split; [lia|]. intros Eq. exfalso. lia.
Qed.

(* the result is past the largest finite pattern exactly from the limit on *)
Lemma overflow_core M sh q p : 0 <= M -> 0 < sh -> 0 <= q -> 0 <= q + 925 - sh ->
  M < 2 ^ (24 + sh) -> (0 < q -> 2 ^ (23 + sh) <= M) ->
  p = q * 2 ^ 23 + round_half_even M sh ->
  (255 * 2 ^ 23 <= p <-> f32_limit <= M * 2 ^ (q + 925 - sh)).
Proof.
  intros HM Hsh Hq Hx Hlt Hge Ep.
  destruct (round_bounds M sh HM Hsh) as (Rb & Rt & Rr & Rex). set (r := round_half_even M sh) in *.
  rewrite !Z.pow_add_r in Hlt by lia. assert (P : 0 < 2 ^ sh) by (apply Z.pow_pos_nonneg; lia).
  set (w := 2 ^ (q + 925 - sh)). assert (W : 0 < w) by (apply Z.pow_pos_nonneg; lia).
  assert (Ew : 2 ^ q * 2 ^ 925 = 2 ^ sh * w) by (unfold w; rewrite <- !Z.pow_add_r by lia; f_equal; lia).
  assert (Hr : 0 <= r <= 2 ^ 24).
  { assert (0 <= M / 2 ^ sh) by (apply Z.div_pos; lia). assert (M / 2 ^ sh < 2 ^ 24) by (apply Z.div_lt_upper_bound; lia). lia. }
  assert (EL : 2 * f32_limit = (2 ^ 25 - 1) * (2 ^ 253 * 2 ^ 925)) by (unfold f32_limit; rewrite <- Z.pow_add_r by lia; change (2 ^ (103 + 1074)) with (2 ^ 1177); change (2 ^ (253 + 925)) with (2 * 2 ^ 1177); ring).
  set (u := 2 ^ 925) in *. assert (U : 0 < u) by (apply Z.pow_pos_nonneg; lia).
  destruct (Z.lt_trichotomy q 253) as [Hq'|[Hq'|Hq']].
  - (* below the top binade *)
    assert (2 ^ (q + 1) <= 2 ^ 253) by (apply Z.pow_le_mono_r; lia). rewrite Z.pow_add_r in H by lia.
    assert (M * w < 2 ^ 24 * (2 ^ q * u)) by (rewrite Ew, Z.mul_assoc; apply Z.mul_lt_mono_pos_r; assumption).
    assert (2 ^ 25 * (2 ^ q * u) <= 2 ^ 24 * (2 ^ 253 * u)) by nia.
    assert (0 < 2 ^ 253 * u) by (apply Z.mul_pos_pos; [apply Z.pow_pos_nonneg; lia|assumption]).
    split; intros; exfalso; lia.
  - subst q. assert (E24 : 255 * 2 ^ 23 <= p <-> r = 2 ^ 24) by lia.
    assert (EL2 : 2 * f32_limit = (2 ^ 25 - 1) * 2 ^ sh * w) by (rewrite EL, Ew; ring).
    rewrite E24. split; intros H.
    + rewrite H in Rb. assert ((2 ^ 25 - 1) * 2 ^ sh <= 2 * M) by lia.
      assert ((2 ^ 25 - 1) * 2 ^ sh * w <= 2 * M * w) by (apply Z.mul_le_mono_nonneg_r; lia). lia.
    + assert ((2 ^ 25 - 1) * 2 ^ sh * w <= (2 * M) * w) by lia. apply Z.mul_le_mono_pos_r in H0; [|assumption].
      destruct (Z.eq_dec r (2 ^ 24)); [assumption|]. exfalso.
      assert (Er : r = 2 ^ 24 - 1) by nia. rewrite Er in Rb, Rt.
      assert (Z.abs (2 * ((2 ^ 24 - 1) * 2 ^ sh - M)) = 2 ^ sh) by lia. specialize (Rt H1). discriminate Rt.
  - assert (Hq0 : 0 < q) by lia. specialize (Hge Hq0). rewrite Z.pow_add_r in Hge by lia.
    assert (2 ^ 23 <= r). { assert (2 ^ 23 <= M / 2 ^ sh) by (apply Z.div_le_lower_bound; lia). lia. }
    split; intros _; [|lia].
    assert (2 ^ 254 <= 2 ^ q) by (apply Z.pow_le_mono_r; lia).
    assert (2 ^ 23 * (2 ^ q * u) <= M * w) by (rewrite Ew, Z.mul_assoc; apply Z.mul_le_mono_nonneg_r; lia).
    assert (2 ^ 254 * u <= 2 ^ q * u) by (apply Z.mul_le_mono_nonneg_r; lia).
    change (2 ^ 254) with (2 * 2 ^ 253) in H1. assert (0 < 2 ^ 253 * u) by (apply Z.mul_pos_pos; [apply Z.pow_pos_nonneg; lia|assumption]). lia.
Qed.

Lemma sgn_abs s x : 0 <= x -> Z.abs (sgn s * x) = x.
Proof. intros H. unfold sgn. destruct (s =? 0); lia. Qed.
Lemma pattern_parts s p : 0 <= s <= 1 -> 0 <= p < 2 ^ 31 ->
  f32_sign (s * 2 ^ 31 + p) = s /\ f32_exp (s * 2 ^ 31 + p) = p / 2 ^ 23 /\ f32_man (s * 2 ^ 31 + p) = p mod 2 ^ 23.
Proof.
  intros Hs Hp. pose proof (Z.div_mod p (2 ^ 23)). pose proof (Z.mod_pos_bound p (2 ^ 23)).
  assert (0 <= p / 2 ^ 23 < 2 ^ 8) by (split; [apply Z.div_pos; lia|apply Z.div_lt_upper_bound; lia]).
  destruct (f32_fields s (p / 2 ^ 23) (p mod 2 ^ 23)) as (A & B & C); [lia|lia|].
  replace (s * 2 ^ 31 + p / 2 ^ 23 * 2 ^ 23 + p mod 2 ^ 23) with (s * 2 ^ 31 + p) in A, B, C by lia. auto.
Qed.
Lemma round_nonneg M sh : 0 <= M -> 0 < sh -> 0 <= round_half_even M sh.
Proof.
  intros H H'. destruct (round_bounds M sh H H') as (_ & _ & R & _). assert (0 < 2 ^ sh) by (apply Z.pow_pos_nonneg; lia).
  assert (0 <= M / 2 ^ sh) by (apply Z.div_pos; lia). lia.
Qed.

Lemma opposite V X C : 0 <= V -> 0 <= X -> 0 <= C -> V <= 2 * X -> Z.abs (V - X) <= Z.abs (- C - X).
Proof. lia. Qed.

Lemma f64_narrow_nearest b : in_u 64 b -> nearest32 b (f64_narrow b).
Proof.
  intros Hb. destruct (f64_decompose b Hb) as (_ & Hs & He & Hm).
  destruct (Z.eq_dec (f64_exp b) 2047) as [E|E].
  { (* infinity and NaN *)
    assert (Ei : f64_is_inf b = (f64_man b =? 0)) by (unfold f64_is_inf; rewrite E; reflexivity).
    assert (En : f64_is_nan b = negb (f64_man b =? 0)) by (unfold f64_is_nan; rewrite E; reflexivity).
    unfold nearest32. unfold f64_finite. rewrite Ei, En, E.
    assert (X : exists m, f64_narrow b = f64_sign b * 2 ^ 31 + (255 * 2 ^ 23 + m) /\ 0 <= m < 2 ^ 23 /\ (m = 0 <-> f64_man b = 0)).
    { unfold f64_narrow. rewrite E. cbn [Z.eqb Pos.eqb]. destruct (Z.eqb_spec (f64_man b) 0) as [->|N]; [exists 0; lia|].
      assert (0 <= f64_man b / 2 ^ 29 < 2 ^ 23) by (split; [apply Z.div_pos; lia|apply Z.div_lt_upper_bound; lia]).
      cbv zeta. destruct (Z.ltb_spec (f64_man b / 2 ^ 29) (2 ^ 22)); [exists (f64_man b / 2 ^ 29 + 2 ^ 22)|exists (f64_man b / 2 ^ 29)]; lia. }
    destruct X as (m & Ex & Hm' & Hz). rewrite Ex.
    destruct (pattern_parts (f64_sign b) (255 * 2 ^ 23 + m)) as (A & B & C); [lia|lia|].
    unfold f32_is_nan, f32_is_inf. rewrite A, B, C.
    replace ((255 * 2 ^ 23 + m) / 2 ^ 23) with 255 by (apply Z.div_unique with m; lia).
    replace ((255 * 2 ^ 23 + m) mod 2 ^ 23) with m by (apply Z.mod_unique with 255; lia).
    split; [unfold in_u; lia|]. split; [reflexivity|]. split; [lia|]. split; [lia|]. split; intros F; exfalso; apply F; reflexivity. }
  assert (Hf : f64_finite b) by exact E.
  destruct (narrow_shape b Hb Hf) as (M & sh & q & r & HM & Hsh & Hq & Er & Ex & Hw & En & Hlt & Hge).
  set (p := q * 2 ^ 23 + r) in *. assert (Ep : p = q * 2 ^ 23 + round_half_even M sh) by (subst r; reflexivity).
  pose proof (round_nonneg M sh HM Hsh) as Hr0. rewrite <- Er in Hr0.
  pose proof (overflow_core M sh q p HM Hsh Hq Hw Hlt Hge Ep) as Ov.
  set (X := M * 2 ^ (q + 925 - sh)) in *. assert (HX : 0 <= X) by (apply Z.mul_nonneg_nonneg; [exact HM|apply Z.pow_nonneg; lia]).
  assert (Ea : Z.abs (f64_scaled b) = X) by (rewrite Ex; apply sgn_abs; exact HX).
  unfold nearest32. rewrite Ea. unfold f64_is_nan, f64_is_inf, f64_finite in *. replace (f64_exp b =? 2047) with false by (clear -E; lia). cbn [andb].
  set (p' := Z.min (255 * 2 ^ 23) p) in *. assert (Hp' : 0 <= p' < 2 ^ 31) by (clear -Hr0 Hq; subst p' p; lia).
  rewrite En. destruct (pattern_parts (f64_sign b) p' Hs Hp') as (A & B & C).
  split; [clear -Hs Hp'; unfold in_u; lia|]. split; [exact A|]. split; [discriminate|]. split; [discriminate|]. split.
  - intros _ Hl. apply Ov in Hl. assert (Epp : p' = 255 * 2 ^ 23) by (clear -Hl; subst p'; lia). unfold f32_is_inf. rewrite B, C, Epp. reflexivity.
  - intros _ Hl. assert (Hpp : p < 255 * 2 ^ 23). { destruct (Z.lt_ge_cases p (255 * 2 ^ 23)) as [L|L]; [exact L|]. apply Ov in L. clear -L Hl. lia. }
    assert (Epp : p' = p) by (clear -Hpp; subst p'; lia). clearbody p'. subst p'.
    assert (Fin : f32_finite (f64_sign b * 2 ^ 31 + p)).
    { unfold f32_finite. rewrite B. assert (p / 2 ^ 23 < 255) by (apply Z.div_lt_upper_bound; clear -Hpp; lia). clear -H. lia. }
    split; [exact Fin|]. intros c Hc Hcf Hne.
    destruct (scaled_mag c Hc Hcf) as (pc & Hpc & Sc & _).
    assert (Sb : f32_scaled (f64_sign b * 2 ^ 31 + p) = sgn (f64_sign b) * (mag p * 2 ^ 925)).
    { destruct (scaled_mag (f64_sign b * 2 ^ 31 + p)) as (p2 & _ & S2 & E2); [unfold in_u; clear -Hs Hp'; lia|exact Fin|].
      rewrite A in S2, E2. assert (p2 = p) by (clear -E2; lia). subst p2. exact S2. }
    assert (Evn : Z.even (f64_sign b * 2 ^ 31 + p) = Z.even p).
    { rewrite Z.even_add, Z.even_mul. change (Z.even (2 ^ 31)) with true. rewrite orb_true_r. destruct (Z.even p); reflexivity. }
    rewrite Sb, Sc, Ex, Evn in *. fold (sgn (f32_sign c)) in *.
    assert (Hvp : 0 <= mag p * 2 ^ 925) by (apply Z.mul_nonneg_nonneg; [apply mag_nonneg; clear -Hp'; lia|apply Z.pow_nonneg; lia]).
    assert (Hvc : 0 <= mag pc * 2 ^ 925) by (apply Z.mul_nonneg_nonneg; [apply mag_nonneg; clear -Hpc; lia|apply Z.pow_nonneg; lia]).
    (* zero of either sign is the nearest or not *)
    assert (Z0 : p <> 0 -> Z.abs (mag p * 2 ^ 925 - X) <= Z.abs (0 - X) /\ (Z.abs (mag p * 2 ^ 925 - X) = Z.abs (0 - X) -> Z.even p = true)).
    { intros N. destruct (nearest_core M sh q p 0 HM Hsh Hq Hw Hlt Hge Ep ltac:(lia)) as [N1 N2]; [clear -N; lia|].
      fold X in N1, N2. change (mag 0 * 2 ^ 925) with 0 in N1, N2. auto. }
    destruct (Z.eq_dec pc p) as [->|Np].
    + (* same magnitude, other sign *)
      assert (sgn (f32_sign c) = - sgn (f64_sign b)).
      { unfold sgn in *. destruct (f32_sign c =? 0), (f64_sign b =? 0); try reflexivity; exfalso; apply Hne; reflexivity. }
      rewrite H in *. set (V := mag p * 2 ^ 925) in *.
      assert (p <> 0). { intros ->. apply Hne. subst V. change (mag 0 * 2 ^ 925) with 0. clear. lia. }
      specialize (Z0 H0). clear -Z0 Hvp HX. unfold sgn. destruct Z0 as [Z1 Z2]. destruct (f64_sign b =? 0); split; try lia; intros; apply Z2; lia.
    + destruct (nearest_core M sh q p pc HM Hsh Hq Hw Hlt Hge Ep ltac:(clear -Hpc; lia) Np) as [N1 N2]. fold X in N1, N2.
      set (V := mag p * 2 ^ 925) in *. set (W := mag pc * 2 ^ 925) in *.
      destruct (Z.eq_dec p 0) as [P0|P0].
      * assert (V = 0) by (subst V; rewrite P0; reflexivity). assert (Z.even p = true) by (rewrite P0; reflexivity).
        clear -H H0 N1 N2 Hvp Hvc HX. unfold sgn. destruct (f64_sign b =? 0), (f32_sign c =? 0); split; try lia; auto.
      * specialize (Z0 P0). destruct Z0 as [Z1 Z2].
        clear -N1 N2 Z1 Z2 Hvp Hvc HX. unfold sgn. destruct (f64_sign b =? 0), (f32_sign c =? 0); split; try lia; intros; first [apply N2; lia|apply Z2; lia].
Qed.

Lemma f32_widen_widened b : in_u 32 b -> widened b (f32_widen b).
Proof.
  intros Hb. unfold widened. split; [apply f32_widen_range; exact Hb|].
  destruct (f32_widen_shape b Hb) as (e & m & Ew & He & Hm & Hc).
  destruct (f64_fields (f32_sign b) e m He Hm) as (Fs & Fe & Fm). rewrite Ew.
  unfold f32_is_nan, f32_is_inf, f64_is_nan, f64_is_inf. rewrite Fs, Fe, Fm. split; [reflexivity|].
  destruct (f32_decompose b Hb) as (_ & _ & _ & Hmb).
  split; [|split].
  - destruct (f32_man b <? 2 ^ 22), Hc as [(?&?&?&?)|[(?&?&?&?)|[(?&?&?&?)|[(?&?&?&?)|(?&?&?)]]]]; lia.
  - destruct Hc as [(?&?&?&?)|[(?&?&?&?)|[(?&?&?&?)|[(?&?&?&?)|(?&?&?)]]]]; lia.
  - intros Hf. destruct (f32_widen_exact b Hb Hf) as (A & B & _). rewrite Ew in A, B. auto.
Qed.

(* the specification names one pattern *)
Lemma middle V1 V2 W X : V1 < W < V2 -> Z.abs (V1 - X) = Z.abs (V2 - X) -> Z.abs (W - X) < Z.abs (V1 - X).
Proof. lia. Qed.
Lemma nearest32_unique b b1 b2 : f64_is_nan b = false -> nearest32 b b1 -> nearest32 b b2 -> b1 = b2.
Proof.
  intros Hn (R1 & S1 & _ & I1 & L1 & F1) (R2 & S2 & _ & I2 & L2 & F2).
  assert (Inf : f32_is_inf b1 = true -> f32_is_inf b2 = true -> b1 = b2).
  { unfold f32_is_inf. intros A B. destruct (f32_decompose b1 R1) as (D1 & _). destruct (f32_decompose b2 R2) as (D2 & _).
    rewrite D1, D2, S1, S2. lia. }
  destruct (f64_is_inf b) eqn:Ei; [apply Inf; [apply I1|apply I2]; reflexivity|].
  assert (Hf : f64_finite b). { unfold f64_finite, f64_is_nan, f64_is_inf in *. lia. }
  destruct (Z.lt_ge_cases (Z.abs (f64_scaled b)) f32_limit) as [Hl|Hl]; [|apply Inf; [apply L1|apply L2]; assumption].
  destruct (F1 Hf Hl) as [G1 N1]. destruct (F2 Hf Hl) as [G2 N2]. clear I1 I2 L1 L2 F1 F2 Inf.
  destruct (scaled_mag b1 R1 G1) as (p1 & P1 & V1 & E1). destruct (scaled_mag b2 R2 G2) as (p2 & P2 & V2 & E2).
  rewrite S1 in *. rewrite S2 in *. set (s := f64_sign b) in *. fold (sgn s) in *.
  assert (Hs : 0 <= s <= 1). { destruct (f32_decompose b1 R1) as (_ & Q & _). rewrite S1 in Q. exact Q. }
  destruct (Z.eq_dec p1 p2) as [->|Np]; [clear -E1 E2; lia|]. exfalso.
  assert (U : 0 < 2 ^ 925) by (apply Z.pow_pos_nonneg; lia).
  assert (Inj : forall x y, 0 <= x < y -> mag x * 2 ^ 925 < mag y * 2 ^ 925) by (intros x y H; apply Z.mul_lt_mono_pos_r; [exact U|apply mag_lt; exact H]).
  assert (Sg : sgn s = 1 \/ sgn s = -1) by (unfold sgn; destruct (s =? 0); auto).
  assert (Main : forall p p' c, 0 <= p < p' -> p' < 255 * 2 ^ 23 -> Z.even (s * 2 ^ 31 + p) = true -> Z.even (s * 2 ^ 31 + p') = true ->
    Z.abs (sgn s * (mag p * 2 ^ 925) - f64_scaled b) = Z.abs (sgn s * (mag p' * 2 ^ 925) - f64_scaled b) ->
    c = s * 2 ^ 31 + (p + 1) ->
    in_u 32 c /\ f32_finite c /\ f32_scaled c <> sgn s * (mag p * 2 ^ 925) /\ Z.abs (f32_scaled c - f64_scaled b) < Z.abs (sgn s * (mag p * 2 ^ 925) - f64_scaled b)).
  { intros p p' c Hp Hp' Ev Ev' Eq ->. rewrite Z.even_add, Z.even_mul in Ev, Ev'. change (Z.even (2 ^ 31)) with true in Ev, Ev'.
    rewrite orb_true_r in Ev, Ev'. cbn [Bool.eqb] in Ev, Ev'.
    assert (Hpp : p + 1 < p').
    { assert (p + 1 <> p'); [|clear -Hp H; lia]. intros <-. rewrite Z.even_add in Ev'. destruct (Z.even p); discriminate. }
    destruct (pattern_parts s (p + 1) Hs) as (A & B & C); [clear -Hp Hpp Hp'; lia|].
    assert (Rc : in_u 32 (s * 2 ^ 31 + (p + 1))) by (unfold in_u; clear -Hp Hpp Hp' Hs; lia).
    assert (Fc : f32_finite (s * 2 ^ 31 + (p + 1))).
    { unfold f32_finite. rewrite B. assert ((p + 1) / 2 ^ 23 < 255) by (apply Z.div_lt_upper_bound; clear -Hpp Hp'; lia). clear -H. lia. }
    split; [exact Rc|]. split; [exact Fc|]. destruct (scaled_mag _ Rc Fc) as (pc & _ & Vc & Ec). rewrite A in Vc, Ec.
    assert (pc = p + 1) by (clear -Ec; lia). subst pc. fold (sgn s) in Vc. rewrite Vc.
    pose proof (Inj p (p + 1) ltac:(clear -Hp; lia)) as I1. pose proof (Inj (p + 1) p' ltac:(clear -Hp Hpp; lia)) as I2.
    clear -Sg I1 I2 Eq. destruct Sg as [E|E]; rewrite E in *; lia. }
  assert (Ne : f32_scaled b2 <> f32_scaled b1).
  { rewrite V1, V2. destruct (Z.lt_ge_cases p1 p2) as [L|L].
    - pose proof (Inj p1 p2 ltac:(clear -P1 L; lia)). clear -H Sg. destruct Sg as [E|E]; rewrite E; lia.
    - pose proof (Inj p2 p1 ltac:(clear -P2 L Np; lia)). clear -H Sg. destruct Sg as [E|E]; rewrite E; lia. }
  destruct (N1 b2 R2 G2 Ne) as [Q1 Q1']. destruct (N2 b1 R1 G1 (not_eq_sym Ne)) as [Q2 Q2'].
  assert (Eq : Z.abs (f32_scaled b1 - f64_scaled b) = Z.abs (f32_scaled b2 - f64_scaled b)) by (clear -Q1 Q2; lia).
  specialize (Q1' Eq). specialize (Q2' (eq_sym Eq)). rewrite V1, V2 in Eq. rewrite E1 in Q1'. rewrite E2 in Q2'.
  destruct (Z.lt_ge_cases p1 p2) as [L|L].
  - destruct (Main p1 p2 _ ltac:(clear -P1 L; lia) ltac:(clear -P2; lia) Q1' Q2' Eq eq_refl) as (A & B & C & D).
    rewrite <- V1 in C, D. destruct (N1 _ A B C) as [X _]. clear -X D. lia.
  - destruct (Main p2 p1 _ ltac:(clear -P2 L Np; lia) ltac:(clear -P1; lia) Q2' Q1' (eq_sym Eq) eq_refl) as (A & B & C & D).
    rewrite <- V2 in C, D. destruct (N2 _ A B C) as [X _]. clear -X D. lia.
Qed.
