(* Lemmas about the codec model: what the decoder's reads compute. *)
From Verif Require Import GoInt GoFloat GoVal CodecModel CodecSpec CodecProof CodecProof2.
From Coq Require Import ZifyBool ZifyNat.
Ltac Zify.zify_post_hook ::= idtac.

Lemma lor_step k n b : 0 <= n -> is_byte b ->
  Z.lor (k * 2 ^ (n + 8)) (Z.shiftl b n) = (k * 2 ^ 8 + b) * 2 ^ n.
Proof.
  intros Hn Hb. unfold is_byte in Hb. rewrite Z.shiftl_mul_pow2 by lia.
  assert (0 < 2 ^ n) by (apply Z.pow_pos_nonneg; lia).
  rewrite Z.pow_add_r by lia.
  rewrite <- (Z.pow_add_r 2 n 8) by lia.
  rewrite lor_mul_add; [rewrite Z.pow_add_r by lia; ring|lia|].
  rewrite Z.pow_add_r by lia. change (2 ^ 8) with 256. nia.
Qed.
Lemma lor_last k b : is_byte b -> Z.lor (k * 2 ^ 8) b = k * 2 ^ 8 + b.
Proof. intros Hb. unfold is_byte in Hb. apply lor_mul_add; [lia|]. change (2 ^ 8) with 256. lia. Qed.

Lemma lor2 s b1 : is_byte b1 -> Z.lor (s * 2 ^ 8) b1 = s * 2 ^ 8 + b1.
Proof. apply lor_last. Qed.
Lemma lor4 s b1 b2 b3 : is_byte b1 -> is_byte b2 -> is_byte b3 ->
  Z.lor (Z.lor (Z.lor (s * 2 ^ 24) (Z.shiftl b1 16)) (Z.shiftl b2 8)) b3 =
  s * 2 ^ 24 + be_val [b1; b2; b3].
Proof.
  intros H1 H2 H3.
  change (2 ^ 24) with (2 ^ (16 + 8)) at 1. rewrite lor_step by (assumption || lia).
  change (2 ^ 16) with (2 ^ (8 + 8)) at 1. rewrite lor_step by (assumption || lia).
  rewrite lor_last by assumption. cbn [be_val length]. change (256 ^ Z.of_nat 2) with 65536. change (256 ^ Z.of_nat 1) with 256.
  change (256 ^ Z.of_nat 0) with 1. lia.
Qed.
Lemma lor8 s b1 b2 b3 b4 b5 b6 b7 :
  is_byte b1 -> is_byte b2 -> is_byte b3 -> is_byte b4 -> is_byte b5 -> is_byte b6 -> is_byte b7 ->
  Z.lor (Z.lor (Z.lor (Z.lor (Z.lor (Z.lor (Z.lor
     (s * 2 ^ 56) (Z.shiftl b1 48)) (Z.shiftl b2 40))
     (Z.shiftl b3 32)) (Z.shiftl b4 24)) (Z.shiftl b5 16))
     (Z.shiftl b6 8)) b7 =
  s * 2 ^ 56 + be_val [b1; b2; b3; b4; b5; b6; b7].
Proof.
  intros.
  change (2 ^ 56) with (2 ^ (48 + 8)) at 1. rewrite lor_step by (assumption || lia).
  change (2 ^ 48) with (2 ^ (40 + 8)) at 1. rewrite lor_step by (assumption || lia).
  change (2 ^ 40) with (2 ^ (32 + 8)) at 1. rewrite lor_step by (assumption || lia).
  change (2 ^ 32) with (2 ^ (24 + 8)) at 1. rewrite lor_step by (assumption || lia).
  change (2 ^ 24) with (2 ^ (16 + 8)) at 1. rewrite lor_step by (assumption || lia).
  change (2 ^ 16) with (2 ^ (8 + 8)) at 1. rewrite lor_step by (assumption || lia).
  rewrite lor_last by assumption. cbn [be_val length].
  change (256 ^ Z.of_nat 6) with (2 ^ 48). change (256 ^ Z.of_nat 5) with (2 ^ 40).
  change (256 ^ Z.of_nat 4) with (2 ^ 32). change (256 ^ Z.of_nat 3) with (2 ^ 24).
  change (256 ^ Z.of_nat 2) with (2 ^ 16). change (256 ^ Z.of_nat 1) with (2 ^ 8).
  change (256 ^ Z.of_nat 0) with 1. lia.
Qed.

Lemma swrap_shiftl b k : is_byte b -> 0 <= k -> swrap (k + 8) (Z.shiftl b k) = swrap 8 b * 2 ^ k.
Proof.
  intros Hb Hk. unfold is_byte in Hb. rewrite Z.shiftl_mul_pow2 by lia. unfold swrap.
  replace (k + 8 - 1) with (7 + k) by lia. rewrite !Z.pow_add_r by lia. change (8 - 1) with 7.
  rewrite (Z.mul_comm (2 ^ k) (2 ^ 8)).
  replace (b * 2 ^ k + 2 ^ 7 * 2 ^ k) with ((b + 2 ^ 7) * 2 ^ k) by ring.
  assert (0 < 2 ^ k) by (apply Z.pow_pos_nonneg; lia).
  rewrite Zmult_mod_distr_r. ring.
Qed.

(* the value of a signed big-endian field *)
Lemma swrap_be b t n : is_byte b -> bytes_ok t -> length t = n ->
  swrap (8 * Z.of_nat (S n)) (be_val (b :: t)) = swrap 8 b * 256 ^ Z.of_nat n + be_val t.
Proof.
  intros Hb Ht Hl. subst n. pose proof (be_val_range t Ht) as Hr. cbn [be_val].
  set (P := 256 ^ Z.of_nat (length t)) in *.
  assert (HP : 2 ^ (8 * Z.of_nat (length t)) = P) by (rewrite Z.pow_mul_r by lia; reflexivity).
  unfold swrap. change (8 - 1) with 7.
  replace (8 * Z.of_nat (S (length t)) - 1) with (7 + 8 * Z.of_nat (length t)) by lia.
  replace (8 * Z.of_nat (S (length t))) with (8 + 8 * Z.of_nat (length t)) by lia.
  rewrite !Z.pow_add_r by lia. rewrite HP. change (2 ^ 7) with 128. change (2 ^ 8) with 256.
  unfold is_byte in Hb.
  destruct (Z_lt_ge_dec b 128).
  - rewrite (Z.mod_small (b + 128)) by lia. rewrite Z.mod_small by nia. ring.
  - replace ((b + 128) mod 256) with (b - 128) by (apply Zmod_unique with 1; lia).
    replace ((b * P + be_val t + 128 * P) mod (256 * P)) with (b * P + be_val t - 128 * P)
      by (apply Zmod_unique with 1; nia).
    ring.
Qed.

Lemma at_byte d i : bytes_ok d -> is_byte (at_ d i).
Proof.
  intros H. revert i. induction H as [|x t Hx Ht IH]; intros [|i]; try (unfold is_byte; cbn; lia).
  - exact Hx.
  - apply (IH i).
Qed.

(* Whatever the reader stored, zero-padded to n bytes. *)
Definition pad (n : nat) (d : list Z) : list Z := map (at_ d) (seq 0 n).

Lemma pad_full d n : length d = n -> pad n d = d.
Proof.
  intros <-. unfold pad, at_. apply nth_ext with 0 0.
  - rewrite map_length, seq_length. reflexivity.
  - rewrite map_length, seq_length. intros i Hi.
    rewrite nth_indep with (d' := nth 0%nat d 0) by (rewrite map_length, seq_length; lia).
    change (nth 0%nat d 0) with ((fun i => nth i d 0) 0%nat).
    rewrite map_nth, seq_nth by lia. reflexivity.
Qed.
Lemma pad_ok d n : bytes_ok d -> bytes_ok (pad n d).
Proof. intros H. apply Forall_forall. intros x Hx. apply in_map_iff in Hx as (i & <- & _). apply at_byte, H. Qed.
Lemma pad_length d n : length (pad n d) = n.
Proof. unfold pad. rewrite map_length, seq_length. reflexivity. Qed.

Section Reads.
Context {R : Type} (rd : Z -> R -> option (list Z) * R).

Ltac bytes := first [assumption | apply at_byte; assumption | lia].

Lemma readUint16_val r d r' : rd 2 r = (Some d, r') -> bytes_ok d ->
  readUint16 rd r = DOk (be_val (pad 2 d)) r'.
Proof.
  intros E Hd. unfold readUint16. rewrite E. f_equal.
  rewrite Z.shiftl_mul_pow2 by lia. rewrite lor2 by bytes.
  unfold pad. cbn [map seq be_val length]. lia.
Qed.
Lemma readUint32_val r d r' : rd 4 r = (Some d, r') -> bytes_ok d ->
  readUint32 rd r = DOk (be_val (pad 4 d)) r'.
Proof.
  intros E Hd. unfold readUint32. rewrite E. f_equal.
  rewrite (Z.shiftl_mul_pow2 _ 24) by lia. rewrite lor4 by bytes.
  unfold pad. cbn [map seq be_val length]. lia.
Qed.
Lemma readUint64_val r d r' : rd 8 r = (Some d, r') -> bytes_ok d ->
  readUint64 rd r = DOk (be_val (pad 8 d)) r'.
Proof.
  intros E Hd. unfold readUint64. rewrite E. f_equal.
  rewrite (Z.shiftl_mul_pow2 _ 56) by lia. rewrite lor8 by bytes.
  unfold pad. cbn [map seq be_val length]. lia.
Qed.
Lemma readInt16_val r d r' : rd 2 r = (Some d, r') -> bytes_ok d ->
  readInt16 rd r = DOk (swrap 16 (be_val (pad 2 d))) r'.
Proof.
  intros E Hd. unfold readInt16. rewrite E. f_equal.
  rewrite (swrap_shiftl _ 8) by bytes. rewrite lor2 by bytes.
  unfold pad. cbn [map seq]. change 16 with (8 * Z.of_nat 2).
  rewrite swrap_be; [|bytes|repeat constructor; bytes|reflexivity].
  cbn [be_val length]. lia.
Qed.
Lemma readInt32_val r d r' : rd 4 r = (Some d, r') -> bytes_ok d ->
  readInt32 rd r = DOk (swrap 32 (be_val (pad 4 d))) r'.
Proof.
  intros E Hd. unfold readInt32. rewrite E. f_equal.
  rewrite (swrap_shiftl _ 24) by bytes. rewrite lor4 by bytes.
  unfold pad. cbn [map seq]. change 32 with (8 * Z.of_nat 4).
  rewrite swrap_be; [|bytes|repeat constructor; bytes|reflexivity].
  reflexivity.
Qed.
Lemma readInt64_val r d r' : rd 8 r = (Some d, r') -> bytes_ok d ->
  readInt64 rd r = DOk (swrap 64 (be_val (pad 8 d))) r'.
Proof.
  intros E Hd. unfold readInt64. rewrite E. f_equal.
  rewrite (swrap_shiftl _ 56) by bytes. rewrite lor8 by bytes.
  unfold pad. cbn [map seq]. change 64 with (8 * Z.of_nat 8).
  rewrite swrap_be; [|bytes|repeat constructor; bytes|reflexivity].
  reflexivity.
Qed.
End Reads.

Lemma buf_rd_app n bs rest : 0 < n -> Z.of_nat (length bs) = n -> buf_rd n (bs ++ rest) = (Some bs, rest).
Proof.
  intros Hn Hl. unfold buf_rd. destruct bs as [|x bs]; [cbn in Hl; lia|].
  remember (x :: bs) as l. replace (l ++ rest) with (x :: (bs ++ rest)) at 1 by (subst; reflexivity).
  cbv beta iota zeta.
  replace (Z.to_nat (Z.min n (Z.of_nat (length (l ++ rest))))) with (length l)
    by (rewrite app_length; lia).
  rewrite firstn_app, Nat.sub_diag, firstn_all, app_nil_r.
  rewrite skipn_app, Nat.sub_diag, skipn_all. reflexivity.
Qed.

Lemma readByte_buf x rest : readByte buf_rd (x :: rest) = DOk x rest.
Proof. unfold readByte. change (x :: rest) with ([x] ++ rest). rewrite (buf_rd_app 1 [x] rest) by (cbn; lia). reflexivity. Qed.

Lemma readU16_be v rest : readUint16 buf_rd (be_bytes 2 v ++ rest) = DOk (uwrap 16 v) rest.
Proof.
  erewrite readUint16_val; [|apply buf_rd_app; [lia|rewrite be_bytes_length; reflexivity]|apply be_bytes_ok].
  rewrite pad_full by apply be_bytes_length. rewrite be_val_bytes. reflexivity.
Qed.
Lemma readU32_be v rest : readUint32 buf_rd (be_bytes 4 v ++ rest) = DOk (uwrap 32 v) rest.
Proof.
  erewrite readUint32_val; [|apply buf_rd_app; [lia|rewrite be_bytes_length; reflexivity]|apply be_bytes_ok].
  rewrite pad_full by apply be_bytes_length. rewrite be_val_bytes. reflexivity.
Qed.
Lemma readU64_be v rest : readUint64 buf_rd (be_bytes 8 v ++ rest) = DOk (uwrap 64 v) rest.
Proof.
  erewrite readUint64_val; [|apply buf_rd_app; [lia|rewrite be_bytes_length; reflexivity]|apply be_bytes_ok].
  rewrite pad_full by apply be_bytes_length. rewrite be_val_bytes. reflexivity.
Qed.
Lemma readI16_be v rest : in_s 16 v -> readInt16 buf_rd (be_bytes 2 v ++ rest) = DOk v rest.
Proof.
  intros H. erewrite readInt16_val; [|apply buf_rd_app; [lia|rewrite be_bytes_length; reflexivity]|apply be_bytes_ok].
  rewrite pad_full by apply be_bytes_length. rewrite be_val_bytes.
  change (256 ^ Z.of_nat 2) with (2 ^ 16). fold (uwrap 16 v). rewrite swrap_uwrap by (assumption || lia). reflexivity.
Qed.
Lemma readI32_be v rest : in_s 32 v -> readInt32 buf_rd (be_bytes 4 v ++ rest) = DOk v rest.
Proof.
  intros H. erewrite readInt32_val; [|apply buf_rd_app; [lia|rewrite be_bytes_length; reflexivity]|apply be_bytes_ok].
  rewrite pad_full by apply be_bytes_length. rewrite be_val_bytes.
  change (256 ^ Z.of_nat 4) with (2 ^ 32). fold (uwrap 32 v). rewrite swrap_uwrap by (assumption || lia). reflexivity.
Qed.
Lemma readI64_be v rest : in_s 64 v -> readInt64 buf_rd (be_bytes 8 v ++ rest) = DOk v rest.
Proof.
  intros H. erewrite readInt64_val; [|apply buf_rd_app; [lia|rewrite be_bytes_length; reflexivity]|apply be_bytes_ok].
  rewrite pad_full by apply be_bytes_length. rewrite be_val_bytes.
  change (256 ^ Z.of_nat 8) with (2 ^ 64). fold (uwrap 64 v). rewrite swrap_uwrap by (assumption || lia). reflexivity.
Qed.

(* ------------------------------------------------------------------ *)
(* decode of each format *)
Ltac tag := rewrite decode_S; cbn [app]; rewrite readByte_buf; cbn [dbind];
  cbv [cNil cFalse cTrue cFloat32 cFloat64 cUint8 cUint16 cUint32 cUint64 cInt8 cInt16 cInt32 cInt64 cStr32 cArr32 cMap32];
  cbn [Z.eqb Pos.eqb].

Lemma dec_u8 f n rest : in_u 8 n -> decode buf_rd (S f) (0xcc :: be_bytes 1 n ++ rest) = DOk (VUint 0 U8 n) rest.
Proof.
  intros H. tag. rewrite be1. cbn [app]. rewrite readByte_buf. unfold byte_of. rewrite uwrap_id by exact H. reflexivity.
Qed.
Lemma dec_u16 f n rest : in_u 16 n -> decode buf_rd (S f) (0xcd :: be_bytes 2 n ++ rest) = DOk (VUint 0 U16 n) rest.
Proof. intros H. tag. rewrite readU16_be, uwrap_id by exact H. reflexivity. Qed.
Lemma dec_u32 f n rest : in_u 32 n -> decode buf_rd (S f) (0xce :: be_bytes 4 n ++ rest) = DOk (VUint 0 U32 n) rest.
Proof. intros H. tag. rewrite readU32_be, uwrap_id by exact H. reflexivity. Qed.
Lemma dec_u64 f n rest : in_u 64 n -> decode buf_rd (S f) (0xcf :: be_bytes 8 n ++ rest) = DOk (VUint 0 U64 n) rest.
Proof. intros H. tag. rewrite readU64_be, uwrap_id by exact H. reflexivity. Qed.
Lemma dec_i8 f n rest : in_s 8 n -> decode buf_rd (S f) (0xd0 :: be_bytes 1 n ++ rest) = DOk (VInt 0 I8 n) rest.
Proof.
  intros H. tag. rewrite be1. cbn [app]. rewrite readByte_buf. unfold byte_of. cbn [dmap dbind].
  rewrite swrap_uwrap by (assumption || lia). reflexivity.
Qed.
Lemma dec_i16 f n rest : in_s 16 n -> decode buf_rd (S f) (0xd1 :: be_bytes 2 n ++ rest) = DOk (VInt 0 I16 n) rest.
Proof. intros H. tag. rewrite readI16_be by exact H. reflexivity. Qed.
Lemma dec_i32 f n rest : in_s 32 n -> decode buf_rd (S f) (0xd2 :: be_bytes 4 n ++ rest) = DOk (VInt 0 I32 n) rest.
Proof. intros H. tag. rewrite readI32_be by exact H. reflexivity. Qed.
Lemma dec_i64 f n rest : in_s 64 n -> decode buf_rd (S f) (0xd3 :: be_bytes 8 n ++ rest) = DOk (VInt 0 I64 n) rest.
Proof. intros H. tag. rewrite readI64_be by exact H. reflexivity. Qed.

Lemma dec_uint f n rest : in_u 64 n ->
  decode buf_rd (S f) (fmt_uint n ++ rest) = DOk (VUint 0 (narrow_u n) n) rest.
Proof.
  intros H. unfold fmt_uint, narrow_u, in_u in *.
  destruct (Z.ltb_spec n (2 ^ 8)); [apply dec_u8; unfold in_u; lia|].
  destruct (Z.ltb_spec n (2 ^ 16)); [apply dec_u16; unfold in_u; lia|].
  destruct (Z.ltb_spec n (2 ^ 32)); [apply dec_u32; unfold in_u; lia|].
  apply dec_u64; unfold in_u; lia.
Qed.
Lemma dec_int f n rest : in_s 64 n ->
  decode buf_rd (S f) (fmt_int n ++ rest) = DOk (VInt 0 (narrow_s n) n) rest.
Proof.
  intros H. unfold fmt_int, narrow_s, in_s in *.
  destruct ((- 2 ^ 7 <? n) && (n <? 2 ^ 7)) eqn:E1; [apply dec_i8; unfold in_s; lia|].
  destruct ((- 2 ^ 15 <? n) && (n <? 2 ^ 15)) eqn:E2; [apply dec_i16; unfold in_s; lia|].
  destruct ((- 2 ^ 31 <? n) && (n <? 2 ^ 31)) eqn:E3; [apply dec_i32; unfold in_s; lia|].
  apply dec_i64; unfold in_s; lia.
Qed.

Lemma dec_f64 f b rest : in_u 64 b ->
  decode buf_rd (S (S f)) (fmt_f64 b ++ rest) = if b <? 2 ^ 32 then DPanic else DOk (VF64 0 b) rest.
Proof.
  intros H. unfold fmt_f64. tag. rewrite dec_uint by exact H. cbn [dbind]. unfold narrow_u.
  destruct (Z.ltb_spec b (2 ^ 8)); [replace (b <? 2 ^ 32) with true by lia; reflexivity|].
  destruct (Z.ltb_spec b (2 ^ 16)); [replace (b <? 2 ^ 32) with true by lia; reflexivity|].
  destruct (Z.ltb_spec b (2 ^ 32)); reflexivity.
Qed.
Lemma dec_f32 f b rest : in_u 32 b ->
  decode buf_rd (S (S f)) (fmt_f32 b ++ rest) = if b <? 2 ^ 16 then DPanic else DOk (VF32 0 b) rest.
Proof.
  intros H. unfold in_u in H. unfold fmt_f32. tag. rewrite dec_uint by (unfold in_u; lia). cbn [dbind]. unfold narrow_u.
  destruct (Z.ltb_spec b (2 ^ 8)); [replace (b <? 2 ^ 16) with true by lia; reflexivity|].
  destruct (Z.ltb_spec b (2 ^ 16)); [reflexivity|].
  destruct (Z.ltb_spec b (2 ^ 32)); [reflexivity|lia].
Qed.
Lemma dec_str f s rest : small_len s = true ->
  decode buf_rd (S f) (fmt_len 0xdb (length s) ++ s ++ rest) = DOk (VStr 0 s) rest.
Proof.
  intros Hl. unfold small_len in Hl. unfold fmt_len. tag.
  rewrite readU32_be, uwrap_id by (unfold in_u; lia). cbn [dbind].
  destruct (Z.eqb_spec (Z.of_nat (length s)) 0) as [E|E].
  - destruct s; [reflexivity|cbn in E; lia].
  - rewrite buf_rd_app by lia. rewrite Z.sub_diag. cbn [repeat Z.to_nat]. rewrite app_nil_r. reflexivity.
Qed.
