(* Lemmas about the codec model. *)
From Verif Require Import GoInt GoFloat GoVal CodecModel CodecSpec.
From Coq Require Import ZifyBool ZifyNat.
Ltac Zify.zify_post_hook ::= idtac.

(* ------------------------------------------------------------------ *)
(* Bytes *)
Lemma be1 v : be_bytes 1 v = [byte_of v].
Proof. cbn [be_bytes Z.of_nat]. rewrite Z.pow_0_r, Z.div_1_r. reflexivity. Qed.
Lemma be2 v : be_bytes 2 v = [byte_of (Z.shiftr v 8); byte_of v].
Proof.
  rewrite shiftr_byte by lia. change (be_bytes 2 v) with ((v / 2 ^ 8) mod 256 :: be_bytes 1 v).
  rewrite be1. reflexivity.
Qed.
Lemma be4 v : be_bytes 4 v =
  [byte_of (Z.shiftr v 24); byte_of (Z.shiftr v 16); byte_of (Z.shiftr v 8); byte_of v].
Proof.
  rewrite (shiftr_byte v 24), (shiftr_byte v 16) by lia.
  change (be_bytes 4 v) with ((v / 2 ^ 24) mod 256 :: (v / 2 ^ 16) mod 256 :: be_bytes 2 v).
  rewrite be2. reflexivity.
Qed.
Lemma be8 v : be_bytes 8 v =
  [byte_of (Z.shiftr v 56); byte_of (Z.shiftr v 48); byte_of (Z.shiftr v 40); byte_of (Z.shiftr v 32);
   byte_of (Z.shiftr v 24); byte_of (Z.shiftr v 16); byte_of (Z.shiftr v 8); byte_of v].
Proof.
  rewrite (shiftr_byte v 56), (shiftr_byte v 48), (shiftr_byte v 40), (shiftr_byte v 32) by lia.
  change (be_bytes 8 v) with ((v / 2 ^ 56) mod 256 :: (v / 2 ^ 48) mod 256 ::
     (v / 2 ^ 40) mod 256 :: (v / 2 ^ 32) mod 256 :: be_bytes 4 v).
  rewrite be4. reflexivity.
Qed.

Lemma byte_shiftr_uwrap v k w : 0 <= k -> k + 8 <= w ->
  byte_of (Z.shiftr (uwrap w v) k) = byte_of (Z.shiftr v k).
Proof.
  intros Hk Hw. rewrite !shiftr_byte by lia. unfold uwrap.
  assert (H2 : 2 ^ w = 2 ^ k * 2 ^ (w - k)) by (rewrite <- Z.pow_add_r by lia; f_equal; lia).
  assert (0 < 2 ^ k) by (apply Z.pow_pos_nonneg; lia).
  assert (0 < 2 ^ (w - k)) by (apply Z.pow_pos_nonneg; lia).
  rewrite H2. rewrite Z.rem_mul_r by lia.
  rewrite (Z.mul_comm (2 ^ k)), Z.div_add by lia.
  rewrite (Z.div_small (v mod 2 ^ k)) by (apply Z.mod_pos_bound; lia). rewrite Z.add_0_l.
  assert (H3 : 2 ^ (w - k) = 256 * 2 ^ (w - k - 8)).
  { change 256 with (2 ^ 8). rewrite <- Z.pow_add_r by lia. f_equal; lia. }
  assert (0 < 2 ^ (w - k - 8)) by (apply Z.pow_pos_nonneg; lia).
  rewrite H3. rewrite Z.rem_mul_r by lia.
  rewrite Z.mul_comm, Z.mod_add by lia. apply Z.mod_mod. lia.
Qed.

(* ------------------------------------------------------------------ *)
(* Encoding into a buffer *)
Lemma write_buf bs w : write buf_wr bs w = (None, w ++ bs).
Proof. reflexivity. Qed.

Lemma consts : cUint8Max = 2 ^ 8 /\ cUint16Max = 2 ^ 16 /\ cUint32Max = 2 ^ 32 /\
  cInt8Max = 2 ^ 7 /\ cInt8Min = - 2 ^ 7 /\ cInt16Max = 2 ^ 15 /\ cInt16Min = - 2 ^ 15 /\
  cInt32Max = 2 ^ 31 /\ cInt32Min = - 2 ^ 31.
Proof. repeat split. Qed.

Lemma uwrap_uwrap a b v : 0 <= a <= b -> uwrap a (uwrap b v) = uwrap a v.
Proof.
  intros H. unfold uwrap.
  replace (2 ^ b) with (2 ^ a * 2 ^ (b - a)) by (rewrite <- Z.pow_add_r by lia; f_equal; lia).
  assert (0 < 2 ^ a) by (apply Z.pow_pos_nonneg; lia).
  assert (0 < 2 ^ (b - a)) by (apply Z.pow_pos_nonneg; lia).
  rewrite Z.rem_mul_r by lia. rewrite Z.mul_comm, Z.mod_add by lia. apply Z.mod_mod; lia.
Qed.

Lemma enc_uint8 n w : encodeUint8 buf_wr n w = (None, w ++ 0xcc :: be_bytes 1 n).
Proof. unfold encodeUint8. rewrite write_buf, be1. reflexivity. Qed.

Lemma enc_uint16 n w : in_u 16 n -> encodeUint16 buf_wr n w = (None, w ++ fmt_uint n).
Proof.
  unfold in_u, encodeUint16, fmt_uint. intros H. change cUint8Max with (2 ^ 8).
  destruct (Z.ltb_spec n (2 ^ 8)).
  - rewrite enc_uint8, uwrap_id by (unfold in_u; lia). reflexivity.
  - destruct (Z.ltb_spec n (2 ^ 16)); [|lia]. rewrite write_buf, be2. reflexivity.
Qed.
Lemma enc_uint32 n w : in_u 32 n -> encodeUint32 buf_wr n w = (None, w ++ fmt_uint n).
Proof.
  unfold in_u, encodeUint32. intros H. change cUint16Max with (2 ^ 16).
  destruct (Z.ltb_spec n (2 ^ 16)).
  - rewrite uwrap_id by (unfold in_u; lia). apply enc_uint16. unfold in_u; lia.
  - rewrite write_buf. unfold fmt_uint.
    destruct (Z.ltb_spec n (2 ^ 8)); [lia|]. destruct (Z.ltb_spec n (2 ^ 16)); [lia|].
    destruct (Z.ltb_spec n (2 ^ 32)); [|lia]. rewrite be4. reflexivity.
Qed.
Lemma enc_uint64 n w : in_u 64 n -> encodeUint64 buf_wr n w = (None, w ++ fmt_uint n).
Proof.
  unfold in_u, encodeUint64. intros H. change cUint32Max with (2 ^ 32).
  destruct (Z.ltb_spec n (2 ^ 32)).
  - rewrite uwrap_id by (unfold in_u; lia). apply enc_uint32. unfold in_u; lia.
  - rewrite write_buf. unfold fmt_uint.
    destruct (Z.ltb_spec n (2 ^ 8)); [lia|]. destruct (Z.ltb_spec n (2 ^ 16)); [lia|].
    destruct (Z.ltb_spec n (2 ^ 32)); [lia|]. rewrite be8. reflexivity.
Qed.

Lemma enc_int8 z w : encodeInt8 buf_wr z w = (None, w ++ 0xd0 :: be_bytes 1 z).
Proof. unfold encodeInt8. rewrite write_buf, be1. reflexivity. Qed.

Definition fmt_int16 (z : Z) : list Z :=
  if (- 2 ^ 7 <? z) && (z <? 2 ^ 7) then 0xd0 :: be_bytes 1 z else 0xd1 :: be_bytes 2 z.
Definition fmt_int32 (z : Z) : list Z :=
  if (- 2 ^ 15 <? z) && (z <? 2 ^ 15) then fmt_int16 z else 0xd2 :: be_bytes 4 z.

Lemma enc_int16 z w : in_s 16 z -> encodeInt16 buf_wr z w = (None, w ++ fmt_int16 z).
Proof.
  unfold in_s, encodeInt16, fmt_int16. intros H.
  change cInt8Min with (- 2 ^ 7). change cInt8Max with (2 ^ 7).
  destruct ((- 2 ^ 7 <? z) && (z <? 2 ^ 7)) eqn:E.
  - rewrite swrap_id by (unfold in_s; lia). apply enc_int8.
  - rewrite write_buf, be2. rewrite byte_shiftr_uwrap by lia. reflexivity.
Qed.
Lemma enc_int32 z w : in_s 32 z -> encodeInt32 buf_wr z w = (None, w ++ fmt_int32 z).
Proof.
  unfold in_s, encodeInt32, fmt_int32. intros H.
  change cInt16Min with (- 2 ^ 15). change cInt16Max with (2 ^ 15).
  destruct ((- 2 ^ 15 <? z) && (z <? 2 ^ 15)) eqn:E.
  - rewrite swrap_id by (unfold in_s; lia). apply enc_int16. unfold in_s; lia.
  - rewrite write_buf, be4. rewrite !byte_shiftr_uwrap by lia. reflexivity.
Qed.
Lemma enc_int64 z w : in_s 64 z -> encodeInt64 buf_wr z w = (None, w ++ fmt_int z).
Proof.
  unfold in_s, encodeInt64. intros H.
  change cInt32Min with (- 2 ^ 31). change cInt32Max with (2 ^ 31).
  destruct ((- 2 ^ 31 <? z) && (z <? 2 ^ 31)) eqn:E.
  - rewrite swrap_id by (unfold in_s; lia). rewrite enc_int32 by (unfold in_s; lia).
    unfold fmt_int32, fmt_int, fmt_int16. rewrite E.
    destruct ((- 2 ^ 15 <? z) && (z <? 2 ^ 15)) eqn:E1; [reflexivity|].
    replace ((- 2 ^ 7 <? z) && (z <? 2 ^ 7)) with false by lia. reflexivity.
  - rewrite write_buf. unfold fmt_int. rewrite E.
    replace ((- 2 ^ 7 <? z) && (z <? 2 ^ 7)) with false by lia.
    replace ((- 2 ^ 15 <? z) && (z <? 2 ^ 15)) with false by lia.
    rewrite be8. rewrite !byte_shiftr_uwrap by lia. reflexivity.
Qed.

Lemma fmt_int32_spec z : in_s 32 z ->
  fmt_int32 z = if z =? - 2 ^ 31 then 0xd2 :: be_bytes 4 z else fmt_int z.
Proof.
  unfold in_s, fmt_int32, fmt_int, fmt_int16. intros H.
  destruct ((- 2 ^ 15 <? z) && (z <? 2 ^ 15)) eqn:E1.
  - destruct (Z.eqb_spec z (- 2 ^ 31)); [lia|]. destruct ((- 2 ^ 7 <? z) && (z <? 2 ^ 7)); reflexivity.
  - destruct (Z.eqb_spec z (- 2 ^ 31)); [reflexivity|].
    replace ((- 2 ^ 7 <? z) && (z <? 2 ^ 7)) with false by lia.
    replace ((- 2 ^ 31 <? z) && (z <? 2 ^ 31)) with true by lia. reflexivity.
Qed.

Lemma enc_header c n : header c (Z.of_nat n) = fmt_len c n.
Proof. unfold header, fmt_len. rewrite be4. reflexivity. Qed.

Lemma enc_string s w : encodeString buf_wr s w = (None, w ++ fmt_len 0xdb (length s) ++ s).
Proof.
  unfold encodeString. rewrite write_buf, enc_header. cbn [andThen].
  rewrite write_buf, <- app_assoc. reflexivity.
Qed.

Lemma enc_f64 b w : in_u 64 b -> encodeFloat64 buf_wr b w = (None, w ++ fmt_f64 b).
Proof.
  intros H. unfold encodeFloat64, buf_wr at 1. rewrite enc_uint64 by exact H.
  rewrite <- app_assoc. reflexivity.
Qed.
Lemma enc_f32 b w : in_u 32 b -> encodeFloat32 buf_wr b w = (None, w ++ fmt_f32 b).
Proof.
  intros H. unfold encodeFloat32, buf_wr at 1. rewrite enc_uint32 by exact H.
  rewrite <- app_assoc. reflexivity.
Qed.

Lemma in_u_mono a b n : 0 <= a <= b -> in_u a n -> in_u b n.
Proof.
  unfold in_u. intros H Hn. assert (2 ^ a <= 2 ^ b) by (apply Z.pow_le_mono_r; lia). lia.
Qed.
Lemma in_s_mono a b n : 0 < a <= b -> in_s a n -> in_s b n.
Proof.
  unfold in_s. intros H Hn. assert (2 ^ (a - 1) <= 2 ^ (b - 1)) by (apply Z.pow_le_mono_r; lia). lia.
Qed.
Lemma ubits_range ws k n : in_u (ubits ws k) n -> in_u 64 n.
Proof. destruct ws, k; apply in_u_mono; cbn; lia. Qed.
Lemma ibits_range ws k n : in_s (ibits ws k) n -> in_s 64 n.
Proof. destruct ws, k; apply in_s_mono; cbn; lia. Qed.

Lemma enc_value ws v : go_value ws v = true -> supported v = true ->
  forall w, encodeValue buf_wr v w = (None, w ++ fmt v).
Proof.
  induction v as [|t b|t b|t b|t k n|t k z|t s|k l IH|i l IH|h i] using gval_rect';
    cbn [go_value supported fmt encodeValue]; intros Hg Hs w.
  - reflexivity.
  - destruct b; reflexivity.
  - apply enc_f64. apply f32_widen_range. apply in_ub_iff; exact Hg.
  - apply enc_f64. apply in_ub_iff; exact Hg.
  - apply enc_uint64. apply in_ub_iff in Hg. eapply ubits_range; eauto.
  - apply enc_int64. apply in_sb_iff in Hg. eapply ibits_range; eauto.
  - apply enc_string.
  - rewrite write_buf, enc_header. cbn [andThen].
    apply andb_prop in Hg as [Hg _].
    change cArr32 with 0xdd. rewrite (app_assoc w). generalize (w ++ fmt_len 0xdd (length l)).
    clear w. revert Hg Hs. induction IH as [|x r Hx Hr IHr]; cbn [forallb flat_map]; intros Hg Hs w.
    + rewrite app_nil_r. reflexivity.
    + apply andb_prop in Hg as [Hg1 Hg2]. apply andb_prop in Hs as [Hs1 Hs2].
      rewrite Hx by assumption. cbn [andThen]. rewrite IHr by assumption.
      rewrite <- app_assoc. reflexivity.
  - rewrite write_buf, enc_header. cbn [andThen].
    apply andb_prop in Hg as [Hg _].
    change cMap32 with 0xdf. rewrite (app_assoc w). generalize (w ++ fmt_len 0xdf (length l)).
    clear w. revert Hg Hs. induction IH as [|[k x] r [Hk Hx] Hr IHr]; cbn [forallb flat_map fst snd]; intros Hg Hs w.
    + rewrite app_nil_r. reflexivity.
    + cbn [fst snd] in *.
      apply andb_prop in Hg as [Hg1 Hg2]. apply andb_prop in Hs as [Hs1 Hs2].
      apply andb_prop in Hg1 as [Hgk Hgx]. apply andb_prop in Hs1 as [Hsk Hsx].
      rewrite Hk by assumption. cbn [andThen].
      destruct (key_eqb k k); cbn [negb orb] in Hsx.
      * rewrite Hx by assumption. cbn [andThen]. rewrite IHr by assumption.
        rewrite <- !app_assoc. reflexivity.
      * unfold encodeNil. rewrite write_buf. cbn [andThen]. rewrite IHr by assumption.
        rewrite <- !app_assoc. reflexivity.
  - discriminate.
Qed.

Lemma enc_top ws v : go_value ws v = true -> supported v = true ->
  forall w, encode buf_wr ws v w = (None, w ++ fmt_top_ws ws v).
Proof.
  intros Hg Hs w.
  destruct v as [|t b|t b|t b|t k n|t k z|t s|k l|i l|h i].
  - destruct ws; reflexivity.
  - unfold encode. destruct (Z.eqb_spec t 0); destruct b, ws; reflexivity.
  - unfold encode. destruct (Z.eqb_spec t 0) as [->|Hne].
    + rewrite enc_f32 by (apply in_ub_iff; exact Hg). destruct ws; reflexivity.
    + rewrite enc_value with (ws := ws) by assumption. destruct ws, t; try lia; reflexivity.
  - unfold encode. destruct (Z.eqb_spec t 0) as [->|Hne].
    + rewrite enc_f64 by (apply in_ub_iff; exact Hg). destruct ws; reflexivity.
    + rewrite enc_value with (ws := ws) by assumption. destruct ws; reflexivity.
  - assert (F : fmt_top_ws ws (VUint t k n) = fmt_uint n) by (destruct ws; reflexivity).
    rewrite F. unfold encode. destruct (Z.eqb_spec t 0) as [->|Hne].
    + cbn [go_value] in Hg. apply in_ub_iff in Hg.
      destruct k; cbn [ubits] in Hg.
      * rewrite enc_uint8. unfold fmt_uint, in_u in *.
        destruct (Z.ltb_spec n (2 ^ 8)); [reflexivity|lia].
      * apply enc_uint16; exact Hg.
      * apply enc_uint32; exact Hg.
      * apply enc_uint64; exact Hg.
      * destruct ws; cbn [encodeUint wbits] in *; [apply enc_uint32|apply enc_uint64]; exact Hg.
      * cbn [encodeValue]. apply enc_uint64. destruct ws; cbn in Hg; [eapply in_u_mono; [|exact Hg]; lia|exact Hg].
    + rewrite enc_value with (ws := ws) by assumption. reflexivity.
  - unfold encode. destruct (Z.eqb_spec t 0) as [->|Hne].
    + cbn [go_value] in Hg. apply in_sb_iff in Hg.
      destruct k; cbn [ibits] in Hg.
      * rewrite enc_int8. destruct ws; reflexivity.
      * rewrite enc_int16 by exact Hg. destruct ws; reflexivity.
      * rewrite enc_int32, fmt_int32_spec by exact Hg. destruct ws; reflexivity.
      * rewrite enc_int64 by exact Hg. destruct ws; reflexivity.
      * destruct ws; cbn [encodeInt wbits] in *.
        -- rewrite enc_int32, fmt_int32_spec by exact Hg. reflexivity.
        -- rewrite enc_int64 by exact Hg. reflexivity.
    + rewrite enc_value with (ws := ws) by assumption. destruct ws, t; try lia; reflexivity.
  - unfold encode. destruct (Z.eqb_spec t 0) as [->|Hne].
    + rewrite enc_string. destruct ws; reflexivity.
    + rewrite enc_value with (ws := ws) by assumption. destruct ws; reflexivity.
  - unfold encode. rewrite enc_value with (ws := ws) by assumption. destruct ws; reflexivity.
  - unfold encode. rewrite enc_value with (ws := ws) by assumption. destruct ws; reflexivity.
  - discriminate.
Qed.
