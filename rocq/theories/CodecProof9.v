(* Codec lemmas at the level of IAny, second part. *)
From Verif Require Import GoInt GoFloat GoVal CodecModel CodecSpec CodecApi CodecProof CodecProof2 CodecProof3 CodecProof4
  CodecProof5 CodecProof6 CodecProof7 CodecProof8.
From Coq Require Import ZifyBool ZifyNat.
Ltac Zify.zify_post_hook ::= idtac.

(* --- C06 --- *)
Lemma decode_progress a b :
  match any_decode a b with
  | DecOk _ r | DecErr _ r => exists p, b = p ++ r /\ (b <> [] -> p <> [])
  | DecPanic => True
  | DecFuel => False
  end.
Proof.
  unfold any_decode. destruct b as [|x b].
  - pose proof (bdecode_good []) as H. destruct (bdecode []); cbn in *; try contradiction; try exact Logic.I;
      destruct H as [_ [p E]]; exists p; split; congruence.
  - pose proof (bdecode_tag x b) as H. destruct (bdecode (x :: b)); cbn in *; try contradiction; try exact Logic.I;
      destruct H as [_ [p ->]]; exists (x :: p); split; try reflexivity; discriminate.
Qed.
Lemma decode_universe a b a' r : bytes_ok b -> any_decode a b = DecOk a' r ->
  wire_universe (acc_Any a') = true /\ a' = NewAny (acc_Any a').
Proof.
  intros Hb E. unfold any_decode in E. destruct (bdecode b) as [v r'|v r'| |] eqn:Eb; cbn in E; try discriminate.
  pose proof (bdecode_uni b v r' Hb Eb) as Hu. rewrite normalize_fresh in E by exact Hu. injection E as <- <-. auto.
Qed.

(* --- C07 --- *)
Lemma cut_at_boundary ws v a p q : go_value ws v = true -> safe_top v = true ->
  pieces_top ws v = p ++ q -> q <> [] -> exists a' r, any_decode a (concat p) = DecErr a' r.
Proof.
  intros Hg Hs E Hq. pose proof (safe_top_supported v Hs) as Hsup.
  destruct (cut_ok ws v p q Hg Hsup E Hq) as [(d & r & H)|[_ H]].
  - unfold any_decode. rewrite H. cbn. eauto.
  - destruct (safe_top_crosses ws v Hg Hs) as (v' & E' & _). congruence.
Qed.
Lemma cut_uint_api ws t n c a : in_u (wbits ws) n -> (0 < c < uwidth (narrow_u n))%nat ->
  exists bs, encoded ws (VUint t UInt n) bs /\
    any_decode a (firstn (S c) bs) =
    DecOk (NewAny (VUint 0 (narrow_u n) (n - n mod 256 ^ Z.of_nat (uwidth (narrow_u n) - c)))) [].
Proof.
  intros Hn Hc. exists (fmt_uint n). split.
  - unfold encoded. rewrite api_encode; [|apply in_ub_iff; exact Hn|reflexivity]. destruct ws; reflexivity.
  - assert (H64 : in_u 64 n) by (apply (ubits_range ws UInt); exact Hn).
    unfold any_decode. rewrite (cut_uint_value n c H64 Hc). cbn [any_decode_with].
    unfold NewAny, normalize. cbn [a_s a_tp]. change (0 =? 0) with true. cbn iota.
    assert (narrow_u n <> UInt /\ narrow_u n <> UPtr) as [? ?]
      by (unfold narrow_u; repeat destruct (_ <? _); split; discriminate).
    destruct (narrow_u n); try congruence; reflexivity.
Qed.
Lemma cut_int_api t z c a : in_s 64 z -> (0 < c < iwidth (narrow_s z))%nat ->
  exists bs, encoded W64 (VInt t IInt z) bs /\
    any_decode a (firstn (S c) bs) =
    DecOk (NewAny (VInt 0 (narrow_s z) (z - z mod 256 ^ Z.of_nat (iwidth (narrow_s z) - c)))) [].
Proof.
  intros Hn Hc. exists (fmt_int z). split.
  - unfold encoded. rewrite api_encode; [|apply in_sb_iff; exact Hn|reflexivity]. destruct t; reflexivity.
  - unfold any_decode. rewrite (cut_int_value z c Hn Hc). cbn [any_decode_with].
    unfold NewAny, normalize. cbn [a_s a_tp]. change (0 =? 0) with true. cbn iota.
    assert (narrow_s z <> IInt) by (unfold narrow_s; repeat destruct (_ && _); discriminate).
    destruct (narrow_s z); try congruence; reflexivity.
Qed.
Lemma cut_str_api ws t s c a : bytes_ok s -> small_len s = true -> (0 < c <= length s)%nat ->
  exists bs, encoded ws (VStr t s) bs /\
    any_decode a (firstn (5 + c) bs) = DecOk (NewAny (VStr 0 (firstn c s ++ repeat 0 (length s - c)))) [].
Proof.
  intros Hs Hl Hc. exists (fmt_len 0xdb (length s) ++ s). split.
  - unfold encoded. rewrite api_encode; [destruct ws; reflexivity| |reflexivity].
    cbn. rewrite Hl, andb_true_r. apply forallb_forall. intros x Hx. apply in_ub_iff.
    exact (proj1 (Forall_forall _ _) Hs x Hx).
  - unfold any_decode. rewrite cut_str_value by assumption. reflexivity.
Qed.

(* --- C08 --- *)
Lemma unknown_tag a t b : ~ In t known_tags -> any_decode a (t :: b) = DecErr (mkAny VNil (a_tp a)) b.
Proof.
  intros H. unfold any_decode, bdecode, buf_fuel. rewrite decode_S, readByte_buf. cbn [dbind].
  assert (Ht : forall c, In c known_tags -> (t =? c) = false).
  { intros c Hc. destruct (Z.eqb_spec t c); [|reflexivity]. subst. contradiction. }
  repeat match goal with |- context [t =? ?c] => rewrite (Ht c) by (cbn; tauto) end. reflexivity.
Qed.
Lemma no_tag a : any_decode a [] = DecErr (mkAny VNil (a_tp a)) [].
Proof. reflexivity. Qed.

(* --- C09 --- *)
Lemma encode_error_iff ws v w :
  (exists e w', any_encode buf_wr ws (NewAny v) w = (Some e, w')) <-> supported v = false.
Proof.
  unfold any_encode. change (a_s (NewAny v)) with v. pose proof (encode_err ws v w) as H.
  destruct (encode buf_wr ws v w) as [o w'] eqn:E. cbn [fst] in H. subst o. destruct (supported v); split.
  - intros (e & w1 & H). discriminate.
  - discriminate.
  - reflexivity.
  - intros _. eauto.
Qed.

(* --- C10 --- *)

Lemma be_len n v : length (be_bytes n v) = n.
Proof. apply be_bytes_length. Qed.
Lemma fmt_uint_size n : length (fmt_uint n) = usize n.
Proof. unfold fmt_uint, usize. repeat destruct (_ <? _); cbn [length]; rewrite be_len; reflexivity. Qed.
Lemma abs_lt z b : (Z.abs z <? b) = ((- b <? z) && (z <? b)).
Proof. lia. Qed.
Lemma fmt_int_size z : length (fmt_int z) = isize z.
Proof.
  unfold fmt_int, isize. rewrite !abs_lt.
  repeat match goal with |- context [if ?c then _ else _] => destruct c end; cbn [length]; rewrite be_len; reflexivity.
Qed.

Lemma uint_wire_size ws t k n bs : in_u (ubits ws k) n -> encoded ws (VUint t k n) bs -> length bs = usize n.
Proof.
  intros Hn E. apply encoded_fmt in E; [|apply in_ub_iff; exact Hn|reflexivity]. subst.
  replace (fmt_top_ws ws (VUint t k n)) with (fmt_uint n) by (destruct ws; reflexivity). apply fmt_uint_size.
Qed.
Lemma int_wire_size ws t k z bs : in_s (ibits ws k) z -> encoded ws (VInt t k z) bs ->
  (t <> 0 -> length bs = isize z) /\ (t = 0 -> length bs = Nat.min (isize z) (own_size ws k)).
Proof.
  intros Hn E. apply encoded_fmt in E; [|apply in_sb_iff; exact Hn|reflexivity]. subst.
  pose proof (fmt_int_size z) as Hf. split.
  - intros Ht. replace (fmt_top_ws ws (VInt t k z)) with (fmt_int z); [exact Hf|].
    destruct t; [congruence| |]; destruct ws; reflexivity.
  - intros ->.
    assert (H32 : in_s 32 z -> length (if z =? - 2 ^ 31 then 0xd2 :: be_bytes 4 z else fmt_int z) = Nat.min (isize z) 5).
    { intros H. unfold in_s in H. destruct (Z.eqb_spec z (- 2 ^ 31)) as [->|].
      - cbn [length]. rewrite be_len. reflexivity.
      - rewrite Hf. unfold isize. rewrite !abs_lt. replace ((- 2 ^ 31 <? z) && (z <? 2 ^ 31)) with true by lia.
        repeat match goal with |- context [if ?c then _ else _] => destruct c end; reflexivity. }
    destruct k; cbn [ibits] in Hn.
    + replace (fmt_top_ws ws (VInt 0 I8 z)) with (0xd0 :: be_bytes 1 z) by (destruct ws; reflexivity).
      cbn [length]. rewrite be_len. unfold own_size, isize. change (Z.to_nat (ibits ws I8 / 8)) with 1%nat.
      repeat match goal with |- context [if ?c then _ else _] => destruct c end; reflexivity.
    + replace (fmt_top_ws ws (VInt 0 I16 z)) with
        (if (- 2 ^ 7 <? z) && (z <? 2 ^ 7) then 0xd0 :: be_bytes 1 z else 0xd1 :: be_bytes 2 z) by (destruct ws; reflexivity).
      unfold own_size, isize. rewrite !abs_lt. change (Z.to_nat (ibits ws I16 / 8)) with 2%nat.
      repeat match goal with |- context [if ?c then _ else _] => destruct c end; cbn [length]; rewrite be_len; reflexivity.
    + replace (fmt_top_ws ws (VInt 0 I32 z)) with (if z =? - 2 ^ 31 then 0xd2 :: be_bytes 4 z else fmt_int z)
        by (destruct ws; reflexivity).
      rewrite H32 by exact Hn. reflexivity.
    + replace (fmt_top_ws ws (VInt 0 I64 z)) with (fmt_int z) by (destruct ws; reflexivity).
      rewrite Hf. unfold own_size, isize. change (Z.to_nat (ibits ws I64 / 8)) with 8%nat.
      repeat match goal with |- context [if ?c then _ else _] => destruct c end; reflexivity.
    + destruct ws.
      * change (fmt_top_ws W32 (VInt 0 IInt z)) with (if z =? - 2 ^ 31 then 0xd2 :: be_bytes 4 z else fmt_int z).
        rewrite H32 by exact Hn. reflexivity.
      * change (fmt_top_ws W64 (VInt 0 IInt z)) with (fmt_int z).
        rewrite Hf. unfold own_size, isize. change (Z.to_nat (ibits W64 IInt / 8)) with 8%nat.
        repeat match goal with |- context [if ?c then _ else _] => destruct c end; reflexivity.
Qed.

Lemma fmt_uint_inj m n : in_u 64 m -> in_u 64 n -> fmt_uint m = fmt_uint n -> m = n.
Proof.
  intros Hm Hn E.
  pose proof (dec_uint 0 m [] Hm) as H1. pose proof (dec_uint 0 n [] Hn) as H2. rewrite E in H1. congruence.
Qed.
Lemma fmt_int_inj m n : in_s 64 m -> in_s 64 n -> fmt_int m = fmt_int n -> m = n.
Proof.
  intros Hm Hn E.
  pose proof (dec_int 0 m [] Hm) as H1. pose proof (dec_int 0 n [] Hn) as H2. rewrite E in H1. congruence.
Qed.
Lemma elt_enc ws v bs : go_value ws v = true -> supported v = true -> encoded ws (VArr ASliceIface [v]) bs ->
  bs = 0xdd :: be_bytes 4 1 ++ fmt v.
Proof.
  intros Hg Hs E. apply encoded_fmt in E.
  - subst. replace (fmt_top_ws ws (VArr ASliceIface [v])) with (fmt (VArr ASliceIface [v])) by (destruct ws; reflexivity).
    cbn [fmt flat_map length]. rewrite app_nil_r. reflexivity.
  - cbn [go_value forallb]. rewrite Hg. reflexivity.
  - cbn [supported forallb]. rewrite Hs. reflexivity.
Qed.
Lemma tail_inj (x : Z) a b c : x :: a ++ b = x :: a ++ c -> b = c.
Proof. intros H. assert (a ++ b = a ++ c) by congruence. eapply app_inv_head; eassumption. Qed.
Lemma elt_uint ws t k n t' k' n' bs bs' : in_u (ubits ws k) n -> in_u (ubits ws k') n' ->
  encoded ws (VArr ASliceIface [VUint t k n]) bs -> encoded ws (VArr ASliceIface [VUint t' k' n']) bs' ->
  (bs = bs' <-> n = n').
Proof.
  intros H H' E E'. apply elt_enc in E; [|apply in_ub_iff; exact H|reflexivity].
  apply elt_enc in E'; [|apply in_ub_iff; exact H'|reflexivity]. subst. split; [|intros ->; reflexivity].
  intros X. apply tail_inj in X. apply fmt_uint_inj; [eapply ubits_range; eassumption|eapply ubits_range; eassumption|exact X].
Qed.
Lemma elt_int ws t k n t' k' n' bs bs' : in_s (ibits ws k) n -> in_s (ibits ws k') n' ->
  encoded ws (VArr ASliceIface [VInt t k n]) bs -> encoded ws (VArr ASliceIface [VInt t' k' n']) bs' ->
  (bs = bs' <-> n = n').
Proof.
  intros H H' E E'. apply elt_enc in E; [|apply in_sb_iff; exact H|reflexivity].
  apply elt_enc in E'; [|apply in_sb_iff; exact H'|reflexivity]. subst. split; [|intros ->; reflexivity].
  intros X. apply tail_inj in X. apply fmt_int_inj; [eapply ibits_range; eassumption|eapply ibits_range; eassumption|exact X].
Qed.

(* --- C11 --- *)
Lemma acc_int_any w k z : in_s (ibits W64 k) z -> k <> IInt -> acc_IntW w (NewAny (VInt 0 k z)) = AOk (swrap w z).
Proof. intros _ Hk. destruct k; try congruence; reflexivity. Qed.
Lemma acc_uint_any w k z : k <> UInt -> k <> UPtr -> acc_UintW w (NewAny (VUint 0 k z)) = AOk (uwrap w z).
Proof. intros Hk Hk2. destruct k; try congruence; reflexivity. Qed.

Lemma int_access ws c a b a' r t k z : bytes_ok b -> any_decode a b = DecOk a' r -> acc_Any a' = VInt t k z ->
  if signed_getter c then
    exists z', access ws c a' = AOk (VInt 0 (getter_ikind c) z') /\
      in_s (getter_width ws c) z' /\ z' mod 2 ^ getter_width ws c = z mod 2 ^ getter_width ws c /\
      (ibits W64 k <= getter_width ws c -> z' = z)
  else access ws c a' = AErr.
Proof.
  intros Hb E Ea. destruct (decode_universe a b a' r Hb E) as [Hu Hn]. rewrite Ea in Hu, Hn. subst a'.
  cbn in Hu. apply andb_true_iff in Hu as [Ht Hu]. apply Z.eqb_eq in Ht. subst t.
  assert (Hk : k <> IInt) by (destruct k; discriminate).
  assert (Hr : in_s (ibits W64 k) z) by (destruct k; try discriminate; apply in_sb_iff; exact Hu).
  destruct (signed_getter c) eqn:Hc.
  - exists (swrap (getter_width ws c) z).
    assert (Hw : 0 < getter_width ws c) by (destruct c; try discriminate; destruct ws; cbn; lia).
    split; [|split; [|split]].
    + destruct c; try discriminate; cbn [access getter_ikind getter_width];
        unfold acc_Int8, acc_Int16, acc_Int32, acc_Int64, acc_Int; rewrite acc_int_any by assumption; reflexivity.
    + apply swrap_range. lia.
    + apply swrap_congr. lia.
    + intros Hle. apply swrap_id; [lia|]. revert Hr. apply in_s_mono. split; [|exact Hle].
      destruct k; cbn; lia.
  - destruct k; try congruence; destruct c; try discriminate; reflexivity.
Qed.
Lemma uint_access ws c a b a' r t k z : bytes_ok b -> any_decode a b = DecOk a' r -> acc_Any a' = VUint t k z ->
  if unsigned_getter c then
    exists z', access ws c a' = AOk (VUint 0 (getter_ukind c) z') /\
      in_u (getter_width ws c) z' /\ z' mod 2 ^ getter_width ws c = z mod 2 ^ getter_width ws c /\
      (ubits W64 k <= getter_width ws c -> z' = z)
  else access ws c a' = AErr.
Proof.
  intros Hb E Ea. destruct (decode_universe a b a' r Hb E) as [Hu Hn]. rewrite Ea in Hu, Hn. subst a'.
  cbn in Hu. apply andb_true_iff in Hu as [Ht Hu]. apply Z.eqb_eq in Ht. subst t.
  assert (Hk : k <> UInt /\ k <> UPtr) by (destruct k; split; discriminate). destruct Hk as [Hk Hk2].
  assert (Hr : in_u (ubits W64 k) z) by (destruct k; try discriminate; apply in_ub_iff; exact Hu).
  destruct (unsigned_getter c) eqn:Hc.
  - exists (uwrap (getter_width ws c) z).
    assert (Hw : 0 < getter_width ws c) by (destruct c; try discriminate; destruct ws; cbn; lia).
    split; [|split; [|split]].
    + destruct c; try discriminate; cbn [access getter_ukind getter_width];
        unfold acc_Uint8, acc_Uint16, acc_Uint32, acc_Uint64, acc_Uint; rewrite acc_uint_any by assumption; reflexivity.
    + apply uwrap_range. lia.
    + unfold uwrap. apply Z.mod_mod. pose proof (Z.pow_pos_nonneg 2 (getter_width ws c)). lia.
    + intros Hle. apply uwrap_id. revert Hr. apply in_u_mono. split; [|exact Hle]. destruct k; cbn; lia.
  - destruct k; try congruence; destruct c; try discriminate; reflexivity.
Qed.

(* --- C12 --- *)
Lemma own_access ws v c : wire_universe v = true -> own_getter v = Some c -> access ws c (NewAny v) = AOk v.
Proof.
  destruct v as [|t b|t b|t b|t k n|t k z|t s|k l|i l|h i]; cbn [wire_universe own_getter]; intros H Hc;
    try discriminate; try injection Hc as <-.
  - apply Z.eqb_eq in H. subst. reflexivity.
  - apply andb_true_iff in H as [H _]. apply Z.eqb_eq in H. subst. reflexivity.
  - apply andb_true_iff in H as [H _]. apply Z.eqb_eq in H. subst. reflexivity.
  - apply andb_true_iff in H as [H Hr]. apply Z.eqb_eq in H. subst.
    destruct k; try discriminate; injection Hc as <-; apply in_ub_iff in Hr; cbn [access];
      unfold acc_Uint8, acc_Uint16, acc_Uint32, acc_Uint64; rewrite acc_uint_any by discriminate;
      rewrite uwrap_id by exact Hr; reflexivity.
  - apply andb_true_iff in H as [H Hr]. apply Z.eqb_eq in H. subst.
    destruct k; try discriminate; apply in_sb_iff in Hr; cbn [access int_getter];
      unfold acc_Int8, acc_Int16, acc_Int32, acc_Int64; (rewrite acc_int_any; [|exact Hr|discriminate]);
      (rewrite swrap_id; [reflexivity|lia|exact Hr]).
  - apply andb_true_iff in H as [H _]. apply Z.eqb_eq in H. subst. reflexivity.
  - apply andb_true_iff in H as [H _]. destruct k; try discriminate. reflexivity.
  - apply andb_true_iff in H as [H _]. subst. reflexivity.
Qed.

Lemma history_last a bs a' : decode_history a bs a' -> bs <> [] -> Forall bytes_ok bs ->
  wire_universe (acc_Any a') = true /\ a' = NewAny (acc_Any a').
Proof.
  induction 1 as [a|a b a1 r bs a2 E H IH]; intros Hne Hb; [congruence|].
  apply Forall_cons_iff in Hb as [Hb1 Hb]. destruct bs as [|b2 bs].
  - inversion H; subst. eapply decode_universe; eassumption.
  - apply IH; [discriminate|exact Hb].
Qed.
Lemma accessor_safe ws c a bs a' : decode_history a bs a' -> bs <> [] -> Forall bytes_ok bs ->
  access ws c a' <> APanic /\ (own_getter (acc_Any a') = Some c -> access ws c a' = AOk (acc_Any a')).
Proof.
  intros H Hne Hb. destruct (history_last _ _ _ H Hne Hb) as [Hu Hn]. rewrite Hn. split.
  - apply access_universe. exact Hu.
  - intros Hc. apply own_access; [exact Hu|]. rewrite <- Hc. reflexivity.
Qed.
Lemma amap_panic {A B} (f : A -> B) x : amap f x = APanic <-> x = APanic.
Proof. destruct x; cbn; split; congruence. Qed.
Lemma amap_err {A B} (f : A -> B) x : amap f x = AErr <-> x = AErr.
Proof. destruct x; cbn; split; congruence. Qed.
Lemma stale_access ws c a : access ws c (mkAny VNil (a_tp a)) = APanic <-> access ws c a <> AErr.
Proof.
  destruct a as [v tp]. cbn [a_tp].
  destruct c; cbn [access]; rewrite amap_panic, amap_err;
    unfold acc_Bool, acc_String, acc_Int, acc_Int8, acc_Int16, acc_Int32, acc_Int64, acc_Uint, acc_Uint8, acc_Uint16,
      acc_Uint32, acc_Uint64, acc_IntW, acc_UintW, acc_Float32, acc_Float64, acc_Arr, acc_Map; cbn [a_tp a_s];
    repeat match goal with |- context [if tp =? ?c then _ else _] => destruct (tp =? c) end;
    split; try congruence; intros _; repeat match goal with |- context [match ?x with _ => _ end] => destruct x end;
    congruence.
Qed.

(* --- C13 --- *)

Lemma new_native ws v c : go_value ws v = true -> any_native v = true -> own_getter v = Some c ->
  access ws c (NewAny v) = AOk v.
Proof.
  destruct v as [|t b|t b|t b|t k n|t k z|t s|k l|i l|h i]; cbn [any_native own_getter go_value]; intros Hr H Hc;
    try discriminate; try injection Hc as <-; try (apply Z.eqb_eq in H; subst; reflexivity).
  - apply andb_true_iff in H as [H Hk]. apply Z.eqb_eq in H. subst.
    destruct k; try discriminate; injection Hc as <-; apply in_ub_iff in Hr; cbn [access];
      unfold acc_Uint8, acc_Uint16, acc_Uint32, acc_Uint64; rewrite acc_uint_any by discriminate;
      rewrite uwrap_id by exact Hr; reflexivity.
  - apply andb_true_iff in H as [H Hk]. apply Z.eqb_eq in H. subst.
    destruct k; try discriminate; apply in_sb_iff in Hr; cbn [access int_getter];
      unfold acc_Int8, acc_Int16, acc_Int32, acc_Int64; (rewrite acc_int_any; [|exact Hr|discriminate]);
      (rewrite swrap_id; [reflexivity|lia|exact Hr]).
  - destruct k; try discriminate; reflexivity.
  - subst. reflexivity.
Qed.
Lemma new_foreign ws v c : any_native v = false -> scalar_value v = true -> access ws c (NewAny v) = AErr.
Proof.
  destruct v as [|t b|t b|t b|t k n|t k z|t s|k l|i l|h i]; cbn [any_native scalar_value]; intros H Hs;
    try discriminate; try (destruct c; reflexivity);
    try (unfold NewAny, normalize; cbn [a_s a_tp]; rewrite H; destruct c; reflexivity).
  - unfold NewAny, normalize; cbn [a_s a_tp]. destruct (t =? 0); [|destruct c; reflexivity].
    destruct k; try discriminate; destruct c; reflexivity.
  - unfold NewAny, normalize; cbn [a_s a_tp]. destruct (t =? 0); [|destruct c; reflexivity].
    destruct k; try discriminate; destruct c; reflexivity.
Qed.
Lemma new_container ws v c : any_native v = false -> scalar_value v = false -> own_getter v = Some c ->
  access ws c (NewAny v) = APanic.
Proof.
  destruct v as [|t b|t b|t b|t k n|t k z|t s|k l|i l|h i]; cbn [any_native scalar_value own_getter]; intros H Hs Hc;
    try discriminate; injection Hc as <-.
  - destruct k; try discriminate; reflexivity.
  - subst. reflexivity.
Qed.

(* --- C14 --- *)
Lemma universe_ws ws ws' v : wire_universe v = true -> fmt_top_ws ws' v = fmt_top_ws ws v.
Proof.
  destruct v as [|t b|t b|t b|t k n|t k z|t s|k l|i l|h i]; cbn [wire_universe]; intros H;
    try (destruct ws, ws'; reflexivity).
  apply andb_true_iff in H as [Ht H]. apply Z.eqb_eq in Ht. subst.
  destruct k; try discriminate; destruct ws, ws'; reflexivity.
Qed.
Lemma universe_go ws v : wire_universe v = true -> forall ws', go_value ws v = true -> go_value ws' v = true.
Proof.
  induction v as [|t b|t b|t b|t k n|t k z|t s|k l IH|i l IH|h i] using gval_rect';
    cbn [wire_universe go_value]; intros Hu ws' Hg; try exact Hg.
  - apply andb_true_iff in Hu as [_ Hu]. destruct k; try discriminate; exact Hg.
  - apply andb_true_iff in Hu as [_ Hu]. destruct k; try discriminate; exact Hg.
  - apply andb_true_iff in Hu as [_ Hu]. apply andb_true_iff in Hg as [Hg Hl]. rewrite Hl, andb_true_r.
    apply forallb_forall. intros x Hx. rewrite forallb_forall in Hu, Hg. rewrite Forall_forall in IH. apply IH; auto.
  - apply andb_true_iff in Hu as [_ Hu]. apply andb_true_iff in Hg as [Hg Hl]. rewrite Hl, andb_true_r.
    apply forallb_forall. intros x Hx. rewrite forallb_forall in Hu, Hg. rewrite Forall_forall in IH.
    specialize (Hu x Hx). specialize (Hg x Hx). destruct (IH x Hx) as [I1 I2].
    apply andb_true_iff in Hu as [Hu H3]. apply andb_true_iff in Hu as [H1 H2]. apply andb_true_iff in Hg as [H4 H5].
    rewrite I1, I2 by assumption. reflexivity.
Qed.
Lemma relay_stable ws v bs hops : go_value ws v = true -> safe_top v = true -> encoded ws v bs ->
  relay hops bs = Some bs.
Proof.
  intros Hg Hs E. pose proof (safe_top_supported v Hs) as Hsup. apply encoded_fmt in E; [|assumption|assumption]. subst bs.
  destruct (safe_top_crosses ws v Hg Hs) as (v' & Ew & _ & Ef & Hg' & Hs' & Hu).
  induction hops as [|ws' hops IH]; [reflexivity|]. cbn [relay].
  assert (E1 : relay1 ws' (fmt_top_ws ws v) = Some (fmt_top_ws ws v)).
  { unfold relay1. pose proof (api_decode ws v (NewAny VNil) [] v' Hg Hsup Ew Hu) as D. rewrite app_nil_r in D. rewrite D.
    rewrite api_encode; [|apply (universe_go ws); assumption|assumption]. cbn [app].
    rewrite (universe_ws ws ws' v' Hu), Ef. reflexivity. }
  rewrite E1. exact IH.
Qed.

(* --- C15 --- *)
Lemma chunks_api ws v a groups rest : go_value ws v = true -> safe_top v = true ->
  concat groups = pieces_top ws v -> Forall (fun g => g <> []) groups ->
  exists bs a', encoded ws v bs /\ any_decode a bs = DecOk a' [] /\
    any_decode_chunks a (map (@concat Z) groups ++ rest) = DecOk a' rest.
Proof.
  intros Hg Hs Hc Hn. pose proof (safe_top_supported v Hs) as Hsup.
  destruct (safe_top_crosses ws v Hg Hs) as (v' & Ew & _ & _ & _ & _ & Hu).
  exists (fmt_top_ws ws v), (NewAny v'). split; [|split].
  - unfold encoded. rewrite api_encode by assumption. reflexivity.
  - pose proof (api_decode ws v a [] v' Hg Hsup Ew Hu) as D. rewrite app_nil_r in D. exact D.
  - unfold any_decode_chunks. rewrite (chunks_ok ws v groups rest Hg Hsup Hc Hn), Ew. cbn [outc any_decode_with].
    rewrite normalize_fresh by exact Hu. reflexivity.
Qed.

(* --- C16 --- *)
Lemma flaky_api ws v w bs : go_value ws v = true -> supported v = true -> no_float v = true -> encoded ws v bs ->
  forall o w', any_encode flaky_wr ws (NewAny v) w = (o, w') ->
  match o with
  | None => received w' = received w ++ bs
  | Some _ => exists p q, bs = p ++ q /\ received w' = received w ++ p
  end.
Proof.
  intros Hg Hs Hn E o w' Ew. apply encoded_fmt in E; [|assumption|assumption]. subst bs.
  pose proof (wrote_top ws v Hg Hs Hn w) as H. unfold any_encode in Ew. change (a_s (NewAny v)) with v in Ew.
  rewrite Ew in H. destruct o as [e|], w' as [s out]; cbn in H; unfold received; cbn.
  - destruct H as [_ (p & t & E & ->)]. eauto.
  - apply H.
Qed.

(* --- C17 --- *)

Lemma map_put_hit m k v : forallb (fun kv => negb (key_eqb (fst kv) k)) m = false -> length (map_put m k v) = length m.
Proof.
  induction m as [|[k' v'] m IH]; cbn; [discriminate|]. intros H. destruct (key_eqb k' k); cbn in *; [reflexivity|].
  rewrite IH by exact H. reflexivity.
Qed.
Lemma map_put_len m k v : (length (map_put m k v) <= S (length m))%nat.
Proof. induction m as [|[k' v'] m IH]; cbn; [lia|]. destruct (key_eqb k' k); cbn; lia. Qed.
Lemma wire_entries_len l : forall m m', wire_entries l m = Some m' -> (length m' <= length m + length l)%nat.
Proof.
  induction l as [|[k x] l IH]; intros m m'; cbn [wire_entries].
  - intros E; injection E as <-. cbn. lia.
  - destruct (wire k) as [k'|]; [|discriminate]. destruct (if key_eqb k k then wire x else Some VNil) as [x'|]; [|discriminate].
    destruct (hashable k'); [|discriminate]. intros E. apply IH in E. pose proof (map_put_len m k' x'). cbn. lia.
Qed.
Lemma distinct_snoc l k : distinct_keys (l ++ [k]) = distinct_keys l && forallb (fun k' => negb (key_eqb k' k)) l.
Proof.
  induction l as [|x l IH]; cbn [app distinct_keys forallb]; [reflexivity|].
  rewrite forallb_app, IH. cbn [forallb]. destruct (negb (key_eqb x k)), (forallb (fun k' => negb (key_eqb x k')) l),
    (distinct_keys l), (forallb (fun k' => negb (key_eqb k' k)) l); reflexivity.
Qed.
Lemma forallb_fst (f : gval -> bool) (m : list (gval * gval)) : forallb (fun kv => f (fst kv)) m = forallb f (map fst m).
Proof. induction m; cbn; congruence. Qed.
Lemma distinct_app_head l r : distinct_keys (l ++ r) = true -> distinct_keys l = true.
Proof.
  induction l as [|x l IH]; cbn [app distinct_keys]; [reflexivity|]. rewrite forallb_app.
  intros H. apply andb_true_iff in H as [H1 H2]. apply andb_true_iff in H1 as [H1 _]. rewrite H1, IH by exact H2. reflexivity.
Qed.

Lemma wire_entries_iff l : forall m m', wire_entries l m = Some m' -> distinct_keys (map fst m) = true ->
  exists es, Forall2 entry_wire l es /\ Forall (fun e => hashable (fst e) = true) es /\
    (length m' = (length m + length l)%nat <-> distinct_keys (map fst (m ++ es)) = true) /\
    (distinct_keys (map fst (m ++ es)) = true -> m' = m ++ es).
Proof.
  induction l as [|[k x] l IH]; intros m m'; cbn [wire_entries].
  - intros E Hd; injection E as <-. exists []. rewrite app_nil_r. cbn. repeat split; auto.
  - destruct (wire k) as [k'|] eqn:Ek; [|discriminate].
    destruct (if key_eqb k k then wire x else Some VNil) as [x'|] eqn:Ex; [|discriminate].
    destruct (hashable k') eqn:Eh; [|discriminate]. intros E Hd.
    destruct (forallb (fun kv => negb (key_eqb (fst kv) k')) m) eqn:Hm.
    + rewrite map_put_new in E by exact Hm.
      destruct (IH _ _ E) as (es & H1 & H2 & H3 & H4).
      { rewrite map_app. cbn [map fst]. rewrite distinct_snoc, Hd.
        rewrite <- (forallb_fst (fun k0 => negb (key_eqb k0 k'))). exact Hm. }
      exists ((k', x') :: es). rewrite <- app_assoc in H3, H4. cbn [app] in H3, H4.
      split; [constructor; [split; assumption|assumption]|]. split; [constructor; assumption|]. split; [|exact H4].
      rewrite app_length in H3. cbn [length] in *. rewrite <- H3. lia.
    + assert (exists es, Forall2 entry_wire l es /\ Forall (fun e => hashable (fst e) = true) es) as (es & H1 & H2).
      { clear - E. revert E. generalize (map_put m k' x'). induction l as [|[k1 x1] l IH]; intros m0; cbn [wire_entries].
        - exists []. split; constructor.
        - destruct (wire k1) as [k2|] eqn:Ek; [|discriminate].
          destruct (if key_eqb k1 k1 then wire x1 else Some VNil) as [x2|] eqn:Ex; [|discriminate].
          destruct (hashable k2) eqn:Eh; [|discriminate]. intros E. destruct (IH _ E) as (es & H1 & H2).
          exists ((k2, x2) :: es). split; constructor; auto. split; assumption. }
      exists ((k', x') :: es). split; [constructor; [split; assumption|assumption]|]. split; [constructor; assumption|].
      assert (Hf : distinct_keys (map fst (m ++ (k', x') :: es)) = false).
      { destruct (distinct_keys (map fst (m ++ (k', x') :: es))) eqn:D; [|reflexivity]. exfalso.
        rewrite map_app in D. cbn [map fst] in D. replace (map fst m ++ k' :: map fst es) with ((map fst m ++ [k']) ++ map fst es) in D
          by (rewrite <- app_assoc; reflexivity).
        apply distinct_app_head in D. rewrite distinct_snoc in D. apply andb_true_iff in D as [_ D].
        rewrite <- (forallb_fst (fun k0 => negb (key_eqb k0 k'))) in D. congruence. }
      rewrite Hf. split; [|discriminate]. split; [|discriminate].
      intros Hl. apply wire_entries_len in E. rewrite map_put_hit in E by exact Hm. cbn [length] in Hl. lia.
Qed.
Lemma wire_entries_total l : forall m es, Forall2 entry_wire l es -> Forall (fun e => hashable (fst e) = true) es ->
  exists m', wire_entries l m = Some m'.
Proof.
  induction l as [|[k x] l IH]; intros m es H1 H2; inversion H1; subst; cbn [wire_entries]; [eauto|].
  destruct y as [k' x']. destruct H3 as [Ek Ex]. cbn [fst snd] in Ek, Ex. rewrite Ek, Ex.
  apply Forall_cons_iff in H2 as [Hh H2]. cbn [fst] in Hh. rewrite Hh. eapply IH; eassumption.
Qed.

Lemma map_decode ws i l a rest : go_value ws (VMap i l) = true -> supported (VMap i l) = true ->
  any_decode a (fmt_top_ws ws (VMap i l) ++ rest) =
  match wire_entries l [] with None => DecPanic | Some m => DecOk (NewAny (VMap true m)) rest end.
Proof.
  intros Hg Hs. unfold any_decode. rewrite top_decode by assumption. cbn [wire_top]. rewrite wire_map.
  destruct (wire_entries l []); reflexivity.
Qed.

Lemma forall2_fun l : forall es es', Forall2 entry_wire l es -> Forall2 entry_wire l es' -> es = es'.
Proof.
  induction l as [|kv l IH]; intros es es' H H'; inversion H; inversion H'; subst; [reflexivity|].
  f_equal; [|apply IH; assumption]. destruct y as [a b], y0 as [c d]. destruct H2 as [A B], H7 as [C D]. cbn in *. congruence.
Qed.

(* the entries restored are exactly as many as sent iff ... *)
Lemma map_restored ws i l bs a rest : go_value ws (VMap i l) = true -> supported (VMap i l) = true ->
  encoded ws (VMap i l) bs ->
  ((exists m, any_decode a (bs ++ rest) = DecOk (NewAny (VMap true m)) rest /\ length m = length l) <->
   (exists es, Forall2 entry_wire l es /\ Forall (fun e => hashable (fst e) = true) es /\
               distinct_keys (map fst es) = true)) /\
  (forall es, Forall2 entry_wire l es -> Forall (fun e => hashable (fst e) = true) es -> distinct_keys (map fst es) = true ->
     any_decode a (bs ++ rest) = DecOk (NewAny (VMap true es)) rest).
Proof.
  intros Hg Hs E. apply encoded_fmt in E; [|assumption|assumption]. subst bs. rewrite map_decode by assumption.
  assert (X : forall es, Forall2 entry_wire l es -> Forall (fun e => hashable (fst e) = true) es -> distinct_keys (map fst es) = true ->
    wire_entries l [] = Some es).
  { intros es H1 H2 H3. destruct (wire_entries_total l [] es H1 H2) as [m' E]. rewrite E.
    destruct (wire_entries_iff l [] m' E eq_refl) as (es' & H1' & H2' & _ & H4). rewrite (forall2_fun l es es' H1 H1') in *.
    rewrite H4 by exact H3. reflexivity. }
  split; [split|].
  - intros (m & Ed & El). destruct (wire_entries l []) as [m'|] eqn:E; [|discriminate].
    destruct (wire_entries_iff l [] m' E eq_refl) as (es & H1 & H2 & H3 & H4). exists es. repeat split; try assumption.
    apply H3. cbn [length plus]. inversion Ed. congruence.
  - intros (es & H1 & H2 & H3). exists es. rewrite (X es H1 H2 H3). split; [reflexivity|]. symmetry.
    revert H1. clear. induction 1; cbn; congruence.
  - intros es H1 H2 H3. rewrite (X es H1 H2 H3). reflexivity.
Qed.

Lemma array_key ws i l t ks x bs a rest : go_value ws (VMap i l) = true -> supported (VMap i l) = true ->
  In (VArr (AArray t) ks, x) l -> encoded ws (VMap i l) bs -> any_decode a (bs ++ rest) = DecPanic.
Proof.
  intros Hg Hs Hin E. apply encoded_fmt in E; [|assumption|assumption]. subst bs. rewrite map_decode by assumption.
  clear Hg Hs. generalize (@nil (gval * gval)). revert Hin. induction l as [|[k y] l IH]; [intros []|].
  intros Hin m. cbn [wire_entries]. destruct (wire k) as [k'|] eqn:Ek; [|reflexivity].
  destruct (if key_eqb k k then wire y else Some VNil); [|reflexivity].
  destruct Hin as [E|Hin].
  - injection E as -> ->. cbn [wire] in Ek. destruct (opt_map wire ks); [|discriminate]. injection Ek as <-. reflexivity.
  - destruct (hashable k'); [|reflexivity]. apply IH. exact Hin.
Qed.
Lemma nan_key ws i t b x bs a rest : go_value ws (VMap i [(VF64 t b, x)]) = true -> f64_eqb b b = false ->
  encoded ws (VMap i [(VF64 t b, x)]) bs ->
  any_decode a (bs ++ rest) = DecOk (NewAny (VMap true [(VF64 0 b, VNil)])) rest.
Proof.
  intros Hg Hn E.
  assert (Hk : key_eqb (VF64 t b) (VF64 t b) = false) by (cbn [key_eqb]; rewrite Z.eqb_refl; exact Hn).
  apply encoded_fmt in E; [|assumption|cbn [supported forallb fst snd]; rewrite Hk; reflexivity]. subst bs.
  rewrite map_decode; [|assumption|cbn [supported forallb fst snd]; rewrite Hk; reflexivity].
  cbn [wire_entries]. rewrite Hk. cbn [wire].
  assert (2 ^ 32 <= b).
  { destruct (Z.lt_ge_cases b (2 ^ 32)) as [H|H]; [|lia]. exfalso.
    cbn [go_value forallb fst snd] in Hg. rewrite !andb_true_iff in Hg. destruct Hg as [[[Hb _] _] _].
    apply in_ub_iff in Hb. unfold in_u in Hb. rewrite f64_eqb_self in Hn. apply negb_false_iff in Hn.
    unfold f64_is_nan in Hn. apply andb_true_iff in Hn as [Hn _]. apply Z.eqb_eq in Hn. revert Hn. unfold f64_exp.
    rewrite (Z.div_small b (2 ^ 52)) by lia. discriminate. }
  replace (b <? 2 ^ 32) with false by lia. reflexivity.
Qed.
Lemma int_key_collision ws i n x y bs a rest : in_u 8 n -> go_value ws x = true -> go_value ws y = true ->
  safe x = true -> safe y = true ->
  encoded ws (VMap i [(VUint 0 U8 n, x); (VUint 0 U16 n, y)]) bs ->
  exists y', same_value y y' /\ any_decode a (bs ++ rest) = DecOk (NewAny (VMap true [(VUint 0 U8 n, y')])) rest.
Proof.
  intros Hn Hgx Hgy Hsx Hsy E.
  pose proof (safe_supported x Hsx) as Sx. pose proof (safe_supported y Hsy) as Sy.
  assert (H8 : in_ub 8 n = true) by (apply in_ub_iff; exact Hn).
  assert (H16 : in_ub 16 n = true) by (apply in_ub_iff; unfold in_u in *; lia).
  assert (Hg : go_value ws (VMap i [(VUint 0 U8 n, x); (VUint 0 U16 n, y)]) = true).
  { cbn [go_value forallb fst snd ubits]. rewrite H8, H16, Hgx, Hgy. reflexivity. }
  assert (Hs : supported (VMap i [(VUint 0 U8 n, x); (VUint 0 U16 n, y)]) = true).
  { cbn [supported forallb fst snd]. rewrite Sx, Sy, !orb_true_r. reflexivity. }
  apply encoded_fmt in E; [|assumption|assumption]. subst bs. rewrite map_decode by assumption.
  destruct (safe_crosses ws x Hgx Hsx) as (x' & Ex & _).
  destruct (safe_crosses ws y Hgy Hsy) as (y' & Ey & Hsv & _).
  exists y'. split; [exact Hsv|]. cbn [wire_entries key_eqb ukind_eqb wire]. rewrite !Z.eqb_refl. cbn [andb]. rewrite Ex, Ey.
  cbn [hashable map_put key_eqb]. rewrite !Z.eqb_refl.
  unfold in_u in Hn. unfold narrow_u. replace (n <? 2 ^ 8) with true by lia. reflexivity.
Qed.
Lemma pieces_are_encoding ws v bs : go_value ws v = true -> supported v = true ->
  encoded ws v bs -> concat (pieces_top ws v) = bs.
Proof. intros Hg Hs E. apply encoded_fmt in E; [|assumption|assumption]. subst. apply concat_pieces_top. Qed.
