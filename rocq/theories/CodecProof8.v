(* Codec lemmas at the level of IAny. *)
From Verif Require Import GoInt GoFloat GoVal CodecModel CodecSpec CodecApi CodecProof CodecProof2 CodecProof3 CodecProof4
  CodecProof5 CodecProof6 CodecProof7.
From Coq Require Import ZifyBool ZifyNat.
Ltac Zify.zify_post_hook ::= idtac.

Lemma api_encode ws v w : go_value ws v = true -> supported v = true ->
  any_encode buf_wr ws (NewAny v) w = (None, w ++ fmt_top_ws ws v).
Proof.
  intros Hg Hs. unfold any_encode. replace (a_s (NewAny v)) with v by reflexivity. apply enc_top; assumption.
Qed.

Lemma wire_top_scalar_universe ws v v' : go_value ws v = true -> safe_top v = true ->
  wire_top ws v = Some v' -> wire_universe v' = true.
Proof.
  intros Hg Hs E. destruct (safe_top_crosses ws v Hg Hs) as (v1 & E1 & _ & _ & _ & _ & H). congruence.
Qed.

Lemma api_decode ws v a rest v' : go_value ws v = true -> supported v = true ->
  wire_top ws v = Some v' -> wire_universe v' = true ->
  any_decode a (fmt_top_ws ws v ++ rest) = DecOk (NewAny v') rest.
Proof.
  intros Hg Hs E Hu. unfold any_decode. rewrite (top_decode ws v rest Hg Hs), E. cbn [outcome any_decode_with].
  rewrite normalize_fresh by exact Hu. reflexivity.
Qed.

Lemma encoded_fmt ws v bs : go_value ws v = true -> supported v = true -> encoded ws v bs -> bs = fmt_top_ws ws v.
Proof. intros Hg Hs E. unfold encoded in E. rewrite api_encode in E by assumption. cbn in E. congruence. Qed.

(* --- C01 --- *)
Definition top_ik (ws : wsize) (t : Z) (k : ikind) (z : Z) : ikind :=
  match wire_top ws (VInt t k z) with Some (VInt _ k' _) => k' | _ => k end.

Lemma wire_top_int ws t k z : in_s (ibits ws k) z ->
  wire_top ws (VInt t k z) = Some (VInt 0 (top_ik ws t k z) z) /\
  in_s (ibits W64 (top_ik ws t k z)) z /\ top_ik ws t k z <> IInt.
Proof.
  intros Hz. assert (Hg : go_value ws (VInt t k z) = true) by (apply in_sb_iff; exact Hz).
  destruct (safe_top_crosses ws (VInt t k z) Hg) as (v' & E & Hsv & _ & _ & _ & Hu).
  { destruct t; reflexivity. }
  unfold top_ik. rewrite E. inversion Hsv; subst. split; [reflexivity|]. split; [assumption|].
  intros ->. cbn in Hu. discriminate.
Qed.

Definition top_uk (n : Z) : ukind := narrow_u n.

Lemma wire_top_uint ws t k n : wire_top ws (VUint t k n) = Some (VUint 0 (narrow_u n) n).
Proof. reflexivity. Qed.

Lemma acc_int_exact w k z : 0 < w -> in_s w z -> k <> IInt -> acc_IntW w (NewAny (VInt 0 k z)) = AOk z.
Proof.
  intros Hw Hz Hk. destruct k; try congruence; cbn; rewrite swrap_id by assumption; reflexivity.
Qed.
Lemma acc_uint_exact w k n : in_u w n -> k <> UInt -> k <> UPtr -> acc_UintW w (NewAny (VUint 0 k n)) = AOk n.
Proof.
  intros Hn Hk Hk2. destruct k; try congruence; cbn; rewrite uwrap_id by assumption; reflexivity.
Qed.

Lemma int_roundtrip ws t k z a w rest : in_s (ibits ws k) z ->
  exists bs a',
    any_encode buf_wr ws (NewAny (VInt t k z)) w = (None, w ++ bs) /\
    any_decode a (bs ++ rest) = DecOk a' rest /\
    access ws GetInt64 a' = AOk (VInt 0 I64 z) /\
    access ws (int_getter k) a' = AOk (VInt 0 k z).
Proof.
  intros Hz. assert (Hg : go_value ws (VInt t k z) = true) by (apply in_sb_iff; exact Hz).
  destruct (wire_top_int ws t k z Hz) as (E & Hr & Hk).
  eexists. exists (NewAny (VInt 0 (top_ik ws t k z) z)). split; [apply api_encode; [exact Hg|reflexivity]|].
  split.
  { eapply api_decode; eauto. destruct (top_ik ws t k z); try congruence; cbn; apply in_sb_iff; exact Hr. }
  assert (H64 : in_s 64 z) by (apply (ibits_range ws k); exact Hz).
  split.
  - cbn [access]. unfold acc_Int64. rewrite acc_int_exact by (assumption || lia). reflexivity.
  - destruct k; cbn [int_getter access]; unfold acc_Int8, acc_Int16, acc_Int32, acc_Int64, acc_Int;
      rewrite acc_int_exact; try assumption; try reflexivity; try lia; destruct ws; cbn; lia.
Qed.

Lemma uint_roundtrip ws t k n a w rest : in_u (ubits ws k) n ->
  exists bs a',
    any_encode buf_wr ws (NewAny (VUint t k n)) w = (None, w ++ bs) /\
    any_decode a (bs ++ rest) = DecOk a' rest /\
    access ws GetUint64 a' = AOk (VUint 0 U64 n) /\
    (forall c, uint_getter k = Some c -> access ws c a' = AOk (VUint 0 k n)).
Proof.
  intros Hz. assert (Hg : go_value ws (VUint t k n) = true) by (apply in_ub_iff; exact Hz).
  assert (H64 : in_u 64 n) by (apply (ubits_range ws k); exact Hz).
  pose proof (narrow_u_range n H64) as Hr.
  assert (Hk : narrow_u n <> UInt /\ narrow_u n <> UPtr) by (unfold narrow_u; repeat destruct (_ <? _); split; discriminate).
  destruct Hk as [Hk Hk2].
  eexists. exists (NewAny (VUint 0 (narrow_u n) n)). split; [apply api_encode; [exact Hg|reflexivity]|].
  split.
  { eapply api_decode; [exact Hg|reflexivity|reflexivity|].
    destruct (narrow_u n); try congruence; cbn; apply in_ub_iff; exact Hr. }
  split.
  - cbn [access]. unfold acc_Uint64. rewrite acc_uint_exact by assumption. reflexivity.
  - intros c Hc. destruct k; cbn [uint_getter] in Hc; try discriminate; injection Hc as <-; cbn [access];
      unfold acc_Uint8, acc_Uint16, acc_Uint32, acc_Uint64, acc_Uint;
      rewrite acc_uint_exact; try assumption; reflexivity.
Qed.

(* --- C02 --- *)
Lemma f64_roundtrip ws t b a w rest : in_u 64 b ->
  exists bs,
    any_encode buf_wr ws (NewAny (VF64 t b)) w = (None, w ++ bs) /\
    (2 ^ 32 <= b -> exists a', any_decode a (bs ++ rest) = DecOk a' rest /\ access ws GetFloat64 a' = AOk (VF64 0 b)) /\
    (b < 2 ^ 32 -> any_decode a (bs ++ rest) = DecPanic).
Proof.
  intros Hb. assert (Hg : go_value ws (VF64 t b) = true) by (apply in_ub_iff; exact Hb).
  eexists. split; [apply api_encode; [exact Hg|reflexivity]|]. split.
  - intros H. exists (NewAny (VF64 0 b)). split; [|reflexivity].
    eapply api_decode; [exact Hg|reflexivity| |].
    + cbn [wire_top wire]. replace (b <? 2 ^ 32) with false by lia. reflexivity.
    + apply in_ub_iff in Hb. cbn. exact Hb.
  - intros H. unfold any_decode. rewrite top_decode by (exact Hg || reflexivity). cbn [wire_top wire].
    replace (b <? 2 ^ 32) with true by lia. reflexivity.
Qed.
Lemma f32_roundtrip ws b a w rest : in_u 32 b ->
  exists bs,
    any_encode buf_wr ws (NewAny (VF32 0 b)) w = (None, w ++ bs) /\
    (2 ^ 16 <= b -> exists a', any_decode a (bs ++ rest) = DecOk a' rest /\ access ws GetFloat32 a' = AOk (VF32 0 b)) /\
    (b < 2 ^ 16 -> any_decode a (bs ++ rest) = DecPanic).
Proof.
  intros Hb. assert (Hg : go_value ws (VF32 0 b) = true) by (apply in_ub_iff; exact Hb).
  eexists. split; [apply api_encode; [exact Hg|reflexivity]|]. unfold in_u in Hb. split.
  - intros H. exists (NewAny (VF32 0 b)). split; [|reflexivity].
    eapply api_decode; [exact Hg|reflexivity| |exact Hg].
    cbn [wire_top]. replace (b <? 2 ^ 16) with false by lia. replace (b <? 2 ^ 32) with true by lia. reflexivity.
  - intros H. unfold any_decode. rewrite top_decode by (exact Hg || reflexivity). cbn [wire_top].
    replace (b <? 2 ^ 16) with true by lia. reflexivity.
Qed.

(* --- C03 --- *)
Lemma str_roundtrip ws t s a w rest : bytes_ok s -> Z.of_nat (length s) < 2 ^ 32 ->
  exists bs a',
    any_encode buf_wr ws (NewAny (VStr t s)) w = (None, w ++ bs) /\
    any_decode a (bs ++ rest) = DecOk a' rest /\ access ws GetString a' = AOk (VStr 0 s).
Proof.
  intros Hs Hl.
  assert (Hf : forallb (in_ub 8) s = true).
  { apply forallb_forall. intros x Hx. apply in_ub_iff. exact (proj1 (Forall_forall _ _) Hs x Hx). }
  assert (Hg : go_value ws (VStr t s) = true) by (cbn; rewrite Hf; unfold small_len; lia).
  eexists. exists (NewAny (VStr 0 s)). split; [apply api_encode; [exact Hg|reflexivity]|]. split; [|reflexivity].
  eapply api_decode; [exact Hg|reflexivity|reflexivity|]. cbn. exact Hf.
Qed.
Lemma bool_roundtrip ws t b a w rest :
  exists bs a',
    any_encode buf_wr ws (NewAny (VBool t b)) w = (None, w ++ bs) /\
    any_decode a (bs ++ rest) = DecOk a' rest /\ access ws GetBool a' = AOk (VBool 0 b).
Proof.
  eexists. exists (NewAny (VBool 0 b)). split; [apply api_encode; reflexivity|]. split; [|reflexivity].
  eapply api_decode; reflexivity.
Qed.
Lemma nil_roundtrip ws a w rest :
  exists bs a',
    any_encode buf_wr ws (NewAny VNil) w = (None, w ++ bs) /\
    any_decode a (bs ++ rest) = DecOk a' rest /\ acc_Any a' = VNil.
Proof.
  eexists. exists (NewAny VNil). split; [apply api_encode; reflexivity|]. split; [|reflexivity].
  eapply api_decode; reflexivity.
Qed.

(* --- C04 --- *)
Lemma struct_roundtrip ws v a w rest : go_value ws v = true -> safe_top v = true ->
  exists bs a',
    any_encode buf_wr ws (NewAny v) w = (None, w ++ bs) /\
    any_decode a (bs ++ rest) = DecOk a' rest /\
    same_value v (acc_Any a').
Proof.
  intros Hg Hs. destruct (safe_top_crosses ws v Hg Hs) as (v' & E & Hsv & _ & _ & _ & Hu).
  pose proof (safe_top_supported v Hs) as Hsup.
  eexists. exists (NewAny v'). split; [apply api_encode; assumption|]. split; [|exact Hsv].
  eapply api_decode; eauto.
Qed.

(* --- C05 --- *)
Lemma stream_encode ws vs : Forall (fun v => go_value ws v = true /\ supported v = true) vs ->
  forall w, encode_all ws vs w = Some (w ++ flat_map (fmt_top_ws ws) vs).
Proof.
  induction 1 as [|v vs [Hg Hs] Hvs IH]; intros w; cbn [encode_all flat_map].
  - rewrite app_nil_r. reflexivity.
  - rewrite api_encode by assumption. rewrite IH, <- app_assoc. reflexivity.
Qed.
Lemma stream_decode ws vs rest : Forall (fun v => go_value ws v = true /\ safe_top v = true) vs ->
  exists vs', decode_all (length vs) (flat_map (fmt_top_ws ws) vs ++ rest) = Some (vs', rest) /\ Forall2 same_value vs vs'.
Proof.
  induction 1 as [|v vs [Hg Hs] Hvs (vs' & IH & IHs)]; cbn [decode_all flat_map length].
  - exists []. auto.
  - destruct (safe_top_crosses ws v Hg Hs) as (v' & E & Hsv & _ & _ & _ & Hu).
    exists (v' :: vs'). rewrite <- app_assoc.
    rewrite (api_decode ws v _ _ v' Hg (safe_top_supported v Hs) E Hu), IH. split; [reflexivity|]. constructor; assumption.
Qed.
Lemma stream_roundtrip ws vs rest : Forall (fun v => go_value ws v = true /\ safe_top v = true) vs ->
  exists bs vs', encode_all ws vs [] = Some bs /\ decode_all (length vs) (bs ++ rest) = Some (vs', rest) /\
    Forall2 same_value vs vs'.
Proof.
  intros H. destruct (stream_decode ws vs rest H) as (vs' & E & Hs).
  exists (flat_map (fmt_top_ws ws) vs), vs'. split; [|auto].
  rewrite stream_encode; [reflexivity|]. eapply Forall_impl; [|exact H]. intros v [Hg Hv]. split; [exact Hg|].
  apply safe_top_supported, Hv.
Qed.
Lemma prefix_free ws u v bu bv t :
  go_value ws u = true -> supported u = true -> go_value ws v = true -> supported v = true ->
  encoded ws u bu -> encoded ws v bv -> bv = bu ++ t -> t = [].
Proof.
  intros Hgu Hsu Hgv Hsv Eu Ev E. apply encoded_fmt in Eu; [|assumption|assumption].
  apply encoded_fmt in Ev; [|assumption|assumption]. subst bu bv.
  eapply skips_prefix; [apply (skips_top ws u); assumption|apply (skips_top ws v); assumption|exact E].
Qed.
