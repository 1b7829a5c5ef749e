From Verif Require Import GoInt GoFloat GoVal CodecModel CodecSpec CodecApi CodecProof CodecProof5 CodecProof8 ProtoModel ProtoProof MetaModel FloatSpec FloatProof.

Lemma accessor_narrows ws b : in_u 64 b ->
  exists b', access ws GetFloat32 (NewAny (VF64 0 b)) = AOk (VF32 0 b') /\ nearest32 b b'.
Proof. intros H. eexists. split; [reflexivity|apply f64_narrow_nearest; exact H]. Qed.
Lemma accessor_widens ws b : in_u 32 b ->
  exists b', access ws GetFloat64 (NewAny (VF32 0 b)) = AOk (VF64 0 b') /\ widened b b'.
Proof. intros H. eexists. split; [reflexivity|apply f32_widen_widened; exact H]. Qed.
Lemma parameter_narrows ws open t t' b : in_u 64 b ->
  exists b', convert ws open (TyF32 t) (VF64 t' b) = Some (VF32 t b') /\ nearest32 b b'.
Proof. intros H. eexists. split; [reflexivity|apply f64_narrow_nearest; exact H]. Qed.
Lemma parameter_widens ws open t t' b : in_u 32 b ->
  exists b', convert ws open (TyF64 t) (VF32 t' b) = Some (VF64 t b') /\ widened b b'.
Proof. intros H. eexists. split; [reflexivity|apply f32_widen_widened; exact H]. Qed.
Lemma encoder_widens ws t b w : t <> 0 -> in_u 32 b ->
  exists b', any_encode buf_wr ws (NewAny (VF32 t b)) w = (None, w ++ fmt_f64 b') /\
             any_encode buf_wr ws (NewAny (VArr ASliceIface [VF32 0 b])) w = (None, w ++ fmt_len 0xdd 1 ++ fmt_f64 b') /\ widened b b'.
Proof.
  intros Ht Hb. apply in_ub_iff in Hb as Hb'. exists (f32_widen b).
  split; [|split; [|apply f32_widen_widened; exact Hb]].
  - change (put ws (VF32 t b) w = (None, w ++ fmt_f64 (f32_widen b))). rewrite put_ok by (exact Hb' || reflexivity).
    destruct t; [congruence| |]; destruct ws; reflexivity.
  - change (put ws (VArr ASliceIface [VF32 0 b]) w = (None, w ++ fmt_len 0xdd 1 ++ fmt_f64 (f32_widen b))). rewrite put_ok.
    + destruct ws; cbn [fmt_top_ws fmt_top fmt flat_map length]; rewrite app_nil_r; reflexivity.
    + cbn [go_value forallb]. rewrite Hb'. reflexivity.
    + reflexivity.
Qed.
