(* Property theorems C01-C17: package codec. *)
From Verif Require Import GoInt GoFloat GoVal CodecModel CodecSpec CodecApi CodecProof5 CodecProof8 CodecProof9.

(* C01: every integer of every type comes back as the same number. [rest] is what
   follows in the buffer, [w] what was there before, [a] any receiving object. *)
Theorem C01_signed_roundtrip : forall ws t k z a w rest, in_s (ibits ws k) z ->
  exists bs a',
    any_encode buf_wr ws (NewAny (VInt t k z)) w = (None, w ++ bs) /\
    any_decode a (bs ++ rest) = DecOk a' rest /\
    access ws GetInt64 a' = AOk (VInt 0 I64 z) /\
    access ws (int_getter k) a' = AOk (VInt 0 k z).
Proof. exact int_roundtrip. Qed.
Print Assumptions C01_signed_roundtrip.
Example C01_signed_case : in_s (ibits W64 I16) (-300).
Proof. unfold in_s; cbn; lia. Qed.

Theorem C01_unsigned_roundtrip : forall ws t k n a w rest, in_u (ubits ws k) n ->
  exists bs a',
    any_encode buf_wr ws (NewAny (VUint t k n)) w = (None, w ++ bs) /\
    any_decode a (bs ++ rest) = DecOk a' rest /\
    access ws GetUint64 a' = AOk (VUint 0 U64 n) /\
    (forall c, uint_getter k = Some c -> access ws c a' = AOk (VUint 0 k n)).
Proof. exact uint_roundtrip. Qed.
Print Assumptions C01_unsigned_roundtrip.
Example C01_unsigned_case : in_u (ubits W32 UInt) 4000000000 /\ uint_getter UInt = Some GetUint.
Proof. split; [unfold in_u; cbn; lia|reflexivity]. Qed.

(* C02 *)
Theorem C02_float64_roundtrip : forall ws t b a w rest, in_u 64 b ->
  exists bs,
    any_encode buf_wr ws (NewAny (VF64 t b)) w = (None, w ++ bs) /\
    (2 ^ 32 <= b -> exists a', any_decode a (bs ++ rest) = DecOk a' rest /\ access ws GetFloat64 a' = AOk (VF64 0 b)) /\
    (b < 2 ^ 32 -> any_decode a (bs ++ rest) = DecPanic).
Proof. exact f64_roundtrip. Qed.
Print Assumptions C02_float64_roundtrip.
(* 1.0 is above the threshold, +0.0 below *)
Example C02_float64_case : in_u 64 0x3FF0000000000000 /\ 2 ^ 32 <= 0x3FF0000000000000 /\ in_u 64 0 /\ 0 < 2 ^ 32.
Proof. unfold in_u; lia. Qed.

Theorem C02_float32_roundtrip : forall ws b a w rest, in_u 32 b ->
  exists bs,
    any_encode buf_wr ws (NewAny (VF32 0 b)) w = (None, w ++ bs) /\
    (2 ^ 16 <= b -> exists a', any_decode a (bs ++ rest) = DecOk a' rest /\ access ws GetFloat32 a' = AOk (VF32 0 b)) /\
    (b < 2 ^ 16 -> any_decode a (bs ++ rest) = DecPanic).
Proof. exact f32_roundtrip. Qed.
Print Assumptions C02_float32_roundtrip.
Example C02_float32_case : in_u 32 0x3FC00000 /\ 2 ^ 16 <= 0x3FC00000.
Proof. unfold in_u; lia. Qed.

(* C03 *)
Theorem C03_string_roundtrip : forall ws t s a w rest, bytes_ok s -> Z.of_nat (length s) < 2 ^ 32 ->
  exists bs a',
    any_encode buf_wr ws (NewAny (VStr t s)) w = (None, w ++ bs) /\
    any_decode a (bs ++ rest) = DecOk a' rest /\ access ws GetString a' = AOk (VStr 0 s).
Proof. exact str_roundtrip. Qed.
Print Assumptions C03_string_roundtrip.
Example C03_string_case : bytes_ok [104; 0; 255] /\ Z.of_nat (length [104; 0; 255]) < 2 ^ 32.
Proof. split; [repeat constructor; lia|cbn; lia]. Qed.

Theorem C03_bool_roundtrip : forall ws t b a w rest,
  exists bs a',
    any_encode buf_wr ws (NewAny (VBool t b)) w = (None, w ++ bs) /\
    any_decode a (bs ++ rest) = DecOk a' rest /\ access ws GetBool a' = AOk (VBool 0 b).
Proof. exact bool_roundtrip. Qed.
Print Assumptions C03_bool_roundtrip.

Theorem C03_nil_roundtrip : forall ws a w rest,
  exists bs a',
    any_encode buf_wr ws (NewAny VNil) w = (None, w ++ bs) /\
    any_decode a (bs ++ rest) = DecOk a' rest /\ acc_Any a' = VNil.
Proof. exact nil_roundtrip. Qed.
Print Assumptions C03_nil_roundtrip.

(* C04: [same_value] is defined in CodecSpec.v *)
Theorem C04_structure_roundtrip : forall ws v a w rest, go_value ws v = true -> safe_top v = true ->
  exists bs a',
    any_encode buf_wr ws (NewAny v) w = (None, w ++ bs) /\
    any_decode a (bs ++ rest) = DecOk a' rest /\
    same_value v (acc_Any a').
Proof. exact struct_roundtrip. Qed.
Print Assumptions C04_structure_roundtrip.
(* []interface{}{int(-5), "a", map[interface{}]interface{}{uint8(1): float32(1.5), "k": []int{70000}}, nil} *)
Definition C04_value : gval :=
  VArr ASliceIface [VInt 0 IInt (-5); VStr 0 [97];
    VMap true [(VUint 0 U8 1, VF32 0 0x3FC00000); (VStr 0 [107], VArr ASliceOther [VInt 0 IInt 70000])]; VNil].
Example C04_case : go_value W64 C04_value = true /\ safe_top C04_value = true.
Proof. split; reflexivity. Qed.

(* a float32 element, widened by the encoder, denotes the same real number *)
Theorem C04_float32_widening_exact : forall b, in_u 32 b -> f32_finite b ->
  f64_finite (f32_widen b) /\ f64_scaled (f32_widen b) = f32_scaled b /\ f64_sign (f32_widen b) = f32_sign b.
Proof. exact f32_widen_exact. Qed.
Print Assumptions C04_float32_widening_exact.
Example C04_widening_case : in_u 32 1 /\ f32_finite 1 /\ f32_widen 1 = 0x36A0000000000000.
Proof. split; [unfold in_u; lia|]. split; [discriminate|vm_compute; reflexivity]. Qed.

(* C05 *)
Theorem C05_stream_roundtrip : forall ws vs rest,
  Forall (fun v => go_value ws v = true /\ safe_top v = true) vs ->
  exists bs vs', encode_all ws vs [] = Some bs /\ decode_all (length vs) (bs ++ rest) = Some (vs', rest) /\
    Forall2 same_value vs vs'.
Proof. exact stream_roundtrip. Qed.
Print Assumptions C05_stream_roundtrip.
Example C05_stream_case : Forall (fun v => go_value W32 v = true /\ safe_top v = true) [VInt 0 IInt 7; C04_value; VBool 3 true].
Proof. repeat constructor. Qed.

Theorem C05_prefix_free : forall ws u v bu bv t,
  go_value ws u = true -> supported u = true -> go_value ws v = true -> supported v = true ->
  encoded ws u bu -> encoded ws v bv -> bv = bu ++ t -> t = [].
Proof. exact prefix_free. Qed.
Print Assumptions C05_prefix_free.
Example C05_prefix_case : encoded W64 (VStr 0 [97]) [0xdb; 0; 0; 0; 1; 97] /\ encoded W64 (VStr 0 [98]) [0xdb; 0; 0; 0; 1; 98].
Proof. split; reflexivity. Qed.

(* C06 *)
Theorem C06_decode_progress : forall a b,
  match any_decode a b with
  | DecOk _ r | DecErr _ r => exists p, b = p ++ r /\ (b <> [] -> p <> [])
  | DecPanic => True
  | DecFuel => False
  end.
Proof. exact decode_progress. Qed.
Print Assumptions C06_decode_progress.

Theorem C06_decode_universe : forall a b a' r, bytes_ok b -> any_decode a b = DecOk a' r ->
  wire_universe (acc_Any a') = true /\ a' = NewAny (acc_Any a').
Proof. exact decode_universe. Qed.
Print Assumptions C06_decode_universe.
Example C06_case : exists a' r, any_decode (NewAny VNil) [0xdd; 0; 0; 0; 2; 0xd0; 0x80; 0xc3; 9] = DecOk a' r /\ r = [9].
Proof. eexists; eexists; split; reflexivity. Qed.

(* C07: the full claim, and its refutation by the code *)
Definition C07_truncation_detected : Prop := forall ws v bs p s a' r,
  go_value ws v = true -> safe_top v = true -> encoded ws v bs -> bs = p ++ s -> s <> [] ->
  any_decode (NewAny VNil) p = DecOk a' r -> same_value v (acc_Any a').
Theorem C07_truncation_detected_refuted : ~ C07_truncation_detected.
Proof.
  intros H. specialize (H W64 (VInt 0 IInt 300) [0xd1; 1; 44] [0xd1; 1] [44] (NewAny (VInt 0 I16 256)) []
    eq_refl eq_refl eq_refl eq_refl ltac:(discriminate) eq_refl). inversion H.
Qed.
Print Assumptions C07_truncation_detected_refuted.

(* exact content of a cut integer or string: the missing bytes read as zero *)
Theorem C07_cut_unsigned : forall ws t n c a, in_u (wbits ws) n -> (0 < c < uwidth (narrow_u n))%nat ->
  exists bs, encoded ws (VUint t UInt n) bs /\
    any_decode a (firstn (S c) bs) =
    DecOk (NewAny (VUint 0 (narrow_u n) (n - n mod 256 ^ Z.of_nat (uwidth (narrow_u n) - c)))) [].
Proof. exact cut_uint_api. Qed.
Print Assumptions C07_cut_unsigned.
Theorem C07_cut_signed : forall t z c a, in_s 64 z -> (0 < c < iwidth (narrow_s z))%nat ->
  exists bs, encoded W64 (VInt t IInt z) bs /\
    any_decode a (firstn (S c) bs) =
    DecOk (NewAny (VInt 0 (narrow_s z) (z - z mod 256 ^ Z.of_nat (iwidth (narrow_s z) - c)))) [].
Proof. exact cut_int_api. Qed.
Print Assumptions C07_cut_signed.
Theorem C07_cut_string : forall ws t s c a, bytes_ok s -> small_len s = true -> (0 < c <= length s)%nat ->
  exists bs, encoded ws (VStr t s) bs /\
    any_decode a (firstn (5 + c) bs) = DecOk (NewAny (VStr 0 (firstn c s ++ repeat 0 (length s - c)))) [].
Proof. exact cut_str_api. Qed.
Print Assumptions C07_cut_string.
Example C07_cut_case : in_u (wbits W64) 70000 /\ (0 < 2 < uwidth (narrow_u 70000))%nat /\
  in_s 64 (-70000) /\ (0 < 3 < iwidth (narrow_s (-70000)))%nat /\
  bytes_ok [97; 98] /\ small_len [97; 98] = true /\ (0 < 1 <= length [97; 98])%nat.
Proof. unfold in_u, in_s; cbn; repeat split; try lia; repeat constructor; lia. Qed.

(* a cut between fields is reported; [pieces_top] lists the fields of an encoding *)
Theorem C07_cut_between_fields : forall ws v a p q, go_value ws v = true -> safe_top v = true ->
  pieces_top ws v = p ++ q -> q <> [] -> exists a' r, any_decode a (concat p) = DecErr a' r.
Proof. exact cut_at_boundary. Qed.
Print Assumptions C07_cut_between_fields.
Theorem C07_fields_concat : forall ws v bs, go_value ws v = true -> supported v = true ->
  encoded ws v bs -> concat (pieces_top ws v) = bs.
Proof. exact pieces_are_encoding. Qed.
Print Assumptions C07_fields_concat.
Example C07_boundary_case :
  pieces_top W64 (VArr ASliceIface [VInt 0 I16 300]) = [[0xdd]; [0; 0; 0; 1]; [0xd1]] ++ [[1; 44]].
Proof. reflexivity. Qed.

(* C08 *)
Theorem C08_unknown_tag : forall a t b, ~ In t known_tags -> any_decode a (t :: b) = DecErr (mkAny VNil (a_tp a)) b.
Proof. exact unknown_tag. Qed.
Print Assumptions C08_unknown_tag.
Theorem C08_empty : forall a, any_decode a [] = DecErr (mkAny VNil (a_tp a)) [].
Proof. exact no_tag. Qed.
Print Assumptions C08_empty.
Example C08_case : ~ In 0xda known_tags.
Proof. cbn. lia. Qed.

(* C09 *)
Theorem C09_encode_error_iff : forall ws v w,
  (exists e w', any_encode buf_wr ws (NewAny v) w = (Some e, w')) <-> supported v = false.
Proof. exact encode_error_iff. Qed.
Print Assumptions C09_encode_error_iff.
Example C09_case : supported (VArr ASliceOther [VNil; VOther false 1]) = false /\ supported C04_value = true.
Proof. split; reflexivity. Qed.

(* C10 *)
Theorem C10_unsigned_size : forall ws t k n bs, in_u (ubits ws k) n -> encoded ws (VUint t k n) bs -> length bs = usize n.
Proof. exact uint_wire_size. Qed.
Print Assumptions C10_unsigned_size.
Theorem C10_signed_size : forall ws t k z bs, in_s (ibits ws k) z -> encoded ws (VInt t k z) bs ->
  (t <> 0 -> length bs = isize z) /\ (t = 0 -> length bs = Nat.min (isize z) (own_size ws k)).
Proof. exact int_wire_size. Qed.
Print Assumptions C10_signed_size.
Theorem C10_unsigned_canonical : forall ws t k n t' k' n' bs bs', in_u (ubits ws k) n -> in_u (ubits ws k') n' ->
  encoded ws (VArr ASliceIface [VUint t k n]) bs -> encoded ws (VArr ASliceIface [VUint t' k' n']) bs' ->
  (bs = bs' <-> n = n').
Proof. exact elt_uint. Qed.
Print Assumptions C10_unsigned_canonical.
Theorem C10_signed_canonical : forall ws t k n t' k' n' bs bs', in_s (ibits ws k) n -> in_s (ibits ws k') n' ->
  encoded ws (VArr ASliceIface [VInt t k n]) bs -> encoded ws (VArr ASliceIface [VInt t' k' n']) bs' ->
  (bs = bs' <-> n = n').
Proof. exact elt_int. Qed.
Print Assumptions C10_signed_canonical.
Example C10_case : encoded W64 (VInt 0 I16 (-32768)) [0xd1; 0x80; 0] /\ encoded W64 (VInt 0 IInt (-32768)) [0xd2; 0xff; 0xff; 0x80; 0].
Proof. split; reflexivity. Qed.

(* C11 *)
Theorem C11_signed_access : forall ws c a b a' r t k z, bytes_ok b -> any_decode a b = DecOk a' r -> acc_Any a' = VInt t k z ->
  if signed_getter c then
    exists z', access ws c a' = AOk (VInt 0 (getter_ikind c) z') /\
      in_s (getter_width ws c) z' /\ z' mod 2 ^ getter_width ws c = z mod 2 ^ getter_width ws c /\
      (ibits W64 k <= getter_width ws c -> z' = z)
  else access ws c a' = AErr.
Proof. exact int_access. Qed.
Print Assumptions C11_signed_access.
Theorem C11_unsigned_access : forall ws c a b a' r t k z, bytes_ok b -> any_decode a b = DecOk a' r -> acc_Any a' = VUint t k z ->
  if unsigned_getter c then
    exists z', access ws c a' = AOk (VUint 0 (getter_ukind c) z') /\
      in_u (getter_width ws c) z' /\ z' mod 2 ^ getter_width ws c = z mod 2 ^ getter_width ws c /\
      (ubits W64 k <= getter_width ws c -> z' = z)
  else access ws c a' = AErr.
Proof. exact uint_access. Qed.
Print Assumptions C11_unsigned_access.
(* int16(300) read back with Int8() is 44, reported as success *)
Example C11_case : bytes_ok [0xd1; 1; 44] /\ exists a', any_decode (NewAny VNil) [0xd1; 1; 44] = DecOk a' [] /\
  acc_Any a' = VInt 0 I16 300 /\ access W64 GetInt8 a' = AOk (VInt 0 I8 44).
Proof. split; [repeat constructor; lia|]. eexists. repeat split. Qed.

(* C12 *)
Theorem C12_accessor_safe : forall ws c a bs a', decode_history a bs a' -> bs <> [] -> Forall bytes_ok bs ->
  access ws c a' <> APanic /\ (own_getter (acc_Any a') = Some c -> access ws c a' = AOk (acc_Any a')).
Proof. exact accessor_safe. Qed.
Print Assumptions C12_accessor_safe.
Example C12_case : exists a', decode_history (NewAny (VBool 0 true)) [[0xdb; 0; 0; 0; 0]; [0xd1; 1; 44]] a' /\
  own_getter (acc_Any a') = Some GetInt16.
Proof.
  exists (NewAny (VInt 0 I16 300)). split; [|reflexivity].
  eapply dh_cons; [reflexivity|]. eapply dh_cons; [reflexivity|]. constructor.
Qed.
(* after a failed Decode (empty buffer or unknown code, see C08) exactly the
   accessors that fitted the old value panic *)
Theorem C12_after_failure : forall ws c a, access ws c (mkAny VNil (a_tp a)) = APanic <-> access ws c a <> AErr.
Proof. exact stale_access. Qed.
Print Assumptions C12_after_failure.
Definition C12_safe_after_any_decode : Prop := forall ws c a b a' r, bytes_ok b ->
  any_decode a b = DecErr a' r -> access ws c a <> APanic -> access ws c a' <> APanic.
Theorem C12_safe_after_any_decode_refuted : ~ C12_safe_after_any_decode.
Proof.
  intros H. apply (H W64 GetString (NewAny (VStr 0 [97])) [] (mkAny VNil aString) []);
    [constructor|reflexivity|discriminate|reflexivity].
Qed.
Print Assumptions C12_safe_after_any_decode_refuted.

(* C13 *)
Theorem C13_native : forall ws v c, go_value ws v = true -> any_native v = true -> own_getter v = Some c ->
  access ws c (NewAny v) = AOk v.
Proof. exact new_native. Qed.
Print Assumptions C13_native.
Theorem C13_foreign_scalar : forall ws v c, any_native v = false -> scalar_value v = true -> access ws c (NewAny v) = AErr.
Proof. exact new_foreign. Qed.
Print Assumptions C13_foreign_scalar.
Theorem C13_foreign_container : forall ws v c, any_native v = false -> scalar_value v = false -> own_getter v = Some c ->
  access ws c (NewAny v) = APanic.
Proof. exact new_container. Qed.
Print Assumptions C13_foreign_container.
Example C13_case : any_native (VInt 0 I8 5) = true /\ any_native (VInt 0 IInt 5) = false /\ any_native (VStr 7 [97]) = false /\
  any_native (VArr ASliceOther [VInt 0 IInt 1]) = false /\ own_getter (VArr ASliceOther [VInt 0 IInt 1]) = Some GetArr.
Proof. repeat split. Qed.

(* C14: hops may run on machines of different word size *)
Theorem C14_relay_stable : forall ws v bs hops, go_value ws v = true -> safe_top v = true -> encoded ws v bs ->
  relay hops bs = Some bs.
Proof. exact relay_stable. Qed.
Print Assumptions C14_relay_stable.
Example C14_case : exists bs, encoded W64 C04_value bs /\ relay [W32; W64; W32] bs = Some bs.
Proof. eexists. split; [reflexivity|vm_compute; reflexivity]. Qed.

(* C15 *)
Definition C15_segmentation_independent : Prop := forall cs cs' a, concat cs = concat cs' ->
  match any_decode_chunks a cs, any_decode_chunks a cs' with
  | DecOk a1 r1, DecOk a2 r2 => a1 = a2
  | _, _ => True
  end.
Theorem C15_segmentation_independent_refuted : ~ C15_segmentation_independent.
Proof.
  intros H. specialize (H [[0xd1; 1; 44]] [[0xd1; 1]; [44]] (NewAny VNil) eq_refl). discriminate.
Qed.
Print Assumptions C15_segmentation_independent_refuted.
Theorem C15_field_aligned_chunks : forall ws v a groups rest, go_value ws v = true -> safe_top v = true ->
  concat groups = pieces_top ws v -> Forall (fun g => g <> []) groups ->
  exists bs a', encoded ws v bs /\ any_decode a bs = DecOk a' [] /\
    any_decode_chunks a (map (@concat Z) groups ++ rest) = DecOk a' rest.
Proof. exact chunks_api. Qed.
Print Assumptions C15_field_aligned_chunks.
Example C15_case : concat [[[0xdd]; [0; 0; 0; 1]]; [[0xd1]]; [[1; 44]]] = pieces_top W64 (VArr ASliceIface [VInt 0 I16 300]).
Proof. reflexivity. Qed.

(* C16 *)
Definition C16_write_failures_reported : Prop := forall ws v bs w w',
  go_value ws v = true -> supported v = true -> encoded ws v bs ->
  any_encode flaky_wr ws (NewAny v) w = (None, w') -> received w' = received w ++ bs.
Theorem C16_write_failures_reported_refuted : ~ C16_write_failures_reported.
Proof.
  intros H.
  specialize (H W64 (VF64 0 0x3FF0000000000000) [0xcb; 0xcf; 0x3f; 0xf0; 0; 0; 0; 0; 0; 0] ([Some 0%nat], [])
    ([], [0xcf; 0x3f; 0xf0; 0; 0; 0; 0; 0; 0]) eq_refl eq_refl eq_refl eq_refl). discriminate.
Qed.
Print Assumptions C16_write_failures_reported_refuted.
Theorem C16_write_failures_without_floats : forall ws v w bs,
  go_value ws v = true -> supported v = true -> no_float v = true -> encoded ws v bs ->
  forall o w', any_encode flaky_wr ws (NewAny v) w = (o, w') ->
  match o with
  | None => received w' = received w ++ bs
  | Some _ => exists p q, bs = p ++ q /\ received w' = received w ++ p
  end.
Proof. exact flaky_api. Qed.
Print Assumptions C16_write_failures_without_floats.
Example C16_case : exists w', any_encode flaky_wr W64 (NewAny (VArr ASliceIface [VStr 0 [97; 98]; VNil])) ([None; None; Some 1%nat], [])
  = (Some EWrite, w') /\ received w' = [0xdd; 0; 0; 0; 2; 0xdb; 0; 0; 0; 2; 97].
Proof. eexists. split; reflexivity. Qed.

(* C17: [entry_wire kv e]: e is what the entry kv becomes *)
Theorem C17_map_restored : forall ws i l bs a rest, go_value ws (VMap i l) = true -> supported (VMap i l) = true ->
  encoded ws (VMap i l) bs ->
  ((exists m, any_decode a (bs ++ rest) = DecOk (NewAny (VMap true m)) rest /\ length m = length l) <->
   (exists es, Forall2 entry_wire l es /\ Forall (fun e => hashable (fst e) = true) es /\
               distinct_keys (map fst es) = true)) /\
  (forall es, Forall2 entry_wire l es -> Forall (fun e => hashable (fst e) = true) es -> distinct_keys (map fst es) = true ->
     any_decode a (bs ++ rest) = DecOk (NewAny (VMap true es)) rest).
Proof. exact map_restored. Qed.
Print Assumptions C17_map_restored.
Example C17_map_case : exists es, Forall2 entry_wire [(VInt 0 IInt 1, VNil); (VStr 0 [1], VBool 0 true)] es /\
  Forall (fun e => hashable (fst e) = true) es /\ distinct_keys (map fst es) = true.
Proof. exists [(VInt 0 I8 1, VNil); (VStr 0 [1], VBool 0 true)]. repeat (split || constructor). Qed.
Theorem C17_integer_keys_collapse : forall ws i n x y bs a rest, in_u 8 n -> go_value ws x = true -> go_value ws y = true ->
  safe x = true -> safe y = true ->
  encoded ws (VMap i [(VUint 0 U8 n, x); (VUint 0 U16 n, y)]) bs ->
  exists y', same_value y y' /\ any_decode a (bs ++ rest) = DecOk (NewAny (VMap true [(VUint 0 U8 n, y')])) rest.
Proof. exact int_key_collision. Qed.
Print Assumptions C17_integer_keys_collapse.
Theorem C17_nan_key_loses_value : forall ws i t b x bs a rest, go_value ws (VMap i [(VF64 t b, x)]) = true -> f64_eqb b b = false ->
  encoded ws (VMap i [(VF64 t b, x)]) bs ->
  any_decode a (bs ++ rest) = DecOk (NewAny (VMap true [(VF64 0 b, VNil)])) rest.
Proof. exact nan_key. Qed.
Print Assumptions C17_nan_key_loses_value.
Theorem C17_array_key_panics : forall ws i l t ks x bs a rest, go_value ws (VMap i l) = true -> supported (VMap i l) = true ->
  In (VArr (AArray t) ks, x) l -> encoded ws (VMap i l) bs -> any_decode a (bs ++ rest) = DecPanic.
Proof. exact array_key. Qed.
Print Assumptions C17_array_key_panics.
Example C17_keys_case : f64_eqb 0x7FF8000000000001 0x7FF8000000000001 = false /\
  exists bs, encoded W64 (VMap true [(VArr (AArray 1) [VInt 0 IInt 1], VNil)]) bs.
Proof. split; [reflexivity|]. eexists. reflexivity. Qed.
