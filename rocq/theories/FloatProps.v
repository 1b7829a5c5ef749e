(* C63: conversions between float32 and float64 are those of IEEE-754. *)
From Verif Require Import GoInt GoFloat GoVal CodecModel CodecSpec MetaModel FloatSpec FloatProof FloatProof2.

(* the float32 accessor of IAny on a float64 *)
Theorem C63_accessor_narrows : forall ws b, in_u 64 b ->
  exists b', access ws GetFloat32 (NewAny (VF64 0 b)) = AOk (VF32 0 b') /\ nearest32 b b'.
Proof. exact accessor_narrows. Qed.
Print Assumptions C63_accessor_narrows.
(* 0.1 rounds up; a tie goes to the even neighbour; 3.5e38 is too large *)
Example C63_accessor_case :
  access W64 GetFloat32 (NewAny (VF64 0 0x3FB999999999999A)) = AOk (VF32 0 0x3DCCCCCD) /\
  access W64 GetFloat32 (NewAny (VF64 0 0x3FF0000010000000)) = AOk (VF32 0 0x3F800000) /\
  access W64 GetFloat32 (NewAny (VF64 0 0x3FF0000030000000)) = AOk (VF32 0 0x3F800002) /\
  access W64 GetFloat32 (NewAny (VF64 0 0x47F0745F4C6B5B82)) = AOk (VF32 0 0x7F800000) /\
  in_u 64 0x3FB999999999999A.
Proof. repeat split; vm_compute; congruence. Qed.

(* the float64 accessor on a float32 *)
Theorem C63_accessor_widens : forall ws b, in_u 32 b ->
  exists b', access ws GetFloat64 (NewAny (VF32 0 b)) = AOk (VF64 0 b') /\ widened b b'.
Proof. exact accessor_widens. Qed.
Print Assumptions C63_accessor_widens.
Example C63_accessor_widens_case : access W64 GetFloat64 (NewAny (VF32 0 0x00000001)) = AOk (VF64 0 0x36A0000000000000) /\ in_u 32 1.
Proof. repeat split; vm_compute; congruence. Qed.

(* a float64 argument for a float32 parameter, and the reverse *)
Theorem C63_parameter_narrows : forall ws open t t' b, in_u 64 b ->
  exists b', convert ws open (TyF32 t) (VF64 t' b) = Some (VF32 t b') /\ nearest32 b b'.
Proof. exact parameter_narrows. Qed.
Print Assumptions C63_parameter_narrows.
Theorem C63_parameter_widens : forall ws open t t' b, in_u 32 b ->
  exists b', convert ws open (TyF64 t) (VF32 t' b) = Some (VF64 t b') /\ widened b b'.
Proof. exact parameter_widens. Qed.
Print Assumptions C63_parameter_widens.
Example C63_parameter_case :
  convert W64 (fun _ _ => None) (TyF32 0) (VF64 0 0xBFB999999999999A) = Some (VF32 0 0xBDCCCCCD) /\
  convert W64 (fun _ _ => None) (TyF64 3) (VF32 0 0xFF800000) = Some (VF64 3 0xFFF0000000000000).
Proof. split; vm_compute; reflexivity. Qed.

(* a float32 of a defined type, or in a container, is written as the float64 equal to it *)
Theorem C63_encoder_widens : forall ws t b w, t <> 0 -> in_u 32 b ->
  exists b', any_encode buf_wr ws (NewAny (VF32 t b)) w = (None, w ++ fmt_f64 b') /\
             any_encode buf_wr ws (NewAny (VArr ASliceIface [VF32 0 b])) w = (None, w ++ fmt_len 0xdd 1 ++ fmt_f64 b') /\ widened b b'.
Proof. exact encoder_widens. Qed.
Print Assumptions C63_encoder_widens.
Example C63_encoder_case : any_encode buf_wr W64 (NewAny (VF32 7 0x3F800000)) [] = (None, [0xcb; 0xcf; 0x3f; 0xf0; 0; 0; 0; 0; 0; 0]) /\ in_u 32 0x3F800000.
Proof. repeat split; vm_compute; congruence. Qed.

(* [nearest32] names one pattern, unless the number is NaN *)
Theorem C63_nearest_unique : forall b b1 b2, f64_is_nan b = false -> nearest32 b b1 -> nearest32 b b2 -> b1 = b2.
Proof. exact nearest32_unique. Qed.
Print Assumptions C63_nearest_unique.
Example C63_nearest_case : f64_is_nan 0x3FB999999999999A = false /\ nearest32 0x3FB999999999999A 0x3DCCCCCD.
Proof. split; [reflexivity|]. change 0x3DCCCCCD with (f64_narrow 0x3FB999999999999A). apply f64_narrow_nearest. unfold in_u. lia. Qed.
