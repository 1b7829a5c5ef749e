(* Property theorems C18-C22: messages, frames and the receive routine. *)
From Verif Require Import GoInt GoFloat GoVal CodecModel CodecSpec CodecApi ProtoModel PeerRecvModel ProtoSpec ProtoProof RecvProof.

(* C18: ws is the sender's platform, ws' the receiver's *)
Theorem C18_message_roundtrip : forall ws ws' p, proto_ok ws p = true -> fits ws' p = true ->
  exists f, marshal ws (pack p) = SOk f /\
    (Z.of_nat (length f) < max_frame ws' -> exists p', unmarshal ws' f = SOk (pack p') /\ same_proto p p').
Proof. exact packet_roundtrip. Qed.
Print Assumptions C18_message_roundtrip.
Definition C18_call : proto :=
  PRpcRequest (2 ^ 60) [102; 46; 99] [65; 100; 100] [VInt 0 IInt 7; VMap true [(VStr 0 [97], VArr ASliceOther [VF64 0 0x3FF8000000000000])]] true.
Example C18_case : proto_ok W64 C18_call = true /\ fits W32 C18_call = true /\
  exists f, marshal W64 (pack C18_call) = SOk f /\ unmarshal W32 f = SOk (pack
    (PRpcRequest (2 ^ 60) [102; 46; 99] [65; 100; 100] [VInt 0 I8 7; VMap true [(VStr 0 [97], VArr ASliceIface [VF64 0 0x3FF8000000000000])]] true)).
Proof. split; [reflexivity|]. split; [reflexivity|]. eexists. split; reflexivity. Qed.
Example C18_case_all_types : forallb (proto_ok W32)
  [PError [1]; PHeartbeat; PReady [[97]; []]; PRegisterRequest [[98]]; PRegisterResponse 20001; PQueryRequest [99]; PQueryResponse [100];
   PRpcRequest (-1) [] [] [] false; PRpcResponse 5 [97] [98] [VStr 0 [99]] []] = true.
Proof. reflexivity. Qed.

(* C19 *)
Theorem C19_framing : forall ws ws' p f, marshal ws p = SOk f -> Z.of_nat (length f) < max_frame ws' ->
  (forall rest, slice ws' (f ++ rest) = Z.of_nat (length f)) /\
  (forall a b, f = a ++ b -> b <> [] -> slice ws' a = 0).
Proof. exact marshal_framing. Qed.
Print Assumptions C19_framing.
(* any frame, not only those of Marshal *)
Theorem C19_framing_any_body : forall ws body, Z.of_nat (length (frame_of body)) < max_frame ws ->
  (forall rest, slice ws (frame_of body ++ rest) = Z.of_nat (length (frame_of body))) /\
  (forall a b, frame_of body = a ++ b -> b <> [] -> slice ws a = 0).
Proof. exact body_framing. Qed.
Print Assumptions C19_framing_any_body.
Example C19_case : marshal W64 (pack (PQueryRequest [97])) = SOk [8; 0; 0; 0; 0xcc; 5; 0xdb; 0; 0; 0; 1; 97] /\
  slice W64 [8; 0; 0; 0; 0xcc; 5; 0xdb; 0; 0; 0; 1; 97; 2; 0; 0] = 12 /\ slice W64 [8; 0; 0; 0; 0xcc; 5; 0xdb; 0; 0; 0; 1] = 0.
Proof. repeat split. Qed.

(* C20: [post] is what has not arrived yet *)
Theorem C20_reassembly : forall ws ws' ps frames chunks post,
  Forall2 (sent ws ws') ps frames -> concat frames = concat chunks ++ post ->
  exists k qs part,
    recv_all (ferry_serializer ws') chunks = mkReceived (map pack qs) part false /\
    Forall2 same_proto (firstn k ps) qs /\ (k <= length ps)%nat /\
    concat chunks = concat (firstn k frames) ++ part /\
    ((k = length ps /\ part = []) \/ exists f q, nth_error frames k = Some f /\ f = part ++ q /\ q <> []).
Proof. exact reassembly. Qed.
Print Assumptions C20_reassembly.
(* for any bytes at all, only their concatenation counts *)
Theorem C20_segmentation_irrelevant : forall ws chunks chunks', concat chunks = concat chunks' ->
  let r := recv_all (ferry_serializer ws) chunks in let r' := recv_all (ferry_serializer ws) chunks' in
  delivered r = delivered r' /\ crashed r = crashed r' /\ (crashed r = false -> buffered r = buffered r').
Proof. intros ws. exact (segmentation (ferry_serializer ws) (ferry_stable ws)). Qed.
Print Assumptions C20_segmentation_irrelevant.
Definition C20_frames : list (list Z) := [[2; 0; 0; 0; 0xcc; 1]; [8; 0; 0; 0; 0xcc; 5; 0xdb; 0; 0; 0; 1; 97]].
Example C20_case : Forall2 (sent W64 W32) [PHeartbeat; PQueryRequest [97]] C20_frames /\
  recv_all (ferry_serializer W32) [[2; 0]; []; [0; 0; 0xcc; 1; 8; 0]; [0; 0; 0xcc]] = mkReceived [pack PHeartbeat] [8; 0; 0; 0; 0xcc] false.
Proof. split; [repeat constructor|reflexivity]. Qed.

(* C21 *)
Definition C21_no_bytes_crash : Prop := forall ws chunks, crashed (recv_all (ferry_serializer ws) chunks) = false.
Theorem C21_no_bytes_crash_refuted : ~ C21_no_bytes_crash.
Proof. intros H. specialize (H W64 [[2; 0; 0; 0; 0xcc; 9]]). vm_compute in H. discriminate. Qed.
Print Assumptions C21_no_bytes_crash_refuted.
Theorem C21_genuine_frames_safe : forall ws ws' ps frames chunks post,
  Forall2 (sent ws ws') ps frames -> concat frames = concat chunks ++ post ->
  crashed (recv_all (ferry_serializer ws') chunks) = false.
Proof. exact genuine_safe. Qed.
Print Assumptions C21_genuine_frames_safe.
Theorem C21_unknown_id_crashes : forall ws id rest chunks post, 8 < id < 256 ->
  concat chunks = frame_of (0xcc :: id :: rest) ++ post ->
  Z.of_nat (length (frame_of (0xcc :: id :: rest))) < max_frame ws ->
  crashed (recv_all (ferry_serializer ws) chunks) = true.
Proof. exact unknown_id. Qed.
Print Assumptions C21_unknown_id_crashes.
Theorem C21_empty_body_crashes : forall ws chunks post, concat chunks = frame_of [] ++ post ->
  crashed (recv_all (ferry_serializer ws) chunks) = true.
Proof. exact empty_body. Qed.
Print Assumptions C21_empty_body_crashes.
Theorem C21_short_body_crashes : forall ws id rest chunks post, 0 <= id < 9 -> id <> 1 ->
  (rest = [] \/ exists t, ~ In t known_tags /\ exists r, rest = t :: r) ->
  concat chunks = frame_of (0xcc :: id :: rest) ++ post ->
  Z.of_nat (length (frame_of (0xcc :: id :: rest))) < max_frame ws ->
  crashed (recv_all (ferry_serializer ws) chunks) = true.
Proof. exact short_body. Qed.
Print Assumptions C21_short_body_crashes.
Theorem C21_non_string_slots_crash : forall ws ws' id l chunks post, id = 2 \/ id = 3 ->
  go_value ws (VArr ASliceIface l) = true -> safe (VArr ASliceIface l) = true -> (exists x, In x l /\ (forall t s, x <> VStr t s)) ->
  forall bs, encoded ws (VArr ASliceIface l) bs ->
  concat chunks = frame_of (0xcc :: id :: bs) ++ post ->
  Z.of_nat (length (frame_of (0xcc :: id :: bs))) < max_frame ws' ->
  crashed (recv_all (ferry_serializer ws') chunks) = true.
Proof. exact non_string_slots. Qed.
Print Assumptions C21_non_string_slots_crash.
(* an ordinary call or answer carrying 0.0 (or any float of small bit pattern) *)
Theorem C21_float_argument_crashes : forall ws ws' request i s m args w e v f chunks post,
  in_s 64 i -> str_ok s = true -> str_ok m = true -> str_ok e = true ->
  go_value ws (VArr ASliceIface args) = true -> supported (VArr ASliceIface args) = true ->
  In v args -> float_ok v = false ->
  marshal ws (pack (rpc request i s m args w e)) = SOk f -> Z.of_nat (length f) < max_frame ws' ->
  concat chunks = f ++ post -> crashed (recv_all (ferry_serializer ws') chunks) = true.
Proof. exact float_call. Qed.
Print Assumptions C21_float_argument_crashes.
Example C21_float_case : float_ok (VF64 0 0) = false /\
  exists f, marshal W64 (pack (rpc true 1 [97] [98] [VStr 0 [120]; VF64 0 0] true [])) = SOk f /\ Z.of_nat (length f) < max_frame W64.
Proof. split; [reflexivity|]. eexists. split; reflexivity. Qed.
Theorem C21_unmarshal_terminates : forall ws d, unmarshal ws d <> SFuel.
Proof. exact unmarshal_no_fuel. Qed.
Print Assumptions C21_unmarshal_terminates.
(* the loop only stops when no packet is left *)
Theorem C21_buffer_fully_drained : forall ws chunks, let r := recv_all (ferry_serializer ws) chunks in
  crashed r = false -> slice ws (buffered r) <= 0.
Proof. intros ws. exact (recv_rest (ferry_serializer ws) (ferry_stable ws)). Qed.
Print Assumptions C21_buffer_fully_drained.
(* 32-bit receivers: a length field near 2^31 or above stops the connection for good *)
Theorem C21_wedge_32bit : forall hd rest chunks, bytes_ok (hd ++ rest) -> length hd = 4%nat -> concat chunks = hd ++ rest ->
  (2 ^ 31 - 4 <= le_val hd <= 2 ^ 32 - 4 -> recv_all (ferry_serializer W32) chunks = mkReceived [] (concat chunks) false) /\
  (2 ^ 32 - 4 < le_val hd -> crashed (recv_all (ferry_serializer W32) chunks) = true).
Proof. exact wedge_w32. Qed.
Print Assumptions C21_wedge_32bit.
Example C21_cases : frame_of [0xcc; 9] = [2; 0; 0; 0; 0xcc; 9] /\ known_tags <> [] /\ ~ In 0x7f known_tags /\
  le_val [0; 0; 0; 128] = 2 ^ 31 /\ le_val [255; 255; 255; 255] = 2 ^ 32 - 1 /\
  exists bs, encoded W64 (VArr ASliceIface [VStr 0 [97]; VNil]) bs /\ slice W64 (frame_of (0xcc :: 3 :: bs)) = 18.
Proof.
  split; [reflexivity|]. split; [discriminate|]. split; [intros H; repeat (destruct H as [H|H]; [discriminate|]); exact H|].
  split; [reflexivity|]. split; [reflexivity|]. eexists. split; reflexivity.
Qed.

(* C22 *)
Theorem C22_txt_segments : forall chunks, recv_all txt_serializer chunks =
  mkReceived (fst (segments (concat chunks))) (snd (segments (concat chunks))) false.
Proof. exact txt_recv. Qed.
Print Assumptions C22_txt_segments.
Theorem C22_segments_meaning : forall l, Forall terminated (fst (segments l)) /\ ~ In 0 (snd (segments l)) /\
  concat (fst (segments l)) ++ snd (segments l) = l.
Proof. exact segments_terminated. Qed.
Print Assumptions C22_segments_meaning.
Theorem C22_txt_faithful : forall chunks ss, concat chunks = concat (map txt_marshal ss) ->
  (recv_all txt_serializer chunks = mkReceived ss [] false <-> Forall terminated ss).
Proof. exact txt_faithful. Qed.
Print Assumptions C22_txt_faithful.
Example C22_case : recv_all txt_serializer [[97]; [0; 0; 98]; [99]] = mkReceived [[97; 0]; [0]] [98; 99] false.
Proof. reflexivity. Qed.
