(* C69: peers on the mock network. *)
From Verif Require Import GoInt GoVal CodecModel ProtoModel ProtoSpec PeerRecvModel RecvProof.
From Verif Require Import MockModel MockSpec ConnModel MockPeerSpec MockPeerProof.
From Coq Require Import List ZArith Lia.
Import ListNotations.
Open Scope Z_scope.

(* A connection of the mock network (conn 0 dialled, conn 1 accepted), then each slice
   written on conn 0 and read on conn 1 with a peer's buffer. *)
Definition buffer : nat := Z.to_nat cRecvBytesSize.
Definition at_a : name := [97; 58; 49].
Definition connect : list mlab :=
  [MListen at_a; MDial at_a; MTick 0 false; MTick 0 false; MAccept 0 0; MGo 0; MGo 0; MGo 0; MTick 0 false; MTick 0 false]%nat.
Definition pass (b : list Z) : list mlab := [MWrite 0 0 (Some b); MGo 0; MGo 0; MRead 1 buffer]%nat.
Lemma passed3 n b1 b2 b3 : exists s,
  mexec (connect ++ concat (map (fun b => [MWrite 0 0 (Some b); MGo 0; MGo 0; MRead 1 n]%nat) [b1; b2; b3])) = Some s /\
  ends (hist s) 0 1 /\ peer_writes 0 (hist s) [b1; b2; b3] /\ (Z.of_nat n = cRecvBytesSize -> peer_reads 1 (hist s)) /\
  chunks 1 (hist s) = [firstn n b1; firstn n b2; firstn n b3].
Proof.
  eexists. split; [vm_compute; reflexivity|]. split; [exists 0%nat; right; cbn; auto|]. split; [exists 0%nat; reflexivity|].
  split; [|reflexivity]. intros B m r K. cbn in K. destruct K as [K|[K|[K|[]]]]; injection K as <- _; exact B.
Qed.
(* the frame of a message *)
Definition frame (p : proto) : list Z := match marshal W64 (pack p) with SOk f => f | _ => [] end.
Definition hello : proto := PRegisterRequest [[97]; [98]].
Definition call : proto := PRpcRequest 7 [97] [109] [VInt 1 I64 5; VStr 2 [120]] true.
Definition long_call : proto := PRpcRequest 7 [97] [109] [VStr 2 (repeat 120 (Z.to_nat 11000))] true.

(* What the receive routine reads are the frames written, in order, each cut to the size of
   its buffer, all but possibly the last. *)
Theorem C69_cut : forall ls s c d frames, mexec ls = Some s -> ends (hist s) c d ->
  peer_writes c (hist s) frames -> peer_reads d (hist s) ->
  exists got rest, frames = got ++ rest /\ (length rest <= 1)%nat /\
    chunks d (hist s) = map (firstn (Z.to_nat cRecvBytesSize)) got.
Proof. exact read_cut. Qed.
Print Assumptions C69_cut.
(* So packets whose frames have at most 10240 bytes arrive, *)
Theorem C69_short_packets_arrive : forall ws ws' ls s c d ps frames, mexec ls = Some s -> ends (hist s) c d ->
  peer_writes c (hist s) frames -> peer_reads d (hist s) ->
  Forall2 (ProtoSpec.sent ws ws') ps frames -> Forall short frames ->
  exists k qs, recv_all (ferry_serializer ws') (chunks d (hist s)) = mkReceived (map pack qs) [] false /\
    Forall2 same_proto (firstn k ps) qs /\ (k <= length ps <= k + 1)%nat.
Proof. exact short_packets_arrive. Qed.
Print Assumptions C69_short_packets_arrive.
Example C69_short_ex : exists s, mexec (connect ++ pass (frame hello) ++ pass (frame call) ++ [MClose 0 0; MGo 0; MGo 0; MGo 0]%nat) = Some s /\
  ends (hist s) 0 1 /\ peer_writes 0 (hist s) [frame hello; frame call] /\ peer_reads 1 (hist s) /\
  Forall2 (ProtoSpec.sent W64 W32) [hello; call] [frame hello; frame call] /\ Forall short [frame hello; frame call] /\
  map p_p (delivered (recv_all (ferry_serializer W32) (chunks 1 (hist s)))) = [hello; PRpcRequest 7 [97] [109] [VInt 0 I8 5; VStr 0 [120]] true].
Proof.
  eexists. split; [vm_compute; reflexivity|]. split; [exists 0%nat; right; vm_compute; tauto|].
  split; [exists 1%nat; vm_compute; reflexivity|].
  split; [intros n r H; vm_compute in H; destruct H as [H|[H|[]]]; injection H as <- _; vm_compute; reflexivity|].
  split; [repeat constructor; vm_compute; reflexivity|]. split; [repeat constructor; vm_compute; discriminate|]. vm_compute. reflexivity.
Qed.
(* and so do texts, *)
Theorem C69_short_texts_arrive : forall ls s c d ss, mexec ls = Some s -> ends (hist s) c d ->
  peer_writes c (hist s) (map txt_marshal ss) -> peer_reads d (hist s) -> Forall short ss -> Forall terminated ss ->
  exists k, recv_all txt_serializer (chunks d (hist s)) = mkReceived (firstn k ss) [] false /\ (k <= length ss <= k + 1)%nat.
Proof. exact short_texts_arrive. Qed.
Print Assumptions C69_short_texts_arrive.
Example C69_text_ex : exists s, mexec (connect ++ pass [72; 0] ++ pass [87; 33; 0]) = Some s /\
  ends (hist s) 0 1 /\ peer_writes 0 (hist s) [[72; 0]; [87; 33; 0]] /\ peer_reads 1 (hist s) /\ Forall terminated [[72; 0]; [87; 33; 0]].
Proof.
  eexists. split; [vm_compute; reflexivity|]. split; [exists 0%nat; right; vm_compute; tauto|].
  split; [exists 0%nat; vm_compute; reflexivity|].
  split; [intros n r H; vm_compute in H; destruct H as [H|[H|[]]]; injection H as <- _; vm_compute; reflexivity|].
  repeat constructor; [exists [72]|exists [87; 33]]; split; try reflexivity; cbn; intuition discriminate.
Qed.
(* but a longer one does not, and with it are lost the packets after it, up to the number
   of bytes cut off: they are taken for the rest of it. *)
Theorem C69_long_packet_lost : forall ws ws' ls s c d p f fs, mexec ls = Some s -> ends (hist s) c d ->
  peer_writes c (hist s) (f :: fs) -> peer_reads d (hist s) -> ProtoSpec.sent ws ws' p f ->
  cRecvBytesSize + total fs < Z.of_nat (length f) ->
  recv_all (ferry_serializer ws') (chunks d (hist s)) = mkReceived [] (concat (chunks d (hist s))) false.
Proof. exact long_packet_lost. Qed.
Print Assumptions C69_long_packet_lost.
Example C69_long_ex : exists s, mexec (connect ++ concat (map pass [frame long_call; frame hello; frame call])) = Some s /\
  ends (hist s) 0 1 /\ peer_writes 0 (hist s) [frame long_call; frame hello; frame call] /\ peer_reads 1 (hist s) /\
  ProtoSpec.sent W64 W64 long_call (frame long_call) /\ cRecvBytesSize + total [frame hello; frame call] < Z.of_nat (length (frame long_call)) /\
  Z.of_nat (length (concat (chunks 1 (hist s)))) = 10240 + total [frame hello; frame call].
Proof.
  destruct (passed3 buffer (frame long_call) (frame hello) (frame call)) as (s & E & H1 & H2 & H3 & H4).
  exists s. split; [exact E|]. split; [exact H1|]. split; [exact H2|]. split; [apply H3; vm_compute; reflexivity|].
  split; [repeat split; vm_compute; reflexivity|]. rewrite H4. split; vm_compute; reflexivity.
Qed.
