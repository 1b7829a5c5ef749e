(* C69: peers on the mock network. *)
From Verif Require Import GoInt GoVal CodecModel ProtoModel ProtoSpec ProtoProof PeerRecvModel RecvProof.
From Verif Require Import MockModel MockSpec MockProof ConnModel MockPeerSpec.
From Coq Require Import Arith List ZArith Lia.
Import ListNotations.
Open Scope nat_scope.

Definition somes (l : list (option (list Z))) : list (list Z) := flat_map (fun x => match x with Some b => [b] | None => [] end) l.
Lemma somes_app a b : somes (a ++ b) = somes a ++ somes b.
Proof. apply flat_map_app. Qed.
Lemma somes_written frames n : somes (map Some frames ++ repeat None n) = frames.
Proof.
  rewrite somes_app. replace (somes (repeat None n)) with (@nil (list Z)) by (induction n; auto).
  rewrite app_nil_r. induction frames as [|f r IH]; [reflexivity|]. cbn. f_equal. exact IH.
Qed.
Lemma firstn_read {A} (r rest : list A) n : (length (r ++ rest) <= n -> rest = []) -> (n < length (r ++ rest) -> length r = n) ->
  firstn n (r ++ rest) = r.
Proof.
  intros H1 H2. destruct (Nat.le_gt_cases (length (r ++ rest)) n) as [L|L].
  - rewrite (H1 L), app_nil_r. apply firstn_all2. rewrite (H1 L), app_nil_r in L. exact L.
  - rewrite <- (H2 L), firstn_app, Nat.sub_diag, firstn_O, app_nil_r. apply firstn_all.
Qed.

Lemma read_cut ls s c d frames : mexec ls = Some s -> ends (hist s) c d ->
  peer_writes c (hist s) frames -> peer_reads d (hist s) ->
  exists got rest, frames = got ++ rest /\ length rest <= 1 /\
    chunks d (hist s) = map (firstn (Z.to_nat cRecvBytesSize)) got.
Proof.
  intros R E (n & W) Rd. destruct (connection_delivers _ _ _ _ R E) as (tk & rest & Ek & F & Lr).
  exists (somes tk), (somes rest). split; [symmetry; etransitivity; [symmetry; apply (somes_app tk rest)|]; etransitivity; [apply (f_equal somes); symmetry; exact Ek|]; etransitivity; [apply (f_equal somes); exact W|apply somes_written]|].
  split; [destruct rest as [|[b|] [|]]; cbn in *; lia|]. clear Ek Lr R E W.
  unfold chunks, peer_reads in *. induction F as [|w [m r] tk rs F FF IH]; [reflexivity|].
  cbn [flat_map somes map app]. rewrite map_app. f_equal; [|apply IH; intros; eapply Rd; right; eauto]. cbn [snd].
  destruct w as [b|]; cbn in F; [|subst r; reflexivity]. destruct F as (r' & x & -> & -> & H1 & H2). cbn [map].
  rewrite <- (Rd _ _ (or_introl eq_refl)), Nat2Z.id, firstn_read; auto.
Qed.

Lemma firstn_short got : Forall short got -> map (firstn (Z.to_nat cRecvBytesSize)) got = got.
Proof.
  induction 1 as [|f r H _ IH]; [reflexivity|]. cbn [map]. rewrite IH, firstn_all2; [reflexivity|].
  unfold short in H. change cRecvBytesSize with 10240%Z in *. lia.
Qed.

Lemma short_packets_arrive ws ws' ls s c d ps frames : mexec ls = Some s -> ends (hist s) c d ->
  peer_writes c (hist s) frames -> peer_reads d (hist s) ->
  Forall2 (ProtoSpec.sent ws ws') ps frames -> Forall short frames ->
  exists k qs, recv_all (ferry_serializer ws') (chunks d (hist s)) = mkReceived (map pack qs) [] false /\
    Forall2 same_proto (firstn k ps) qs /\ k <= length ps <= k + 1.
Proof.
  intros R E W Rd Fs Sh. destruct (read_cut _ _ _ _ _ R E W Rd) as (got & rest & -> & Lr & Ec).
  apply Forall_app in Sh as [Sg _]. rewrite firstn_short in Ec by exact Sg. rewrite Ec.
  pose proof (forall2_length' _ _ _ Fs) as L. rewrite app_length in L.
  assert (Fg : Forall2 (ProtoSpec.sent ws ws') (firstn (length got) ps) got).
  { replace got with (firstn (length got) (got ++ rest)) at 2 by (rewrite firstn_app, Nat.sub_diag, firstn_O, app_nil_r; apply firstn_all).
    apply forall2_firstn, Fs. }
  destruct (reassembly ws ws' _ got got [] Fg) as (k & qs & part & E1 & E2 & E3 & E4 & E5); [symmetry; apply app_nil_r|].
  rewrite firstn_length in E3.
  assert (K : k = length got /\ part = []).
  { destruct E5 as [[-> ->]|(f & q & En & Ef & Nq)]; [split; [|reflexivity]; rewrite firstn_length; lia|].
    exfalso. assert (Lk : k < length got) by (apply nth_error_Some; congruence).
    apply (f_equal (@length Z)) in E4. rewrite app_length in E4.
    assert (Hc : concat got = concat (firstn k got) ++ concat (skipn k got)) by (rewrite <- concat_app, firstn_skipn; reflexivity).
    assert (Hs : skipn k got = f :: skipn (S k) got).
    { clear -En. revert k En. induction got as [|g r IH]; intros [|k] En; cbn in *; try discriminate; [congruence|auto]. }
    rewrite Hc, Hs, app_length in E4. cbn [concat] in E4. rewrite Ef, !app_length in E4.
    destruct q; [congruence|]. cbn [length] in E4. lia. }
  destruct K as [-> ->]. exists (length got), qs. rewrite firstn_firstn, Nat.min_id in E2. split; [exact E1|]. split; [exact E2|]. lia.
Qed.

(* only the first four bytes and the length count *)
Lemma slice_short_of ws' f x t : ProtoModel.slice ws' f = Z.of_nat (length f) -> 4 <= length f -> x = firstn 4 f ++ t -> length x < length f -> ProtoModel.slice ws' x = 0%Z.
Proof.
  intros S L -> Lx. destruct f as [|a [|b [|c [|e f]]]]; cbn [length] in L; try lia. cbn [firstn app] in *.
  unfold ProtoModel.slice in *. destruct (Z.ltb_spec (Z.of_nat (length (a :: b :: c :: e :: f))) 4); [cbn [length] in *; lia|].
  change (header_length ws' (a :: b :: c :: e :: t)) with (header_length ws' (a :: b :: c :: e :: f)).
  destruct (Z.ltb_spec (Z.of_nat (length (a :: b :: c :: e :: t))) 4); [reflexivity|].
  set (n := swrap _ _) in *. destruct (Z.ltb_spec (Z.of_nat (length (a :: b :: c :: e :: f))) n); [cbn [length] in S; lia|].
  rewrite S. destruct (Z.ltb_spec (Z.of_nat (length (a :: b :: c :: e :: t))) (Z.of_nat (length (a :: b :: c :: e :: f)))); [reflexivity|lia].
Qed.

Lemma long_packet_lost ws ws' ls s c d p f fs : mexec ls = Some s -> ends (hist s) c d ->
  peer_writes c (hist s) (f :: fs) -> peer_reads d (hist s) -> ProtoSpec.sent ws ws' p f ->
  (cRecvBytesSize + total fs < Z.of_nat (length f))%Z ->
  recv_all (ferry_serializer ws') (chunks d (hist s)) = mkReceived [] (concat (chunks d (hist s))) false.
Proof.
  intros R E W Rd Sf L. destruct (read_cut _ _ _ _ _ R E W Rd) as (got & rest & Eg & Lr & Ec).
  destruct (recv_concat (ferry_serializer ws') (ferry_stable ws') (chunks d (hist s))) as (R1 & R2 & R3).
  destruct (sent_frame _ _ _ _ Sf) as (S0 & _). specialize (S0 []). rewrite app_nil_r in S0.
  set (x := concat (chunks d (hist s))) in *. unfold total in L. change cRecvBytesSize with 10240%Z in *.
  assert (Sx : ProtoModel.slice ws' x = 0%Z).
  { destruct got as [|g got]; [unfold x; rewrite Ec; reflexivity|]. injection Eg as <- ->.
    apply (slice_short_of ws' f x (skipn 4 (firstn (Z.to_nat 10240) f) ++ concat (map (firstn (Z.to_nat 10240)) got))); [exact S0|lia| |].
    - unfold x. rewrite Ec. cbn [map concat]. rewrite app_assoc. f_equal.
      rewrite <- (firstn_skipn 4 (firstn (Z.to_nat 10240) f)) at 1. f_equal. rewrite firstn_firstn. reflexivity.
    - unfold x. rewrite Ec. cbn [map concat]. rewrite app_length, firstn_length.
      assert (H : length (concat (map (firstn (Z.to_nat 10240)) got)) <= length (concat (got ++ rest))).
      { clear. induction got as [|g r IH]; cbn [map concat app]; [cbn; lia|]. rewrite !app_length, firstn_length. lia. }
      lia. }
  assert (D : drained (ferry_serializer ws') x = mkReceived [] x false).
  { change x with (concat [] ++ x) at 1. apply (drained_frames _ (ferry_stable ws') [] [] x); [constructor|]. cbn. rewrite Sx. lia. }
  rewrite D in R1, R2, R3. cbn in R1, R2, R3. specialize (R3 R2).
  destruct (recv_all (ferry_serializer ws') (chunks d (hist s))) as [a b e]. cbn in *. subst. reflexivity.
Qed.

Lemma short_texts_arrive ls s c d ss : mexec ls = Some s -> ends (hist s) c d ->
  peer_writes c (hist s) (map txt_marshal ss) -> peer_reads d (hist s) -> Forall short ss -> Forall terminated ss ->
  exists k, recv_all txt_serializer (chunks d (hist s)) = mkReceived (firstn k ss) [] false /\ k <= length ss <= k + 1.
Proof.
  intros R E W Rd Sh T. unfold txt_marshal in W. rewrite map_id in W.
  destruct (read_cut _ _ _ _ _ R E W Rd) as (got & rest & -> & Lr & Ec).
  apply Forall_app in Sh as [Sg _]. apply Forall_app in T as [Tg _]. rewrite firstn_short in Ec by exact Sg.
  exists (length got). rewrite app_length. split; [|lia].
  rewrite firstn_app, Nat.sub_diag, firstn_O, app_nil_r, firstn_all. apply txt_faithful; [|exact Tg].
  rewrite Ec. unfold txt_marshal. rewrite map_id. reflexivity.
Qed.
