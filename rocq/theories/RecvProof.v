(* Lemmas for the receive loop: segmentation does not matter. *)
From Verif Require Import GoInt GoFloat GoVal CodecModel CodecSpec CodecApi CodecProof2 CodecProof4 CodecProof6 CodecProof7 CodecProof8 CodecProof9 ProtoModel PeerRecvModel ProtoSpec ProtoProof.
From Coq Require Import ZifyBool ZifyNat.
Ltac Zify.zify_post_hook ::= idtac.

Section Generic.
Context {P : Type} (s : serializer P).

(* more input does not change where the first packet ends *)
Definition stable : Prop :=
  forall b t, 0 < ser_slice s b -> ser_slice s b <= Z.of_nat (length b) /\ ser_slice s (b ++ t) = ser_slice s b.
Hypothesis Hst : stable.

Definition drained (buf : bytes) : received P := drain s (S (length buf)) buf.

Lemma drain_fuel f : forall buf, (length buf < f)%nat -> drain s f buf = drained buf.
Proof.
  unfold drained. induction f as [|f IH]; intros buf H; [lia|]. cbn [drain].
  destruct (Z.ltb_spec 0 (ser_slice s buf)) as [Hp|]; [|reflexivity].
  destruct (Hst buf [] Hp) as [Hle _].
  destruct (ser_unmarshal s _); try reflexivity.
  assert (Hl : (length (skipn (Z.to_nat (ser_slice s buf)) buf) < length buf)%nat) by (rewrite skipn_length; lia).
  rewrite (IH (skipn (Z.to_nat (ser_slice s buf)) buf)) by lia.
  destruct (length buf) as [|n] eqn:En; [lia|].
  assert (E : drain s (S n) (skipn (Z.to_nat (ser_slice s buf)) buf) =
     drain s (S (length (skipn (Z.to_nat (ser_slice s buf)) buf))) (skipn (Z.to_nat (ser_slice s buf)) buf)).
  2:{ rewrite E. reflexivity. }
  clear -Hst Hl En IH. revert Hl. generalize (skipn (Z.to_nat (ser_slice s buf)) buf) as c. intros c Hc.
  (* by strong induction, independent of f *)
  assert (G : forall k m c, (length c < k)%nat -> (length c < m)%nat -> drain s k c = drain s m c).
  { clear -Hst. induction k as [|k IHk]; intros m c Hk Hm; [lia|]. destruct m as [|m]; [lia|]. cbn [drain].
    destruct (Z.ltb_spec 0 (ser_slice s c)) as [Hp|]; [|reflexivity]. destruct (Hst c [] Hp) as [Hle _].
    destruct (ser_unmarshal s _); try reflexivity.
    rewrite (IHk m (skipn (Z.to_nat (ser_slice s c)) c)); [reflexivity| |]; rewrite skipn_length; lia. }
  apply G; lia.
Qed.

Lemma drained_step buf : drained buf =
  if 0 <? ser_slice s buf then
    let n := Z.to_nat (ser_slice s buf) in
    match ser_unmarshal s (firstn n buf) with
    | SOk p => let x := drained (skipn n buf) in mkReceived (p :: delivered x) (buffered x) (crashed x)
    | _ => mkReceived [] (skipn n buf) true
    end
  else mkReceived [] buf false.
Proof.
  unfold drained at 1. cbn [drain]. destruct (Z.ltb_spec 0 (ser_slice s buf)) as [Hp|]; [|reflexivity].
  destruct (Hst buf [] Hp) as [Hle _]. cbv zeta.
  replace (Z.to_nat (ser_slice s buf) - length buf)%nat with 0%nat by lia. cbn [repeat]. rewrite app_nil_r.
  destruct (ser_unmarshal s _); try reflexivity. rewrite drain_fuel; [reflexivity|]. rewrite skipn_length. lia.
Qed.

Lemma drained_app : forall n a b, (length a <= n)%nat ->
  delivered (drained (a ++ b)) =
    (if crashed (drained a) then delivered (drained a)
     else delivered (drained a) ++ delivered (drained (buffered (drained a) ++ b))) /\
  crashed (drained (a ++ b)) =
    (if crashed (drained a) then true else crashed (drained (buffered (drained a) ++ b))) /\
  (crashed (drained a) = false -> buffered (drained (a ++ b)) = buffered (drained (buffered (drained a) ++ b))).
Proof.
  induction n as [|n IH]; intros a b Hn; rewrite (drained_step a).
  - destruct a; [|cbn in Hn; lia]. destruct (Z.ltb_spec 0 (ser_slice s [])) as [Hp|Hp].
    + destruct (Hst [] [] Hp) as [H _]. cbn in H. lia.
    + cbn. auto.
  - destruct (Z.ltb_spec 0 (ser_slice s a)) as [Hp|Hp]; [|cbn; auto].
    destruct (Hst a b Hp) as [Hle Hs]. rewrite (drained_step (a ++ b)), Hs.
    replace (0 <? ser_slice s a) with true by lia. cbv zeta.
    rewrite firstn_app, skipn_app. replace (Z.to_nat (ser_slice s a) - length a)%nat with 0%nat by lia.
    rewrite firstn_O, app_nil_r. cbn [skipn].
    destruct (ser_unmarshal s (firstn (Z.to_nat (ser_slice s a)) a)); cbn [delivered crashed buffered];
      try (split; [reflexivity|split; [reflexivity|discriminate]]).
    destruct (IH (skipn (Z.to_nat (ser_slice s a)) a) b) as (H1 & H2 & H3); [rewrite skipn_length; lia|].
    rewrite H1, H2. repeat split.
    + destruct (crashed (drained (skipn (Z.to_nat (ser_slice s a)) a))); reflexivity.
    + exact H3.
Qed.

(* the receiver's result depends only on the concatenation *)
Lemma recv_concat_from chunks : forall st pre,
  delivered st = delivered (drained pre) -> crashed st = crashed (drained pre) ->
  (crashed st = false -> buffered st = buffered (drained pre)) ->
  let r := fold_left (fun st c => recv_chunk s c st) chunks st in
  let d := drained (pre ++ concat chunks) in
  delivered r = delivered d /\ crashed r = crashed d /\ (crashed r = false -> buffered r = buffered d).
Proof.
  induction chunks as [|c chunks IH]; intros st pre H1 H2 H3; cbn [fold_left concat].
  - rewrite app_nil_r. auto.
  - rewrite app_assoc. apply IH; unfold recv_chunk;
      destruct (drained_app (length pre) pre c (le_n _)) as (A1 & A2 & A3); destruct (crashed st) eqn:Ec.
    + rewrite A1, <- H2. exact H1.
    + rewrite A1, <- H2. cbn [delivered]. rewrite H1, <- H3 by reflexivity. reflexivity.
    + rewrite A2, <- H2. exact Ec.
    + rewrite A2, <- H2. cbn [crashed]. rewrite <- H3 by reflexivity. reflexivity.
    + congruence.
    + cbn [crashed buffered]. intros _. rewrite A3 by congruence. rewrite <- H3 by reflexivity. reflexivity.
Qed.
Lemma drained_nil : drained [] = mkReceived [] [] false.
Proof.
  rewrite drained_step. destruct (Z.ltb_spec 0 (ser_slice s [])) as [Hp|Hp]; [|reflexivity].
  destruct (Hst [] [] Hp) as [H _]. cbn in H. lia.
Qed.
Lemma recv_concat chunks : let r := recv_all s chunks in let d := drained (concat chunks) in
  delivered r = delivered d /\ crashed r = crashed d /\ (crashed r = false -> buffered r = buffered d).
Proof.
  unfold recv_all. change (concat chunks) with ([] ++ concat chunks). apply recv_concat_from; rewrite drained_nil; reflexivity.
Qed.

(* what is left over is not a packet *)
Lemma drained_rest : forall n buf, (length buf <= n)%nat -> crashed (drained buf) = false ->
  ser_slice s (buffered (drained buf)) <= 0.
Proof.
  induction n as [|n IH]; intros buf Hn; rewrite drained_step.
  - destruct buf; [|cbn in Hn; lia]. destruct (Z.ltb_spec 0 (ser_slice s [])) as [Hp|Hp]; [|cbn; auto].
    destruct (Hst [] [] Hp) as [H _]. cbn in H. lia.
  - destruct (Z.ltb_spec 0 (ser_slice s buf)) as [Hp|Hp]; [|cbn; auto]. cbv zeta.
    destruct (ser_unmarshal s _); cbn [crashed buffered]; try discriminate. apply IH.
    rewrite skipn_length. lia.
Qed.

Lemma segmentation chunks chunks' : concat chunks = concat chunks' ->
  let r := recv_all s chunks in let r' := recv_all s chunks' in
  delivered r = delivered r' /\ crashed r = crashed r' /\ (crashed r = false -> buffered r = buffered r').
Proof.
  intros E. destruct (recv_concat chunks) as (A1 & A2 & A3). destruct (recv_concat chunks') as (B1 & B2 & B3).
  cbv zeta in *. rewrite E in *. split; [congruence|]. split; [congruence|]. intros H. rewrite A3 by exact H. rewrite B3 by congruence. reflexivity.
Qed.
Lemma recv_rest chunks : let r := recv_all s chunks in crashed r = false -> ser_slice s (buffered r) <= 0.
Proof.
  destruct (recv_concat chunks) as (_ & A2 & A3). cbv zeta in *. intros H. rewrite A3 by exact H.
  apply (drained_rest (length (concat chunks))); [lia|congruence].
Qed.

(* frames followed by a remainder with no packet in it *)
Lemma drained_frames frames : forall ps rest,
  Forall2 (fun p f => (forall t, ser_slice s (f ++ t) = Z.of_nat (length f)) /\ f <> [] /\ ser_unmarshal s f = SOk p) ps frames ->
  ser_slice s rest <= 0 ->
  drained (concat frames ++ rest) = mkReceived ps rest false.
Proof.
  induction frames as [|f frames IH]; intros ps rest H Hr; inversion H as [|p ? l ? Hf Hl]; subst.
  - cbn [concat app]. rewrite drained_step. replace (0 <? ser_slice s rest) with false by lia. reflexivity.
  - destruct Hf as (Hs & Hn & Hu). cbn [concat]. rewrite <- app_assoc, drained_step, Hs.
    destruct f as [|c f]; [congruence|].
    replace (0 <? Z.of_nat (length (c :: f))) with true by (cbn [length]; lia). rewrite Nat2Z.id. cbv zeta.
    rewrite firstn_app, Nat.sub_diag, firstn_O, app_nil_r, firstn_all, Hu.
    rewrite skipn_app, Nat.sub_diag, skipn_all, skipn_O. cbn [app]. rewrite (IH l rest) by assumption. reflexivity.
Qed.
End Generic.

(* --- the ferry serializer --- *)
Lemma ferry_stable ws : stable (ferry_serializer ws).
Proof.
  intros b t. cbn [ser_slice ferry_serializer]. unfold slice.
  destruct (Z.ltb_spec (Z.of_nat (length b)) 4) as [H4|H4]; [lia|].
  assert (E : header_length ws (b ++ t) = header_length ws b).
  { destruct b as [|b0 [|b1 [|b2 [|b3 b]]]]; cbn [length] in H4; try lia. reflexivity. }
  rewrite E. set (n := swrap (wbits ws) (4 + header_length ws b)). rewrite app_length.
  destruct (Z.ltb_spec (Z.of_nat (length b)) n) as [H|H]; [lia|]. intros Hn. split; [lia|].
  replace (Z.of_nat (length b + length t) <? 4) with false by lia.
  replace (Z.of_nat (length b + length t) <? n) with false by lia. reflexivity.
Qed.

Lemma sent_frame ws ws' p f : sent ws ws' p f ->
  (forall t, slice ws' (f ++ t) = Z.of_nat (length f)) /\ f <> [] /\
  (exists p', unmarshal ws' f = SOk (pack p') /\ same_proto p p') /\
  (forall a b, f = a ++ b -> b <> [] -> slice ws' a = 0).
Proof.
  intros (Hok & Hfit & Hm & Hl). destruct (marshal_shape ws _ _ Hm) as [body ->].
  destruct (packet_roundtrip ws ws' p Hok Hfit) as (f' & E & Hu). rewrite Hm in E. injection E as <-.
  split; [intros t; apply slice_frame; exact Hl|]. split; [rewrite frame_header; discriminate|].
  split; [apply Hu; exact Hl|]. intros a b E Hb. eapply slice_prefix; eauto.
Qed.

(* a prefix of a stream of frames is some whole frames and a part of the next *)
Lemma prefix_split (frames : list bytes) : forall pre post, concat frames = pre ++ post ->
  exists k part, (k <= length frames)%nat /\ pre = concat (firstn k frames) ++ part /\
    ((k = length frames /\ part = []) \/
     exists f q, nth_error frames k = Some f /\ f = part ++ q /\ q <> []).
Proof.
  induction frames as [|f frames IH]; intros pre post E; cbn [concat] in E.
  - symmetry in E. apply app_eq_nil in E as [-> ->]. exists 0%nat, []. cbn. auto.
  - destruct (le_lt_dec (length f) (length pre)) as [Hl|Hl].
    + assert (exists pre', pre = f ++ pre' /\ concat frames = pre' ++ post) as (pre' & -> & E').
      { exists (skipn (length f) pre).
        assert (F : firstn (length f) (f ++ concat frames) = firstn (length f) (pre ++ post)) by congruence.
        rewrite !firstn_app, Nat.sub_diag, firstn_O, app_nil_r, firstn_all in F.
        replace (length f - length pre)%nat with 0%nat in F by lia. rewrite firstn_O, app_nil_r in F.
        assert (Hpre : pre = f ++ skipn (length f) pre) by (rewrite F at 1; symmetry; apply firstn_skipn).
        split; [exact Hpre|]. rewrite Hpre, <- app_assoc in E. apply app_inv_head in E. exact E. }
      destruct (IH pre' post E') as (k & part & Hk & -> & H). exists (S k), part. cbn [length firstn concat].
      rewrite <- app_assoc. split; [lia|]. split; [reflexivity|]. destruct H as [[-> ->]|H]; [left; auto|right; exact H].
    + exists 0%nat, pre. cbn [firstn concat app]. split; [lia|]. split; [reflexivity|]. right. exists f, (skipn (length pre) f).
      split; [reflexivity|].
      assert (F : firstn (length pre) (f ++ concat frames) = firstn (length pre) (pre ++ post)) by congruence.
      rewrite !firstn_app, Nat.sub_diag, firstn_O, app_nil_r, firstn_all in F.
      replace (length pre - length f)%nat with 0%nat in F by lia. rewrite firstn_O, app_nil_r in F.
      split; [rewrite <- F at 1; symmetry; apply firstn_skipn|].
      intros X. apply (f_equal (@length Z)) in X. rewrite skipn_length in X. cbn in X. lia.
Qed.

Lemma forall2_firstn {A B} (R : A -> B -> Prop) l l' k : Forall2 R l l' -> Forall2 R (firstn k l) (firstn k l').
Proof. intros H. revert k. induction H; intros [|k]; cbn; constructor; auto. Qed.
Lemma forall2_length' {A B} (R : A -> B -> Prop) l l' : Forall2 R l l' -> length l = length l'.
Proof. induction 1; cbn; congruence. Qed.
Lemma forall2_nth {A B} (R : A -> B -> Prop) l l' : Forall2 R l l' -> forall k y, nth_error l' k = Some y ->
  exists x, nth_error l k = Some x /\ R x y.
Proof. induction 1; intros [|k] z E; cbn in *; try discriminate; [injection E as <-; eauto|eauto]. Qed.

Lemma reassembly ws ws' ps frames chunks post : Forall2 (sent ws ws') ps frames -> concat frames = concat chunks ++ post ->
  exists k qs part, recv_all (ferry_serializer ws') chunks = mkReceived (map pack qs) part false /\
    Forall2 same_proto (firstn k ps) qs /\
    (k <= length ps)%nat /\ concat chunks = concat (firstn k frames) ++ part /\
    ((k = length ps /\ part = []) \/ exists f q, nth_error frames k = Some f /\ f = part ++ q /\ q <> []).
Proof.
  intros Hs E. destruct (prefix_split frames _ _ E) as (k & part & Hk & Ec & Hp).
  pose proof (forall2_length' _ _ _ Hs) as Hlen.
  assert (exists qs, Forall2 same_proto (firstn k ps) qs /\
    Forall2 (fun p f => (forall t, slice ws' (f ++ t) = Z.of_nat (length f)) /\ f <> [] /\ unmarshal ws' f = SOk p) (map pack qs) (firstn k frames)) as (qs & Hq & Hf).
  { assert (H2 := forall2_firstn _ _ _ k Hs). revert H2. generalize (firstn k ps) (firstn k frames).
    induction 1 as [|p f l l' H H2 (qs & I1 & I2)].
    - exists []. split; constructor.
    - destruct (sent_frame ws ws' p f H) as (A & B & (p' & C & D) & _). exists (p' :: qs). split; constructor; auto. }
  exists k, qs, part.
  assert (Hpart : slice ws' part <= 0).
  { destruct Hp as [[_ ->]|(f & q & Hn & Ef & Hq')]; [cbn; lia|].
    destruct (forall2_nth _ _ _ Hs k f Hn) as (p & _ & Hsent). destruct (sent_frame ws ws' p f Hsent) as (_ & _ & _ & Hz).
    rewrite (Hz part q Ef Hq'). lia. }
  destruct (recv_concat (ferry_serializer ws') (ferry_stable ws') chunks) as (R1 & R2 & R3).
  pose proof (drained_frames (ferry_serializer ws') (ferry_stable ws') (firstn k frames) (map pack qs) part Hf Hpart) as D.
  assert (D' : drained (ferry_serializer ws') (concat chunks) = mkReceived (map pack qs) part false) by (rewrite <- D; f_equal; exact Ec).
  rewrite D' in R1, R2, R3.
  cbn [delivered crashed buffered] in R1, R2, R3. specialize (R3 R2).
  split.
  { destruct (recv_all (ferry_serializer ws') chunks) as [x y z]. cbn [delivered crashed buffered] in R1, R2, R3. subst. reflexivity. }
  split; [exact Hq|]. split; [rewrite Hlen; exact Hk|]. split; [exact Ec|]. rewrite Hlen. exact Hp.
Qed.

(* --- hostile input --- *)
Lemma field_no_fuel {A} (get : any -> ares A) a b : field get a b <> UFuel.
Proof.
  unfold field. pose proof (decode_progress a b) as H. destruct (any_decode a b); try discriminate; [|contradiction].
  destruct (get a0); discriminate.
Qed.
Lemma ubind_no_fuel {A B} (x : ures A) (k : A -> bytes -> ures B) : x <> UFuel -> (forall a r, k a r <> UFuel) -> ubind x k <> UFuel.
Proof. intros H1 H2. destruct x; cbn; try discriminate; [apply H2|congruence]. Qed.
Lemma proto_no_fuel ws id b : proto_unmarshal ws id b <> UFuel.
Proof.
  unfold proto_unmarshal, unmarshal_string, unmarshal_slots.
  repeat match goal with |- (if ?c then _ else _) <> _ => destruct c end; try discriminate;
    repeat (apply ubind_no_fuel; [apply field_no_fuel|intros]); try discriminate;
    destruct (as_strings (fst a)); discriminate.
Qed.
Lemma unmarshal_no_fuel ws d : unmarshal ws d <> SFuel.
Proof.
  unfold unmarshal. destruct (_ <? 4); [discriminate|]. destruct (_ || _); [discriminate|].
  pose proof (field_no_fuel acc_Uint8 (NewAny VNil) (firstn (Z.to_nat (swrap (wbits ws) (4 + header_length ws d) - 4)) (skipn 4 d))) as H.
  destruct (field acc_Uint8 _ _) as [[id a] r| | |]; try discriminate; [|congruence].
  pose proof (proto_no_fuel ws id r). destruct (proto_unmarshal ws id r); try discriminate. congruence.
Qed.

Lemma one_frame ws body chunks post : concat chunks = frame_of body ++ post -> Z.of_nat (length (frame_of body)) < max_frame ws ->
  (forall p, unmarshal ws (frame_of body) <> SOk p) -> crashed (recv_all (ferry_serializer ws) chunks) = true.
Proof.
  intros Hc Hl Hu. destruct (recv_concat (ferry_serializer ws) (ferry_stable ws) chunks) as (_ & -> & _). rewrite Hc.
  rewrite drained_step by apply ferry_stable. cbn [ser_slice ser_unmarshal ferry_serializer]. rewrite slice_frame by exact Hl.
  replace (0 <? Z.of_nat (length (frame_of body))) with true by (rewrite frame_header, app_length; cbn [length header]; lia).
  rewrite Nat2Z.id. cbv zeta. rewrite firstn_app, Nat.sub_diag, firstn_O, app_nil_r, firstn_all.
  destruct (unmarshal ws (frame_of body)) eqn:E; try reflexivity. exfalso. exact (Hu _ eq_refl).
Qed.
Lemma unknown_id ws id rest chunks post : 8 < id < 256 -> concat chunks = frame_of (0xcc :: id :: rest) ++ post ->
  Z.of_nat (length (frame_of (0xcc :: id :: rest))) < max_frame ws ->
  crashed (recv_all (ferry_serializer ws) chunks) = true.
Proof.
  intros Hid Hc Hl. eapply one_frame; eauto. intros p. rewrite unmarshal_frame by exact Hl. rewrite field_id by lia.
  unfold proto_unmarshal, idError, idHeartbeat, idReady, idRegisterRequest, idRegisterResponse, idQueryRequest, idQueryResponse, idRpcRequest, idRpcResponse.
  repeat match goal with |- context [id =? ?c] => replace (id =? c) with false by lia end. discriminate.
Qed.
Lemma empty_body ws chunks post : concat chunks = frame_of [] ++ post -> crashed (recv_all (ferry_serializer ws) chunks) = true.
Proof.
  intros Hc. eapply one_frame; eauto; [destruct ws; vm_compute; reflexivity|].
  intros p. rewrite unmarshal_frame by (destruct ws; vm_compute; reflexivity). discriminate.
Qed.
(* a well-formed message cut short by its own header *)
Lemma short_body ws id rest chunks post : 0 <= id < 9 -> id <> 1 -> (rest = [] \/ exists t, ~ In t known_tags /\ exists r, rest = t :: r) ->
  concat chunks = frame_of (0xcc :: id :: rest) ++ post ->
  Z.of_nat (length (frame_of (0xcc :: id :: rest))) < max_frame ws ->
  crashed (recv_all (ferry_serializer ws) chunks) = true.
Proof.
  intros Hid H1 Hr Hc Hl. eapply one_frame; eauto. intros p. rewrite unmarshal_frame by exact Hl. rewrite field_id by lia.
  assert (F : forall A (get : any -> ares A), field get (NewAny VNil) rest = UErr).
  { intros A get. unfold field. destruct Hr as [->|(t & Ht & r & ->)]; [reflexivity|]. rewrite unknown_tag by exact Ht. reflexivity. }
  assert (id = 0 \/ id = 2 \/ id = 3 \/ id = 4 \/ id = 5 \/ id = 6 \/ id = 7 \/ id = 8) as H by lia.
  repeat destruct H as [->|H]; [..|subst id];
    unfold proto_unmarshal, unmarshal_string, unmarshal_slots; cbn [Z.eqb Pos.eqb idError idHeartbeat idReady idRegisterRequest idRegisterResponse idQueryRequest idQueryResponse idRpcRequest idRpcResponse];
    rewrite F; discriminate.
Qed.

(* slot lists must be strings *)
Lemma as_strings_none l l' : Forall2 same_value l l' -> (exists x, In x l /\ (forall t s, x <> VStr t s)) -> as_strings l' = None.
Proof.
  induction 1 as [|x y l l' H H2 IH]; intros (z & Hin & Hz); [contradiction|]. destruct Hin as [->|Hin].
  - inversion H; subst; try reflexivity. exfalso. eapply Hz. reflexivity.
  - destruct y; try reflexivity. cbn [as_strings]. rewrite IH by eauto. destruct t; reflexivity.
Qed.
Lemma non_string_slots ws ws' id l chunks post : id = 2 \/ id = 3 ->
  go_value ws (VArr ASliceIface l) = true -> safe (VArr ASliceIface l) = true -> (exists x, In x l /\ (forall t s, x <> VStr t s)) ->
  forall bs, encoded ws (VArr ASliceIface l) bs ->
  concat chunks = frame_of (0xcc :: id :: bs) ++ post ->
  Z.of_nat (length (frame_of (0xcc :: id :: bs))) < max_frame ws' ->
  crashed (recv_all (ferry_serializer ws') chunks) = true.
Proof.
  intros Hid Hg Hs Hx bs Hbs Hc Hl. eapply one_frame; eauto. intros p. rewrite unmarshal_frame by exact Hl. rewrite field_id by lia.
  apply (encoded_fmt ws _ bs Hg (safe_supported _ Hs)) in Hbs. subst bs.
  destruct (field_arr ws l (NewAny VNil) [] Hg Hs) as (a' & Ha & E). rewrite app_nil_r in E.
  destruct Hid as [-> | ->];
    [change (proto_unmarshal ws' 2) with (unmarshal_slots PReady)|change (proto_unmarshal ws' 3) with (unmarshal_slots PRegisterRequest)];
    unfold unmarshal_slots; rewrite E; cbn [ubind fst]; rewrite (as_strings_none l a' Ha Hx); discriminate.
Qed.

(* On a 32-bit receiver a length near or above 2^31 overflows int: the routine never
   delivers again, or (in the last three values) slices within the header. *)
Lemma swrap32_over z : 2 ^ 31 <= z < 2 ^ 32 + 2 ^ 31 -> swrap 32 z = z - 2 ^ 32.
Proof.
  intros H. unfold swrap. replace ((z + 2 ^ (32 - 1)) mod 2 ^ 32) with (z + 2 ^ (32 - 1) - 2 ^ 32); [lia|].
  apply Zmod_unique with 1; lia.
Qed.
Lemma slice_w32 d : bytes_ok d -> 4 <= Z.of_nat (length d) -> 2 ^ 31 - 4 <= le_val d -> slice W32 d = le_val d + 4 - 2 ^ 32.
Proof.
  intros Hb Hl Hv. unfold slice. replace (Z.of_nat (length d) <? 4) with false by lia.
  rewrite header_length_val by exact Hb. cbn [wbits].
  pose proof (nth_byte d 0 Hb). pose proof (nth_byte d 1 Hb). pose proof (nth_byte d 2 Hb). pose proof (nth_byte d 3 Hb).
  assert (Hu : le_val d < 2 ^ 32) by (unfold le_val; lia).
  assert (E : swrap 32 (4 + swrap 32 (le_val d)) = le_val d + 4 - 2 ^ 32).
  { destruct (Z.ltb_spec (le_val d) (2 ^ 31)) as [Hs|Hs].
    - rewrite (swrap_id 32 (le_val d)) by (unfold in_s in *; lia). rewrite swrap32_over by lia. lia.
    - rewrite (swrap32_over (le_val d)) by lia. rewrite swrap_id by (unfold in_s in *; lia). lia. }
  rewrite E. replace (_ <? le_val d + 4 - 2 ^ 32) with false by lia. reflexivity.
Qed.
Lemma wedge_w32 hd rest chunks : bytes_ok (hd ++ rest) -> length hd = 4%nat -> concat chunks = hd ++ rest ->
  (2 ^ 31 - 4 <= le_val hd <= 2 ^ 32 - 4 -> recv_all (ferry_serializer W32) chunks = mkReceived [] (concat chunks) false) /\
  (2 ^ 32 - 4 < le_val hd -> crashed (recv_all (ferry_serializer W32) chunks) = true).
Proof.
  intros Hb Hl E.
  assert (El : le_val (hd ++ rest) = le_val hd) by (destruct hd as [|b0 [|b1 [|b2 [|b3 [|]]]]]; cbn [length] in Hl; try lia; reflexivity).
  assert (Hll : 4 <= Z.of_nat (length (hd ++ rest))) by (rewrite app_length; lia).
  destruct (recv_concat (ferry_serializer W32) (ferry_stable W32) chunks) as (R1 & R2 & R3). rewrite E in *.
  rewrite drained_step in R1, R2, R3 by apply ferry_stable. cbn [ser_slice ser_unmarshal ferry_serializer] in R1, R2, R3.
  split; intros Hv; rewrite slice_w32 in R1, R2, R3 by (assumption || lia); rewrite El in *.
  - replace (0 <? le_val hd + 4 - 2 ^ 32) with false in R1, R2, R3 by lia. cbn [delivered crashed buffered] in R1, R2, R3. specialize (R3 R2).
    destruct (recv_all (ferry_serializer W32) chunks) as [x y z]. cbn [delivered crashed buffered] in R1, R2, R3. subst. reflexivity.
  - replace (0 <? le_val hd + 4 - 2 ^ 32) with true in R1, R2, R3 by lia. cbv zeta in R1, R2, R3. rewrite R2.
    assert (Hlen : le_val hd < 2 ^ 32).
    { assert (bytes_ok hd) as Hh by (apply Forall_app in Hb; tauto).
      pose proof (nth_byte hd 0 Hh). pose proof (nth_byte hd 1 Hh). pose proof (nth_byte hd 2 Hh). pose proof (nth_byte hd 3 Hh). unfold le_val. lia. }
    unfold unmarshal at 1. rewrite firstn_length.
    match goal with |- context [Z.of_nat ?n <? 4] => replace (Z.of_nat n <? 4) with true by lia end. reflexivity.
Qed.

(* --- txt --- *)
Lemma txt_from_shift l : forall i, txt_slice_from i l = if txt_slice_from 0 l =? 0 then 0 else i + txt_slice_from 0 l.
Proof.
  assert (Hpos : forall l i, 0 <= i -> 0 <= txt_slice_from i l) by (clear; induction l as [|c l IH]; intros i Hi; cbn [txt_slice_from]; [lia|destruct (0 =? c); [lia|apply IH; lia]]).
  induction l as [|c l IH]; intros i; cbn [txt_slice_from]; [reflexivity|].
  destruct (0 =? c); [cbn; lia|]. rewrite (IH (i + 1)), (IH (0 + 1)). destruct (txt_slice_from 0 l =? 0) eqn:E; [reflexivity|].
  pose proof (Hpos l 0 ltac:(lia)). replace (0 + 1 + txt_slice_from 0 l =? 0) with false by lia. lia.
Qed.
Lemma txt_slice_spec l : (txt_slice l = 0 /\ ~ In 0 l) \/
  exists g r, l = g ++ 0 :: r /\ ~ In 0 g /\ txt_slice l = Z.of_nat (length g) + 1.
Proof.
  unfold txt_slice. induction l as [|c l IH]; cbn [txt_slice_from]; [left; auto|].
  destruct (Z.eqb_spec 0 c) as [<-|Hc].
  - right. exists [], l. cbn. repeat split; auto.
  - rewrite txt_from_shift. destruct IH as [[E H]|(g & r & -> & Hg & E)].
    + left. rewrite E. split; [reflexivity|]. intros [?|?]; [congruence|auto].
    + right. exists (c :: g), r. rewrite E. replace (Z.of_nat (length g) + 1 =? 0) with false by lia.
      split; [reflexivity|]. split; [intros [?|?]; [congruence|auto]|]. cbn [length]. lia.
Qed.
Lemma txt_from_at g r : ~ In 0 g -> forall i, txt_slice_from i (g ++ 0 :: r) = i + Z.of_nat (length g) + 1.
Proof.
  induction g as [|c g IH]; intros Hg i; cbn [app txt_slice_from length]; [change (0 =? 0) with true; cbn iota; lia|].
  destruct (Z.eqb_spec 0 c) as [<-|]; [exfalso; apply Hg; left; reflexivity|].
  rewrite IH; [lia|]. intros H. apply Hg. right. exact H.
Qed.
Lemma txt_stable : stable txt_serializer.
Proof.
  intros b t. cbn [ser_slice txt_serializer]. destruct (txt_slice_spec b) as [[E _]|(g & r & -> & Hg & E)]; [lia|].
  intros _. rewrite E. split; [rewrite app_length; cbn [length]; lia|]. rewrite <- app_assoc. cbn [app].
  unfold txt_slice. rewrite txt_from_at by exact Hg. lia.
Qed.
Lemma segments_cut g r : ~ In 0 g -> segments (g ++ 0 :: r) = ((g ++ [0]) :: fst (segments r), snd (segments r)).
Proof.
  induction g as [|c g IH]; intros H; cbn [app segments].
  - destruct (segments r). reflexivity.
  - rewrite IH by (intros X; apply H; right; exact X). destruct (Z.eqb_spec c 0) as [->|]; [exfalso; apply H; left; reflexivity|].
    reflexivity.
Qed.
Lemma segments_none l : ~ In 0 l -> segments l = ([], l).
Proof.
  induction l as [|c l IH]; intros H; cbn [segments]; [reflexivity|]. rewrite IH by (intros X; apply H; right; exact X).
  destruct (Z.eqb_spec c 0) as [->|]; [exfalso; apply H; left; reflexivity|]. reflexivity.
Qed.
Lemma txt_drained : forall n l, (length l <= n)%nat ->
  drained txt_serializer l = mkReceived (fst (segments l)) (snd (segments l)) false.
Proof.
  induction n as [|n IH]; intros l Hn; rewrite drained_step by apply txt_stable; cbn [ser_slice ser_unmarshal txt_serializer];
    destruct (txt_slice_spec l) as [[E H]|(g & r & -> & Hg & E)]; rewrite E.
  - rewrite segments_none by exact H. reflexivity.
  - rewrite app_length in Hn. cbn in Hn. lia.
  - rewrite segments_none by exact H. reflexivity.
  - replace (0 <? Z.of_nat (length g) + 1) with true by lia. cbv zeta.
    rewrite segments_cut by exact Hg. cbn [fst snd].
    replace (Z.to_nat (Z.of_nat (length g) + 1)) with (length (g ++ [0])) by (rewrite app_length; cbn; lia).
    replace (g ++ 0 :: r) with ((g ++ [0]) ++ r) by (rewrite <- app_assoc; reflexivity).
    rewrite firstn_app, Nat.sub_diag, firstn_O, app_nil_r, firstn_all, skipn_app, Nat.sub_diag, skipn_all, skipn_O. cbn [app].
    rewrite IH; [reflexivity|]. rewrite !app_length in Hn. cbn in Hn. lia.
Qed.
Lemma txt_recv chunks : recv_all txt_serializer chunks =
  mkReceived (fst (segments (concat chunks))) (snd (segments (concat chunks))) false.
Proof.
  destruct (recv_concat txt_serializer txt_stable chunks) as (R1 & R2 & R3).
  rewrite (txt_drained _ _ (le_n _)) in R1, R2, R3. cbn [delivered crashed buffered] in *. specialize (R3 R2).
  destruct (recv_all txt_serializer chunks) as [x y z]. cbn in *. subst. reflexivity.
Qed.
Lemma segments_terminated l : Forall terminated (fst (segments l)) /\ ~ In 0 (snd (segments l)) /\
  concat (fst (segments l)) ++ snd (segments l) = l.
Proof.
  assert (H : forall n l, (length l <= n)%nat -> Forall terminated (fst (segments l)) /\ ~ In 0 (snd (segments l)) /\
    concat (fst (segments l)) ++ snd (segments l) = l); [|apply (H (length l)); lia]. clear l.
  induction n as [|n IH]; intros l Hn; destruct (txt_slice_spec l) as [[_ H]|(g & r & -> & Hg & _)].
  - rewrite segments_none by exact H. cbn. auto.
  - rewrite app_length in Hn. cbn in Hn. lia.
  - rewrite segments_none by exact H. cbn. auto.
  - rewrite segments_cut by exact Hg. cbn [fst snd concat]. rewrite app_length in Hn. cbn in Hn.
    destruct (IH r ltac:(lia)) as (H1 & H2 & H3). split; [constructor; [exists g; auto|exact H1]|]. split; [exact H2|].
    rewrite <- !app_assoc. rewrite H3. reflexivity.
Qed.
Lemma txt_faithful chunks ss : concat chunks = concat (map txt_marshal ss) ->
  (recv_all txt_serializer chunks = mkReceived ss [] false <-> Forall terminated ss).
Proof.
  intros E. rewrite txt_recv, E. unfold txt_marshal. rewrite map_id. clear E. split.
  - intros H. assert (ss = fst (segments (concat ss))) by congruence. rewrite H0. apply segments_terminated.
  - induction 1 as [|s l (b & -> & Hb) H IH]; [reflexivity|]. cbn [concat]. rewrite <- app_assoc. cbn [app].
    rewrite segments_cut by exact Hb. cbn [fst snd]. injection IH as I1 I2. rewrite I1, I2. reflexivity.
Qed.

(* --- a legitimate call with a float of small bit pattern kills the receiver --- *)
Lemma opt_map_none {A B} (f : A -> option B) l x : In x l -> f x = None -> opt_map f l = None.
Proof.
  induction l as [|y l IH]; intros H E; [contradiction|]. cbn [opt_map]. destruct H as [->|H].
  - rewrite E. reflexivity.
  - fold (opt_map f l). rewrite (IH H E). destruct (f y); reflexivity.
Qed.
Lemma float_call ws ws' request i s m args w e v f chunks post :
  in_s 64 i -> str_ok s = true -> str_ok m = true -> str_ok e = true ->
  go_value ws (VArr ASliceIface args) = true -> supported (VArr ASliceIface args) = true ->
  In v args -> float_ok v = false ->
  marshal ws (pack (rpc request i s m args w e)) = SOk f -> Z.of_nat (length f) < max_frame ws' ->
  concat chunks = f ++ post -> crashed (recv_all (ferry_serializer ws') chunks) = true.
Proof.
  intros Hi Hs Hm He Hg Hsup Hin Hf E Hl Hc. apply in_sb_iff in Hi.
  assert (Hw : wire_top ws (VArr ASliceIface args) = None).
  { cbn [wire_top wire]. fold wire. erewrite opt_map_none; [reflexivity|exact Hin|].
    destruct v; unfold float_ok in Hf; try discriminate; cbn [wire]; rewrite Z.leb_antisym, negb_false_iff in Hf; rewrite Hf; reflexivity. }
  assert (D : forall a rest, field acc_Arr a (fmt_top_ws ws (VArr ASliceIface args) ++ rest) = UPanic).
  { intros a rest. unfold field, any_decode. rewrite (top_decode ws _ rest Hg Hsup), Hw. reflexivity. }
  destruct (marshal_shape ws _ _ E) as [body ->]. eapply one_frame; [exact Hc|exact Hl|].
  intros p. rewrite unmarshal_frame by exact Hl.
  assert (Eb : exists t, body = 0xcc :: (if request then 7 else 8) :: fmt_top_ws ws (VInt 0 I64 i) ++ fmt_top_ws ws (VStr 0 s) ++ fmt_top_ws ws (VStr 0 m) ++ fmt_top_ws ws (VArr ASliceIface args) ++ t).
  { unfold marshal, pack in E. cbn [p_id p_p] in E. rewrite put_id in E by (destruct request; cbn; lia).
    assert (exists t, proto_marshal ws (rpc request i s m args w e) [0xcc; if request then 7 else 8] =
       (None, [0xcc; if request then 7 else 8] ++ fmt_top_ws ws (VInt 0 I64 i) ++ fmt_top_ws ws (VStr 0 s) ++ fmt_top_ws ws (VStr 0 m) ++ fmt_top_ws ws (VArr ASliceIface args) ++ t)) as (t & Et).
    { destruct request; cbn [rpc proto_marshal];
        rewrite (put_ok ws (VInt 0 I64 i)) by (exact Hi || reflexivity); cbn [andThen];
        rewrite (put_ok ws (VStr 0 s)) by (exact Hs || reflexivity); cbn [andThen];
        rewrite (put_ok ws (VStr 0 m)) by (exact Hm || reflexivity); cbn [andThen];
        rewrite (put_ok ws (VArr ASliceIface args)) by (exact Hg || exact Hsup); cbn [andThen];
        [rewrite (put_ok ws (VBool 0 w)) by reflexivity|rewrite (put_ok ws (VStr 0 e)) by (exact He || reflexivity)];
        eexists; rewrite <- !app_assoc; reflexivity. }
    exists t. replace (proto_id (rpc request i s m args w e)) with (if request then 7 else 8) in E by (destruct request; reflexivity).
    rewrite Et, frame_header in E.
    apply (f_equal (fun x => match x with SOk y => skipn 4 y | _ => [] end)) in E. cbn [skipn header app] in E. symmetry. exact E. }
  destruct Eb as (t & ->). rewrite field_id by (destruct request; lia).
  destruct (field_int64 ws i (NewAny VNil) (fmt_top_ws ws (VStr 0 s) ++ fmt_top_ws ws (VStr 0 m) ++ fmt_top_ws ws (VArr ASliceIface args) ++ t) Hi) as [x Ex].
  assert (Eu : proto_unmarshal ws' (if request then 7 else 8) (fmt_top_ws ws (VInt 0 I64 i) ++ fmt_top_ws ws (VStr 0 s) ++ fmt_top_ws ws (VStr 0 m) ++ fmt_top_ws ws (VArr ASliceIface args) ++ t) = UPanic).
  { unfold proto_unmarshal.
    destruct request; cbn [Z.eqb idError idHeartbeat idRegisterRequest idRegisterResponse idReady idQueryRequest idQueryResponse idRpcRequest idRpcResponse Pos.eqb];
      rewrite Ex; cbn [ubind fst snd]; rewrite field_str by exact Hs; cbn [ubind fst snd]; rewrite field_str by exact Hm; cbn [ubind fst snd];
      rewrite D; reflexivity. }
  rewrite Eu. discriminate.
Qed.

Lemma marshal_framing ws ws' p f : marshal ws p = SOk f -> Z.of_nat (length f) < max_frame ws' ->
  (forall rest, slice ws' (f ++ rest) = Z.of_nat (length f)) /\
  (forall a b, f = a ++ b -> b <> [] -> slice ws' a = 0).
Proof.
  intros H Hl. destruct (marshal_shape ws p f H) as [body ->].
  split; [intros rest; apply slice_frame; exact Hl|intros a b; apply slice_prefix; exact Hl].
Qed.
Lemma body_framing ws body : Z.of_nat (length (frame_of body)) < max_frame ws ->
  (forall rest, slice ws (frame_of body ++ rest) = Z.of_nat (length (frame_of body))) /\
  (forall a b, frame_of body = a ++ b -> b <> [] -> slice ws a = 0).
Proof. intros Hl. split; [intros rest; apply slice_frame; exact Hl|intros a b; apply slice_prefix; exact Hl]. Qed.
Lemma genuine_safe ws ws' ps frames chunks post : Forall2 (sent ws ws') ps frames -> concat frames = concat chunks ++ post ->
  crashed (recv_all (ferry_serializer ws') chunks) = false.
Proof. intros H E. destruct (reassembly ws ws' ps frames chunks post H E) as (k & qs & part & -> & _). reflexivity. Qed.
