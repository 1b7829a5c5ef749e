(* Lemmas about the codec model: the values a decoder can produce, prefix-freeness,
   accessors, failing writers. *)
From Verif Require Import GoInt GoFloat GoVal CodecModel CodecSpec CodecProof CodecProof2 CodecProof3 CodecProof4.
From Coq Require Import ZifyBool ZifyNat.
Ltac Zify.zify_post_hook ::= idtac.

Section Universe.
Context {R : Type} (rd : Z -> R -> option (list Z) * R).
Variable I : R -> Prop.
Hypothesis rd_bytes : forall n r x r', I r -> rd n r = (x, r') ->
  I r' /\ match x with Some d => bytes_ok d | None => True end.

Definition okd {A} (P : A -> Prop) (x : dres (R:=R) A) : Prop :=
  match x with DOk a r => P a /\ I r | _ => True end.

Lemma okd_bind {A B} (P : A -> Prop) (Q : B -> Prop) x (k : A -> R -> dres (R:=R) B) :
  okd P x -> (forall a r, P a -> I r -> okd Q (k a r)) -> okd Q (dbind x k).
Proof. destruct x; cbn; intros H Hk; auto. apply Hk; apply H. Qed.
Lemma okd_map {A B} (P : A -> Prop) (Q : B -> Prop) x (g : A -> B) :
  okd P x -> (forall a, P a -> Q (g a)) -> okd Q (dmap g x).
Proof. intros H Hg. apply (okd_bind P); [exact H|]. intros a r Ha Hr. split; auto. Qed.

Lemma pad_range n d : bytes_ok d -> in_u (8 * Z.of_nat n) (be_val (pad n d)).
Proof.
  intros H. pose proof (be_val_range _ (pad_ok d n H)) as Hr. rewrite pad_length in Hr.
  unfold in_u. rewrite Z.pow_mul_r by lia. exact Hr.
Qed.

Ltac rd_case n r Hr :=
  let E := fresh "E" in let d := fresh "d" in let r' := fresh "r'" in
  destruct (rd n r) as [[d|] r'] eqn:E; [|exact Logic.I];
  destruct (rd_bytes n r _ _ Hr E) as [? ?].

Lemma okd_byte r : I r -> okd is_byte (readByte rd r).
Proof. intros Hr. unfold readByte. rd_case 1 r Hr. split; [apply at_byte; assumption|assumption]. Qed.
Lemma okd_u16 r : I r -> okd (in_u 16) (readUint16 rd r).
Proof.
  intros Hr. destruct (rd 2 r) as [[d|] r'] eqn:E; [|unfold readUint16; rewrite E; exact Logic.I].
  destruct (rd_bytes 2 r _ _ Hr E) as [Hr' Hd]. rewrite (readUint16_val rd r d r' E Hd).
  split; [apply (pad_range 2); exact Hd|exact Hr'].
Qed.
Lemma okd_u32 r : I r -> okd (in_u 32) (readUint32 rd r).
Proof.
  intros Hr. destruct (rd 4 r) as [[d|] r'] eqn:E; [|unfold readUint32; rewrite E; exact Logic.I].
  destruct (rd_bytes 4 r _ _ Hr E) as [Hr' Hd]. rewrite (readUint32_val rd r d r' E Hd).
  split; [apply (pad_range 4); exact Hd|exact Hr'].
Qed.
Lemma okd_u64 r : I r -> okd (in_u 64) (readUint64 rd r).
Proof.
  intros Hr. destruct (rd 8 r) as [[d|] r'] eqn:E; [|unfold readUint64; rewrite E; exact Logic.I].
  destruct (rd_bytes 8 r _ _ Hr E) as [Hr' Hd]. rewrite (readUint64_val rd r d r' E Hd).
  split; [apply (pad_range 8); exact Hd|exact Hr'].
Qed.
Lemma okd_i16 r : I r -> okd (in_s 16) (readInt16 rd r).
Proof.
  intros Hr. destruct (rd 2 r) as [[d|] r'] eqn:E; [|unfold readInt16; rewrite E; exact Logic.I].
  destruct (rd_bytes 2 r _ _ Hr E) as [Hr' Hd]. rewrite (readInt16_val rd r d r' E Hd).
  split; [apply swrap_range; lia|exact Hr'].
Qed.
Lemma okd_i32 r : I r -> okd (in_s 32) (readInt32 rd r).
Proof.
  intros Hr. destruct (rd 4 r) as [[d|] r'] eqn:E; [|unfold readInt32; rewrite E; exact Logic.I].
  destruct (rd_bytes 4 r _ _ Hr E) as [Hr' Hd]. rewrite (readInt32_val rd r d r' E Hd).
  split; [apply swrap_range; lia|exact Hr'].
Qed.
Lemma okd_i64 r : I r -> okd (in_s 64) (readInt64 rd r).
Proof.
  intros Hr. destruct (rd 8 r) as [[d|] r'] eqn:E; [|unfold readInt64; rewrite E; exact Logic.I].
  destruct (rd_bytes 8 r _ _ Hr E) as [Hr' Hd]. rewrite (readInt64_val rd r d r' E Hd).
  split; [apply swrap_range; lia|exact Hr'].
Qed.

Definition uni (v : gval) : Prop := wire_universe v = true.
Definition entries_ok (m : list (gval * gval)) : Prop :=
  forallb (fun kv => hashable (fst kv) && wire_universe (fst kv) && wire_universe (snd kv)) m = true.

Lemma map_put_ok m k v : entries_ok m -> hashable k = true -> uni k -> uni v -> entries_ok (map_put m k v).
Proof.
  unfold entries_ok, uni. intros Hm Hh Hk Hv. induction m as [|[k' v'] m IH]; cbn [map_put forallb fst snd] in *.
  - rewrite Hh, Hk, Hv. reflexivity.
  - apply andb_true_iff in Hm as [H1 H2]. destruct (key_eqb k' k); cbn [forallb fst snd].
    + rewrite Hh, Hk, Hv, H2. reflexivity.
    + rewrite H1. apply IH, H2.
Qed.

Lemma decode_uni : forall f,
  (forall r, I r -> okd uni (decode rd f r)) /\
  (forall n r, I r -> okd (fun l => forallb wire_universe l = true) (decodeArray rd f n r)) /\
  (forall n m r, I r -> entries_ok m -> okd entries_ok (decodeMap rd f n m r)).
Proof.
  induction f as [|f (IHd & IHa & IHm)]; [repeat split; intros; exact Logic.I|].
  split; [|split].
  - intros r Hr. rewrite decode_S. apply (okd_bind is_byte); [apply okd_byte; exact Hr|].
    intros c r1 Hc Hr1.
    destruct (c =? cNil); [split; [reflexivity|assumption]|].
    destruct (c =? cFalse); [split; [reflexivity|assumption]|].
    destruct (c =? cTrue); [split; [reflexivity|assumption]|].
    destruct (c =? cFloat32).
    { apply (okd_bind uni); [apply IHd; assumption|]. intros v r2 Hv Hr2.
      destruct v; try exact Logic.I. destruct t; try exact Logic.I. destruct k; try exact Logic.I.
      split; [|assumption]. unfold uni in *. cbn in *. exact Hv. }
    destruct (c =? cFloat64).
    { apply (okd_bind uni); [apply IHd; assumption|]. intros v r2 Hv Hr2.
      destruct v; try exact Logic.I. destruct t; try exact Logic.I. destruct k; try exact Logic.I.
      split; [|assumption]. unfold uni in *. cbn in *. exact Hv. }
    destruct (c =? cUint8); [apply (okd_map is_byte); [apply okd_byte; assumption|]; intros a Ha;
      unfold uni; cbn; apply in_ub_iff; exact Ha|].
    destruct (c =? cUint16); [apply (okd_map (in_u 16)); [apply okd_u16; assumption|]; intros a Ha;
      unfold uni; cbn; apply in_ub_iff; exact Ha|].
    destruct (c =? cUint32); [apply (okd_map (in_u 32)); [apply okd_u32; assumption|]; intros a Ha;
      unfold uni; cbn; apply in_ub_iff; exact Ha|].
    destruct (c =? cUint64); [apply (okd_map (in_u 64)); [apply okd_u64; assumption|]; intros a Ha;
      unfold uni; cbn; apply in_ub_iff; exact Ha|].
    destruct (c =? cInt8); [apply (okd_map is_byte); [apply okd_byte; assumption|]; intros a Ha;
      unfold uni; cbn; apply in_sb_iff; apply swrap_range; lia|].
    destruct (c =? cInt16); [apply (okd_map (in_s 16)); [apply okd_i16; assumption|]; intros a Ha;
      unfold uni; cbn; apply in_sb_iff; exact Ha|].
    destruct (c =? cInt32); [apply (okd_map (in_s 32)); [apply okd_i32; assumption|]; intros a Ha;
      unfold uni; cbn; apply in_sb_iff; exact Ha|].
    destruct (c =? cInt64); [apply (okd_map (in_s 64)); [apply okd_i64; assumption|]; intros a Ha;
      unfold uni; cbn; apply in_sb_iff; exact Ha|].
    destruct (c =? cStr32).
    { apply (okd_bind (in_u 32)); [apply okd_u32; assumption|]. intros n r2 Hn Hr2.
      destruct (n =? 0); [split; [reflexivity|assumption]|]. rd_case n r2 Hr2. split; [|assumption].
      unfold uni. cbn. apply forallb_forall. intros b Hb. apply in_ub_iff. apply in_app_or in Hb as [Hb|Hb].
      - match goal with H : bytes_ok _ |- _ => exact (proj1 (Forall_forall _ _) H _ Hb) end.
      - apply repeat_spec in Hb. subst. unfold in_u. lia. }
    destruct (c =? cArr32).
    { apply (okd_bind (in_u 32)); [apply okd_u32; assumption|]. intros n r2 Hn Hr2.
      specialize (IHa n r2 Hr2). destruct (decodeArray rd f n r2); try exact Logic.I. exact IHa. }
    destruct (c =? cMap32).
    { apply (okd_bind (in_u 32)); [apply okd_u32; assumption|]. intros n r2 Hn Hr2.
      specialize (IHm n [] r2 Hr2 eq_refl). destruct (decodeMap rd f n [] r2); try exact Logic.I. exact IHm. }
    exact Logic.I.
  - intros n r Hr. rewrite decodeArray_S. destruct (n <=? 0); [split; [reflexivity|assumption]|].
    apply (okd_bind uni); [apply IHd; assumption|]. intros v r1 Hv Hr1.
    eapply okd_bind; [apply IHa; assumption|]. intros l r2 Hl Hr2. split; [|assumption].
    cbn [forallb]. rewrite Hv. exact Hl.
  - intros n m r Hr Hm. rewrite decodeMap_S. destruct (n <=? 0); [split; assumption|].
    apply (okd_bind uni); [apply IHd; assumption|]. intros k r1 Hk Hr1.
    apply (okd_bind uni); [apply IHd; assumption|]. intros v r2 Hv Hr2.
    destruct (hashable k) eqn:Hh; [|exact Logic.I]. apply IHm; [assumption|]. apply map_put_ok; assumption.
Qed.
End Universe.

Lemma buf_rd_bytes n r x r' : bytes_ok r -> buf_rd n r = (x, r') ->
  bytes_ok r' /\ match x with Some d => bytes_ok d | None => True end.
Proof.
  unfold buf_rd. destruct r as [|y r]; intros Hr E; injection E as <- <-; [split; [constructor|exact I]|].
  rewrite <- (firstn_skipn (Z.to_nat (Z.min n (Z.of_nat (length (y :: r))))) (y :: r)) in Hr.
  apply Forall_app in Hr. split; apply Hr.
Qed.

Lemma bdecode_uni b v r : bytes_ok b -> bdecode b = DOk v r -> wire_universe v = true.
Proof.
  intros Hb E. destruct (decode_uni buf_rd bytes_ok buf_rd_bytes (buf_fuel b)) as [H _].
  specialize (H b Hb). unfold bdecode in E. rewrite E in H. apply H.
Qed.

(* ------------------------------------------------------------------ *)
(* A value's end can be found without interpreting it. *)
Fixpoint skip (fuel : nat) (n : nat) (b : list Z) {struct fuel} : option (list Z) :=
  match fuel with
  | O => None
  | S f =>
      match n with
      | O => Some b
      | S n' =>
          match b with
          | [] => None
          | t :: b =>
              if (t =? 0xc0) || (t =? 0xc2) || (t =? 0xc3) then skip f n' b
              else if (t =? 0xca) || (t =? 0xcb) then skip f (S n') b
              else if (t =? 0xcc) || (t =? 0xd0) then skip f n' (skipn 1 b)
              else if (t =? 0xcd) || (t =? 0xd1) then skip f n' (skipn 2 b)
              else if (t =? 0xce) || (t =? 0xd2) then skip f n' (skipn 4 b)
              else if (t =? 0xcf) || (t =? 0xd3) then skip f n' (skipn 8 b)
              else if t =? 0xdb then skip f n' (skipn (Z.to_nat (be_val (firstn 4 b))) (skipn 4 b))
              else if t =? 0xdd then skip f (Z.to_nat (be_val (firstn 4 b)) + n') (skipn 4 b)
              else if t =? 0xdf then skip f (2 * Z.to_nat (be_val (firstn 4 b)) + n') (skipn 4 b)
              else None
          end
      end
  end.

(* [skips k bs]: bs is k values long *)
Definition skips (k : nat) (bs : list Z) : Prop :=
  exists c, forall f n rest, skip (c + f) (k + n) (bs ++ rest) = skip f n rest.

Lemma skips_0 : skips 0 [].
Proof. exists 0%nat. reflexivity. Qed.
Lemma skips_app k1 k2 a b : skips k1 a -> skips k2 b -> skips (k1 + k2) (a ++ b).
Proof.
  intros [c1 H1] [c2 H2]. exists (c1 + c2)%nat. intros f n rest.
  rewrite <- app_assoc, <- !Nat.add_assoc, H1, H2. reflexivity.
Qed.
Lemma skipn_be k v rest : skipn k (be_bytes k v ++ rest) = rest.
Proof.
  rewrite skipn_app, be_bytes_length, Nat.sub_diag.
  rewrite <- (be_bytes_length k v) at 1. rewrite skipn_all. reflexivity.
Qed.
Lemma firstn_be k v rest : firstn k (be_bytes k v ++ rest) = be_bytes k v.
Proof.
  rewrite firstn_app, be_bytes_length, Nat.sub_diag. cbn [firstn]. rewrite app_nil_r.
  rewrite <- (be_bytes_length k v) at 1. apply firstn_all.
Qed.

Lemma skips_tag t k v : t = 0xcc /\ k = 1%nat \/ t = 0xcd /\ k = 2%nat \/ t = 0xce /\ k = 4%nat \/ t = 0xcf /\ k = 8%nat \/
                        t = 0xd0 /\ k = 1%nat \/ t = 0xd1 /\ k = 2%nat \/ t = 0xd2 /\ k = 4%nat \/ t = 0xd3 /\ k = 8%nat ->
  skips 1 (t :: be_bytes k v).
Proof.
  intros H. exists 1%nat. intros f n rest.
  destruct H as [[-> ->]|[[-> ->]|[[-> ->]|[[-> ->]|[[-> ->]|[[-> ->]|[[-> ->]|[-> ->]]]]]]]];
    cbn [app Nat.add skip]; cbn [Z.eqb Pos.eqb orb]; rewrite skipn_be; reflexivity.
Qed.
Lemma skips_uint n : skips 1 (fmt_uint n).
Proof. unfold fmt_uint. repeat destruct (_ <? _); apply skips_tag; tauto. Qed.
Lemma skips_int n : skips 1 (fmt_int n).
Proof. unfold fmt_int. repeat destruct (_ && _); apply skips_tag; tauto. Qed.
Lemma skips_float t bs : t = 0xca \/ t = 0xcb -> skips 1 bs -> skips 1 (t :: bs).
Proof.
  intros Ht [c H]. exists (S c). intros f n rest.
  destruct Ht as [-> | ->]; cbn [app Nat.add skip]; cbn [Z.eqb Pos.eqb orb]; apply (H f n rest).
Qed.
Lemma skips_str s : small_len s = true -> skips 1 (fmt_len 0xdb (length s) ++ s).
Proof.
  intros Hl. unfold small_len in Hl. exists 1%nat. intros f n rest. unfold fmt_len. rewrite <- app_assoc.
  cbn [app Nat.add skip]; cbn [Z.eqb Pos.eqb orb]. rewrite skipn_be, firstn_be, be_val_bytes.
  rewrite Z.mod_small by (change (256 ^ Z.of_nat 4) with (2 ^ 32); lia). rewrite Nat2Z.id.
  rewrite skipn_app, skipn_all, Nat.sub_diag. reflexivity.
Qed.
Lemma skips_nil : skips 1 [0xc0].
Proof. exists 1%nat. reflexivity. Qed.

Lemma skips_value ws v : go_value ws v = true -> supported v = true -> skips 1 (fmt v).
Proof.
  induction v as [|t b|t b|t b|t k n|t k z|t s|k l IH|i l IH|h i] using gval_rect';
    intros Hg Hs; cbn [go_value supported] in Hg, Hs; cbn [fmt].
  - apply skips_nil.
  - exists 1%nat. destruct b; reflexivity.
  - apply skips_float; [auto|apply skips_uint].
  - apply skips_float; [auto|apply skips_uint].
  - apply skips_uint.
  - apply skips_int.
  - apply andb_true_iff in Hg as [_ Hg]. apply skips_str, Hg.
  - apply andb_true_iff in Hg as [Hg Hl].
    assert (H : skips (length l) (flat_map fmt l)).
    { clear Hl. induction IH as [|v l Hv Hl IHl]; [apply skips_0|]. cbn [forallb] in Hg, Hs.
      apply andb_true_iff in Hg as [? ?]. apply andb_true_iff in Hs as [? ?].
      apply (skips_app 1 (length l)); auto. }
    destruct H as [c H]. exists (S c). intros f n rest. unfold small_len in Hl.
    unfold fmt_len. rewrite <- app_assoc. cbn [app Nat.add skip]; cbn [Z.eqb Pos.eqb orb].
    rewrite skipn_be, firstn_be, be_val_bytes.
    rewrite Z.mod_small by (change (256 ^ Z.of_nat 4) with (2 ^ 32); lia). rewrite Nat2Z.id. apply H.
  - apply andb_true_iff in Hg as [Hg Hl].
    assert (H : skips (2 * length l) (flat_map fmt_entry l)).
    { clear Hl. induction IH as [|[k x] l [Hk Hx] Hl IHl]; [apply skips_0|]. cbn [forallb fst snd] in *.
      apply andb_true_iff in Hg as [Hg ?]. apply andb_true_iff in Hs as [Hs ?].
      apply andb_true_iff in Hg as [? ?]. apply andb_true_iff in Hs as [? Hs].
      replace (2 * length ((k, x) :: l))%nat with (2 + 2 * length l)%nat by (cbn [length]; lia).
      cbn [flat_map]. apply skips_app; [|auto]. unfold fmt_entry. cbn [fst snd].
      apply (skips_app 1 1); [auto|]. destruct (key_eqb k k); [auto|apply skips_nil]. }
    destruct H as [c H]. exists (S c). intros f n rest. unfold small_len in Hl.
    unfold fmt_len. rewrite <- app_assoc. cbn [app Nat.add skip]; cbn [Z.eqb Pos.eqb orb].
    rewrite skipn_be, firstn_be, be_val_bytes.
    rewrite Z.mod_small by (change (256 ^ Z.of_nat 4) with (2 ^ 32); lia). rewrite Nat2Z.id. apply H.
  - discriminate.
Qed.

Lemma skips_top ws v : go_value ws v = true -> supported v = true -> skips 1 (fmt_top_ws ws v).
Proof.
  intros Hg Hs. pose proof (skips_value ws v Hg Hs) as H.
  assert (Hf : forall b, skips 1 (fmt_f32 b)) by (intros; apply skips_float; [auto|apply skips_uint]).
  assert (Hi : forall z, skips 1 (if z =? - 2 ^ 31 then 0xd2 :: be_bytes 4 z else fmt_int z)).
  { intros z. destruct (z =? _); [apply skips_tag; tauto|apply skips_int]. }
  assert (Hj : forall z, skips 1 (if (- 2 ^ 7 <? z) && (z <? 2 ^ 7) then 0xd0 :: be_bytes 1 z else 0xd1 :: be_bytes 2 z)).
  { intros z. destruct (_ && _); apply skips_tag; tauto. }
  unfold fmt_top_ws, fmt_top.
  destruct v as [|t b|t b|t b|t k n|t k z|t s|k l|i l|h i]; try (destruct ws; exact H).
  - destruct t; destruct ws; auto.
  - destruct t; [|destruct ws; exact H|destruct ws; exact H].
    destruct k; try (destruct ws; auto; fail). destruct ws; apply skips_tag; tauto.
Qed.

Lemma skips_prefix a b t : skips 1 a -> skips 1 b -> b = a ++ t -> t = [].
Proof.
  intros [c1 H1] [c2 H2] ->.
  specialize (H1 (c2 + 1)%nat 0%nat t). specialize (H2 (c1 + 1)%nat 0%nat []).
  rewrite app_nil_r in H2.
  replace (c2 + (c1 + 1))%nat with (c1 + (c2 + 1))%nat in H2 by lia. rewrite H1 in H2.
  replace (c2 + 1)%nat with (S c2) in H2 by lia. replace (c1 + 1)%nat with (S c1) in H2 by lia.
  cbn in H2. congruence.
Qed.

(* ------------------------------------------------------------------ *)
(* accessors on wire values *)
Lemma normalize_fresh v tp : wire_universe v = true -> normalize (mkAny v tp) = NewAny v.
Proof.
  destruct v as [|t b|t b|t b|t k n|t k z|t s|k l|i l|h i]; cbn [wire_universe]; intros H; try reflexivity.
  - unfold NewAny, normalize. cbn. rewrite H. reflexivity.
  - apply andb_true_iff in H as [H _]. unfold NewAny, normalize. cbn. rewrite H. reflexivity.
  - apply andb_true_iff in H as [H _]. unfold NewAny, normalize. cbn. rewrite H. reflexivity.
  - apply andb_true_iff in H as [H Hk]. unfold NewAny, normalize. cbn. rewrite H. destruct k; try discriminate; reflexivity.
  - apply andb_true_iff in H as [H Hk]. unfold NewAny, normalize. cbn. rewrite H. destruct k; try discriminate; reflexivity.
  - apply andb_true_iff in H as [H _]. unfold NewAny, normalize. cbn. rewrite H. reflexivity.
  - discriminate.
Qed.

Lemma access_universe ws c v : wire_universe v = true -> access ws c (NewAny v) <> APanic.
Proof.
  destruct v as [|t b|t b|t b|t k n|t k z|t s|k l|i l|h i]; cbn [wire_universe]; intros H;
    try discriminate.
  - destruct c; discriminate.
  - apply Z.eqb_eq in H. subst. destruct c; discriminate.
  - apply andb_true_iff in H as [H _]. apply Z.eqb_eq in H. subst. destruct c; discriminate.
  - apply andb_true_iff in H as [H _]. apply Z.eqb_eq in H. subst. destruct c; discriminate.
  - apply andb_true_iff in H as [H Hk]. apply Z.eqb_eq in H. subst. destruct k; try discriminate; destruct c; discriminate.
  - apply andb_true_iff in H as [H Hk]. apply Z.eqb_eq in H. subst. destruct k; try discriminate; destruct c; discriminate.
  - apply andb_true_iff in H as [H _]. apply Z.eqb_eq in H. subst. destruct c; discriminate.
  - apply andb_true_iff in H as [H _]. destruct k; try discriminate. destruct c; discriminate.
  - apply andb_true_iff in H as [H _]. subst. destruct c; discriminate.
Qed.

(* ------------------------------------------------------------------ *)
(* failing writers *)
(* outcome of an encoding step: all of [bs] written and no failure met, or an
   error after a prefix of [bs] *)
Definition wrote (bs : list Z) (w : flaky) (x : option eerr * flaky) : Prop :=
  match x with
  | (None, (s, out)) => out = snd w ++ bs /\ exists used, fst w = used ++ s /\ Forall (fun o => o = None) used
  | (Some e, (s, out)) => e = EWrite /\ exists p t, bs = p ++ t /\ out = snd w ++ p
  end.

Lemma wrote_write bs w : wrote bs w (write flaky_wr bs w).
Proof.
  destruct w as [[|[k|] s] out]; cbn.
  - split; [reflexivity|]. exists []. auto.
  - split; [reflexivity|]. exists (firstn k bs), (skipn k bs). rewrite firstn_skipn. auto.
  - split; [reflexivity|]. exists [None]. auto.
Qed.
Lemma wrote_then a b w x k : wrote a w x -> (forall w1, wrote b w1 (k w1)) -> wrote (a ++ b) w (andThen x k).
Proof.
  intros Hx Hk. destruct x as [[e|] [s out]]; cbn in *.
  - destruct Hx as [-> (p & t & -> & ->)]. split; [reflexivity|]. exists p, (t ++ b). rewrite app_assoc. auto.
  - destruct Hx as [-> (used & E & HU)]. specialize (Hk (s, snd w ++ a)). cbn in Hk.
    destruct (k (s, snd w ++ a)) as [[e|] [s' out']]; cbn in *.
    + destruct Hk as [-> (p & t & -> & ->)]. split; [reflexivity|]. exists (a ++ p), t. rewrite !app_assoc. auto.
    + destruct Hk as [-> (used' & E' & HU')]. rewrite app_assoc. split; [reflexivity|].
      exists (used ++ used'). rewrite E, E', app_assoc. split; [reflexivity|]. apply Forall_app. auto.
Qed.

Lemma wrote_uint8 n w : wrote (0xcc :: be_bytes 1 n) w (encodeUint8 flaky_wr n w).
Proof. rewrite be1. apply wrote_write. Qed.
Lemma wrote_uint16 n w : in_u 16 n -> wrote (fmt_uint n) w (encodeUint16 flaky_wr n w).
Proof.
  unfold in_u, encodeUint16, fmt_uint. intros H. change cUint8Max with (2 ^ 8).
  destruct (Z.ltb_spec n (2 ^ 8)).
  - rewrite uwrap_id by (unfold in_u; lia). apply wrote_uint8.
  - replace (n <? 2 ^ 16) with true by lia. rewrite be2. apply wrote_write.
Qed.
Lemma wrote_uint32 n w : in_u 32 n -> wrote (fmt_uint n) w (encodeUint32 flaky_wr n w).
Proof.
  unfold in_u, encodeUint32. intros H. change cUint16Max with (2 ^ 16).
  destruct (Z.ltb_spec n (2 ^ 16)).
  - rewrite uwrap_id by (unfold in_u; lia). apply wrote_uint16. unfold in_u; lia.
  - unfold fmt_uint. replace (n <? 2 ^ 8) with false by lia. replace (n <? 2 ^ 16) with false by lia.
    replace (n <? 2 ^ 32) with true by lia. rewrite be4. apply wrote_write.
Qed.
Lemma wrote_uint64 n w : in_u 64 n -> wrote (fmt_uint n) w (encodeUint64 flaky_wr n w).
Proof.
  unfold in_u, encodeUint64. intros H. change cUint32Max with (2 ^ 32).
  destruct (Z.ltb_spec n (2 ^ 32)).
  - rewrite uwrap_id by (unfold in_u; lia). apply wrote_uint32. unfold in_u; lia.
  - unfold fmt_uint. replace (n <? 2 ^ 8) with false by lia. replace (n <? 2 ^ 16) with false by lia.
    replace (n <? 2 ^ 32) with false by lia. rewrite be8. apply wrote_write.
Qed.
Lemma wrote_int8 n w : wrote (0xd0 :: be_bytes 1 n) w (encodeInt8 flaky_wr n w).
Proof. rewrite be1. apply wrote_write. Qed.
Lemma wrote_int16 z w : in_s 16 z -> wrote (fmt_int16 z) w (encodeInt16 flaky_wr z w).
Proof.
  unfold in_s, encodeInt16, fmt_int16. intros H. change cInt8Min with (- 2 ^ 7). change cInt8Max with (2 ^ 7).
  destruct ((- 2 ^ 7 <? z) && (z <? 2 ^ 7)) eqn:E.
  - rewrite swrap_id by (unfold in_s; lia). apply wrote_int8.
  - rewrite be2, byte_shiftr_uwrap by lia. apply wrote_write.
Qed.
Lemma wrote_int32 z w : in_s 32 z -> wrote (fmt_int32 z) w (encodeInt32 flaky_wr z w).
Proof.
  unfold in_s, encodeInt32, fmt_int32. intros H. change cInt16Min with (- 2 ^ 15). change cInt16Max with (2 ^ 15).
  destruct ((- 2 ^ 15 <? z) && (z <? 2 ^ 15)) eqn:E.
  - rewrite swrap_id by (unfold in_s; lia). apply wrote_int16. unfold in_s; lia.
  - rewrite be4, !byte_shiftr_uwrap by lia. apply wrote_write.
Qed.
Lemma wrote_int64 z w : in_s 64 z -> wrote (fmt_int z) w (encodeInt64 flaky_wr z w).
Proof.
  unfold in_s, encodeInt64. intros H. change cInt32Min with (- 2 ^ 31). change cInt32Max with (2 ^ 31).
  destruct ((- 2 ^ 31 <? z) && (z <? 2 ^ 31)) eqn:E.
  - rewrite swrap_id by (unfold in_s; lia).
    replace (fmt_int z) with (fmt_int32 z); [apply wrote_int32; unfold in_s; lia|].
    rewrite fmt_int32_spec by (unfold in_s; lia). replace (z =? - 2 ^ 31) with false by lia. reflexivity.
  - unfold fmt_int. rewrite E. replace ((- 2 ^ 7 <? z) && (z <? 2 ^ 7)) with false by lia.
    replace ((- 2 ^ 15 <? z) && (z <? 2 ^ 15)) with false by lia.
    rewrite be8, !byte_shiftr_uwrap by lia. apply wrote_write.
Qed.
Lemma wrote_string s w : wrote (fmt_len 0xdb (length s) ++ s) w (encodeString flaky_wr s w).
Proof.
  unfold encodeString. rewrite enc_header. apply wrote_then; [apply wrote_write|]. intros. apply wrote_write.
Qed.

Lemma wrote_value ws v : go_value ws v = true -> supported v = true -> no_float v = true ->
  forall w, wrote (fmt v) w (encodeValue flaky_wr v w).
Proof.
  induction v as [|t b|t b|t b|t k n|t k z|t s|k l IH|i l IH|h i] using gval_rect';
    intros Hg Hs Hn w; cbn [go_value supported no_float] in Hg, Hs, Hn; cbn [fmt encodeValue]; try discriminate.
  - apply wrote_write.
  - destruct b; apply wrote_write.
  - apply wrote_uint64. apply (ubits_range ws k), in_ub_iff; exact Hg.
  - apply wrote_int64. apply (ibits_range ws k), in_sb_iff; exact Hg.
  - apply wrote_string.
  - rewrite enc_header. apply andb_true_iff in Hg as [Hg _]. apply wrote_then; [apply wrote_write|].
    clear w. induction IH as [|v l Hv Hl IHl]; intros w.
    { destruct w. cbn. rewrite ?app_nil_r. split; [reflexivity|]. exists []. auto. }
    cbn [forallb] in *. apply andb_true_iff in Hg as [? ?]. apply andb_true_iff in Hs as [? ?].
    apply andb_true_iff in Hn as [? ?]. cbn [flat_map]. apply wrote_then; auto.
  - rewrite enc_header. apply andb_true_iff in Hg as [Hg _]. apply wrote_then; [apply wrote_write|].
    clear w. induction IH as [|[k x] l [Hk Hx] Hl IHl]; intros w.
    { destruct w. cbn. rewrite ?app_nil_r. split; [reflexivity|]. exists []. auto. }
    cbn [forallb fst snd] in *. apply andb_true_iff in Hg as [Hg ?]. apply andb_true_iff in Hs as [Hs ?].
    apply andb_true_iff in Hn as [Hn ?]. apply andb_true_iff in Hg as [? ?]. apply andb_true_iff in Hs as [? Hs].
    apply andb_true_iff in Hn as [? ?]. cbn [flat_map fst snd]. rewrite <- app_assoc.
    apply wrote_then; [auto|]. intros w1. apply wrote_then; [|auto].
    destruct (key_eqb k k); [auto|apply wrote_write].
Qed.

Lemma wrote_top ws v : go_value ws v = true -> supported v = true -> no_float v = true ->
  forall w, wrote (fmt_top_ws ws v) w (encode flaky_wr ws v w).
Proof.
  intros Hg Hs Hn w. pose proof (wrote_value ws v Hg Hs Hn) as H.
  destruct v as [|t b|t b|t b|t k n|t k z|t s|k l|i l|h i]; try discriminate;
    try (destruct ws; apply H).
  - destruct t; destruct ws; apply H.
  - destruct t; [|destruct ws; apply H|destruct ws; apply H].
    assert (Hu : in_u (ubits ws k) n) by (apply in_ub_iff; exact Hg).
    assert (E : fmt_top_ws ws (VUint 0 k n) = fmt_uint n) by (destruct ws; reflexivity). rewrite E.
    cbn [encode Z.eqb]. destruct k; cbn [ubits] in Hu.
    + unfold fmt_uint. replace (n <? 2 ^ 8) with true by (unfold in_u in Hu; lia). apply wrote_uint8.
    + apply wrote_uint16, Hu.
    + apply wrote_uint32, Hu.
    + apply wrote_uint64, Hu.
    + destruct ws; [apply wrote_uint32, Hu|apply wrote_uint64, Hu].
    + apply wrote_uint64. apply (ubits_range ws UPtr). exact Hu.
  - destruct t; [|destruct ws; apply H|destruct ws; apply H].
    assert (Hu : in_s (ibits ws k) z) by (apply in_sb_iff; exact Hg).
    cbn [encode Z.eqb]. destruct k; cbn [ibits] in Hu.
    + replace (fmt_top_ws ws (VInt 0 I8 z)) with (0xd0 :: be_bytes 1 z) by (destruct ws; reflexivity). apply wrote_int8.
    + replace (fmt_top_ws ws (VInt 0 I16 z)) with (fmt_int16 z) by (destruct ws; reflexivity). apply wrote_int16, Hu.
    + replace (fmt_top_ws ws (VInt 0 I32 z)) with (fmt_int32 z); [apply wrote_int32, Hu|].
      rewrite fmt_int32_spec by exact Hu. destruct ws; reflexivity.
    + replace (fmt_top_ws ws (VInt 0 I64 z)) with (fmt_int z) by (destruct ws; reflexivity). apply wrote_int64, Hu.
    + destruct ws.
      * change (fmt_top_ws W32 (VInt 0 IInt z)) with (fmt_top (VInt 0 I32 z)).
        replace (fmt_top (VInt 0 I32 z)) with (fmt_int32 z); [apply wrote_int32, Hu|].
        rewrite fmt_int32_spec by exact Hu. reflexivity.
      * apply wrote_int64, Hu.
  - destruct t; destruct ws; apply H.
Qed.
