(* Lemmas about the codec model: decoding what was encoded. *)
From Verif Require Import GoInt GoFloat GoVal CodecModel CodecSpec CodecProof CodecProof2 CodecProof3.
From Coq Require Import ZifyBool ZifyNat.
Ltac Zify.zify_post_hook ::= idtac.

Definition outcome {A} (o : option A) (rest : list Z) : dres (R:=list Z) A :=
  match o with Some v => DOk v rest | None => DPanic end.

Definition decodes (v : gval) : Prop :=
  exists f0, forall f rest, (f0 <= f)%nat -> decode buf_rd f (fmt v ++ rest) = outcome (wire v) rest.

Lemma array_rt l : Forall decodes l ->
  exists f0, forall f rest, (f0 <= f)%nat ->
    decodeArray buf_rd f (Z.of_nat (length l)) (flat_map fmt l ++ rest) = outcome (opt_map wire l) rest.
Proof.
  induction 1 as [|v l [f1 H1] Hl [f2 H2]].
  - exists 1%nat. intros [|f] rest Hf; [lia|]. reflexivity.
  - exists (S (f1 + f2)). intros [|f] rest Hf; [lia|]. rewrite decodeArray_S.
    replace (Z.of_nat (length (v :: l)) <=? 0) with false by (cbn [length]; lia).
    cbn [flat_map]. rewrite <- app_assoc, H1 by lia. cbn [opt_map].
    destruct (wire v) as [v'|]; [|reflexivity]. cbn [outcome dbind].
    replace (Z.of_nat (length (v :: l)) - 1) with (Z.of_nat (length l)) by (cbn [length]; lia).
    rewrite H2 by lia. fold (opt_map wire l). destruct (opt_map wire l); reflexivity.
Qed.

(* the entry loop of [wire] *)
Definition wire_entries : list (gval * gval) -> list (gval * gval) -> option (list (gval * gval)) :=
  fix go (l : list (gval * gval)) (m : list (gval * gval)) : option (list (gval * gval)) :=
  match l with
  | [] => Some m
  | (k, x) :: r =>
      match wire k with
      | None => None
      | Some k' =>
          match (if key_eqb k k then wire x else Some VNil) with
          | None => None
          | Some x' => if hashable k' then go r (map_put m k' x') else None
          end
      end
  end.
Lemma wire_map i l : wire (VMap i l) = match wire_entries l [] with None => None | Some m => Some (VMap true m) end.
Proof. reflexivity. Qed.

Definition fmt_entry (kv : gval * gval) : list Z :=
  fmt (fst kv) ++ (if key_eqb (fst kv) (fst kv) then fmt (snd kv) else [0xc0]).

Lemma decode_nil f rest : decode buf_rd (S f) (0xc0 :: rest) = DOk VNil rest.
Proof. tag. reflexivity. Qed.

Definition entry_ok (kv : gval * gval) : Prop :=
  decodes (fst kv) /\ (key_eqb (fst kv) (fst kv) = true -> decodes (snd kv)).

Lemma map_rt l : Forall entry_ok l ->
  forall m, exists f0, forall f rest, (f0 <= f)%nat ->
    decodeMap buf_rd f (Z.of_nat (length l)) m (flat_map fmt_entry l ++ rest) = outcome (wire_entries l m) rest.
Proof.
  induction 1 as [|[k x] l [[f1 H1] Hx] Hl IH]; intros m.
  - exists 1%nat. intros [|f] rest Hf; [lia|]. reflexivity.
  - cbn [fst snd] in *.
    assert (exists f2, forall f rest, (f2 <= f)%nat ->
      decode buf_rd f ((if key_eqb k k then fmt x else [0xc0]) ++ rest) =
      outcome (if key_eqb k k then wire x else Some VNil) rest) as [f2 H2].
    { destruct (key_eqb k k); [apply Hx; reflexivity|].
      exists 1%nat. intros [|f] rest Hf; [lia|]. apply decode_nil. }
    set (k' := match wire k with Some k' => k' | None => VNil end).
    set (x' := match (if key_eqb k k then wire x else Some VNil) with Some x' => x' | None => VNil end).
    destruct (IH (map_put m k' x')) as [f3 H3].
    exists (S (f1 + f2 + f3)). intros [|f] rest Hf; [lia|]. rewrite decodeMap_S.
    replace (Z.of_nat (length ((k, x) :: l)) <=? 0) with false by (cbn [length]; lia).
    replace (Z.of_nat (length ((k, x) :: l)) - 1) with (Z.of_nat (length l)) by (cbn [length]; lia).
    cbn [flat_map]. unfold fmt_entry at 1. cbn [fst snd]. rewrite <- !app_assoc, H1 by lia.
    cbn [wire_entries].
    destruct (wire k) as [k1|] eqn:Ek; [|reflexivity]. cbn [outcome dbind].
    rewrite H2 by lia. subst k' x'.
    destruct (if key_eqb k k then wire x else Some VNil) as [x1|]; [|reflexivity].
    cbn [outcome dbind]. destruct (hashable k1); [|reflexivity]. rewrite H3 by lia. reflexivity.
Qed.

Lemma value_rt ws v : go_value ws v = true -> supported v = true -> decodes v.
Proof.
  induction v as [|t b|t b|t b|t k n|t k z|t s|k l IH|i l IH|h i] using gval_rect';
    intros Hg Hs; cbn [go_value supported] in Hg, Hs.
  - exists 1%nat. intros [|f] rest Hf; [lia|]. apply decode_nil.
  - exists 1%nat. intros [|f] rest Hf; [lia|]. destruct b; cbn [fmt]; tag; reflexivity.
  - exists 2%nat. intros [|[|f]] rest Hf; [lia|lia|]. cbn [fmt wire].
    rewrite dec_f64 by (apply f32_widen_range, in_ub_iff; exact Hg). destruct (f32_widen b <? 2 ^ 32); reflexivity.
  - exists 2%nat. intros [|[|f]] rest Hf; [lia|lia|]. cbn [fmt wire].
    rewrite dec_f64 by (apply in_ub_iff; exact Hg). destruct (b <? 2 ^ 32); reflexivity.
  - exists 1%nat. intros [|f] rest Hf; [lia|]. cbn [fmt wire].
    apply dec_uint. apply (ubits_range ws k), in_ub_iff; exact Hg.
  - exists 1%nat. intros [|f] rest Hf; [lia|]. cbn [fmt wire].
    apply dec_int. apply (ibits_range ws k), in_sb_iff; exact Hg.
  - exists 1%nat. intros [|f] rest Hf; [lia|]. cbn [fmt wire]. rewrite <- app_assoc.
    apply dec_str. apply andb_true_iff in Hg. apply Hg.
  - apply andb_true_iff in Hg as [Hg Hl].
    destruct (array_rt l) as [f0 H0].
    { rewrite Forall_forall in *. rewrite forallb_forall in Hg, Hs. auto. }
    exists (S f0). intros [|f] rest Hf; [lia|]. cbn [fmt wire]. rewrite <- app_assoc. unfold fmt_len. tag.
    unfold small_len in Hl. rewrite readU32_be, uwrap_id by (unfold in_u; lia). cbn [dbind].
    rewrite H0 by lia. destruct (opt_map wire l); reflexivity.
  - apply andb_true_iff in Hg as [Hg Hl].
    destruct (map_rt l) with (m := @nil (gval * gval)) as [f0 H0].
    { rewrite Forall_forall in *. rewrite forallb_forall in Hg, Hs.
      intros [k x] Hin. specialize (Hg _ Hin). specialize (Hs _ Hin). destruct (IH _ Hin) as [IHk IHx].
      cbn [fst snd] in *. apply andb_true_iff in Hg as [? ?]. apply andb_true_iff in Hs as [? Hs].
      split; cbn [fst snd]; [auto|]. intros Ek. rewrite Ek in Hs. auto. }
    exists (S f0). intros [|f] rest Hf; [lia|]. rewrite wire_map. cbn [fmt]. rewrite <- app_assoc. unfold fmt_len. tag.
    unfold small_len in Hl. rewrite readU32_be, uwrap_id by (unfold in_u; lia). cbn [dbind].
    specialize (H0 f rest ltac:(lia)). unfold fmt_entry in H0. rewrite H0.
    destruct (wire_entries l []); reflexivity.
  - discriminate.
Qed.

Lemma in_range_ints ws v : go_value ws v = true ->
  forall t k z, v = VInt t k z -> in_s (ibits ws k) z.
Proof. intros H t k z ->. apply in_sb_iff. exact H. Qed.

Lemma top_rt ws v : go_value ws v = true -> supported v = true ->
  exists f0, forall f rest, (f0 <= f)%nat ->
    decode buf_rd f (fmt_top_ws ws v ++ rest) = outcome (wire_top ws v) rest.
Proof.
  intros Hg Hs.
  destruct (value_rt ws v Hg Hs) as [f0 Hv].
  exists (S (S f0)). intros [|[|f]] rest Hf; [lia|lia|].
  specialize (Hv (S (S f)) rest ltac:(lia)).
  assert (I32case : forall z, in_s 32 z ->
    decode buf_rd (S (S f)) ((if z =? - 2 ^ 31 then 0xd2 :: be_bytes 4 z else fmt_int z) ++ rest) =
    DOk (VInt 0 (if z =? - 2 ^ 31 then I32 else narrow_s z) z) rest).
  { intros z Hz. destruct (z =? - 2 ^ 31); [apply dec_i32; exact Hz|].
    apply dec_int. apply (in_s_mono 32); [lia|exact Hz]. }
  destruct v as [|t b|t b|t b|t k n|t k z|t s|k l|i l|h i];
    try (destruct ws; exact Hv).
  - (* float32 *)
    destruct t as [|p|p]; [|destruct ws; exact Hv|destruct ws; exact Hv].
    assert (H : in_u 32 b) by (apply in_ub_iff; exact Hg).
    assert (E : fmt_top_ws ws (VF32 0 b) = fmt_f32 b) by (destruct ws; reflexivity).
    rewrite E, dec_f32 by exact H. cbn [wire_top]. unfold in_u in H.
    destruct (b <? 2 ^ 16); [reflexivity|]. replace (b <? 2 ^ 32) with true by lia. reflexivity.
  - (* ints *)
    destruct t as [|p|p]; [|destruct ws; exact Hv|destruct ws; exact Hv].
    assert (H : in_s (ibits ws k) z) by (apply in_sb_iff; exact Hg).
    destruct k; cbn [ibits] in H.
    + replace (fmt_top_ws ws (VInt 0 I8 z)) with (0xd0 :: be_bytes 1 z) by (destruct ws; reflexivity).
      cbn [app]. rewrite dec_i8 by exact H. reflexivity.
    + replace (fmt_top_ws ws (VInt 0 I16 z)) with
        (if (- 2 ^ 7 <? z) && (z <? 2 ^ 7) then 0xd0 :: be_bytes 1 z else 0xd1 :: be_bytes 2 z)
        by (destruct ws; reflexivity).
      cbn [wire_top outcome]. unfold in_s in H.
      destruct ((- 2 ^ 7 <? z) && (z <? 2 ^ 7)) eqn:E; cbn [app].
      * apply dec_i8. unfold in_s. lia.
      * apply dec_i16. exact H.
    + replace (fmt_top_ws ws (VInt 0 I32 z)) with
        (if z =? - 2 ^ 31 then 0xd2 :: be_bytes 4 z else fmt_int z) by (destruct ws; reflexivity).
      apply I32case. exact H.
    + destruct ws; exact Hv.
    + destruct ws; [|exact Hv]. apply I32case. exact H.
Qed.

Lemma top_decode ws v rest : go_value ws v = true -> supported v = true ->
  bdecode (fmt_top_ws ws v ++ rest) = outcome (wire_top ws v) rest.
Proof.
  intros Hg Hs. destruct (top_rt ws v Hg Hs) as [f0 H].
  specialize (H f0 rest (le_n _)). rewrite <- H. apply bdecode_any_fuel.
  rewrite H. destruct (wire_top ws v); discriminate.
Qed.
