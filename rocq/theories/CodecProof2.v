(* Encoder totality; decoder termination, monotonicity in fuel, invariants. *)
From Verif Require Import GoInt GoFloat GoVal CodecModel CodecSpec CodecProof.
From Coq Require Import ZifyBool ZifyNat.

(* ------------------------------------------------------------------ *)
(* Encode fails exactly on unsupported kinds *)
Lemma u64_ok n w : fst (encodeUint64 buf_wr n w) = None.
Proof. unfold encodeUint64, encodeUint32, encodeUint16, encodeUint8.
  destruct (_ <? _); [destruct (_ <? _); [destruct (_ <? _)|]|]; reflexivity. Qed.
Lemma u32_ok n w : fst (encodeUint32 buf_wr n w) = None.
Proof. unfold encodeUint32, encodeUint16, encodeUint8.
  destruct (_ <? _); [destruct (_ <? _)|]; reflexivity. Qed.
Lemma u16_ok n w : fst (encodeUint16 buf_wr n w) = None.
Proof. unfold encodeUint16, encodeUint8. destruct (_ <? _); reflexivity. Qed.
Lemma i16_ok n w : fst (encodeInt16 buf_wr n w) = None.
Proof. unfold encodeInt16, encodeInt8. destruct (_ && _); reflexivity. Qed.
Lemma i32_ok n w : fst (encodeInt32 buf_wr n w) = None.
Proof. unfold encodeInt32. destruct (_ && _); [apply i16_ok|reflexivity]. Qed.
Lemma i64_ok n w : fst (encodeInt64 buf_wr n w) = None.
Proof. unfold encodeInt64. destruct (_ && _); [apply i32_ok|reflexivity]. Qed.

Lemma andThen_fst {W} (x : wres (W := W)) k e : fst x = None -> (forall w, fst (k w) = e) -> fst (andThen x k) = e.
Proof. destruct x as [[x|] w]; cbn; [congruence|auto]. Qed.
Lemma andThen_fst_err {W} (x : wres (W := W)) k e : fst x = Some e -> fst (andThen x k) = Some e.
Proof. destruct x as [[x|] w]; cbn; congruence. Qed.

Lemma encodeValue_err v : forall w,
  fst (encodeValue buf_wr v w) = if supported v then None else Some EUnsupported.
Proof.
  induction v as [|t b|t b|t b|t k n|t k z|t s|k l IH|i l IH|h i] using gval_rect';
    cbn [supported encodeValue]; intros w.
  - reflexivity.
  - destruct b; reflexivity.
  - apply u64_ok.
  - apply u64_ok.
  - apply u64_ok.
  - apply i64_ok.
  - reflexivity.
  - rewrite write_buf. cbn [andThen]. generalize (w ++ header cArr32 (Z.of_nat (length l))). clear w.
    induction IH as [|x r Hx Hr IHr]; cbn [forallb]; intros w; [reflexivity|].
    specialize (Hx w). destruct (supported x); cbn [andb].
    + apply andThen_fst; auto.
    + apply andThen_fst_err; exact Hx.
  - rewrite write_buf. cbn [andThen]. generalize (w ++ header cMap32 (Z.of_nat (length l))). clear w.
    induction IH as [|[k x] r [Hk Hx] Hr IHr]; cbn [forallb fst snd]; intros w; [reflexivity|].
    cbn [fst snd] in *.
    specialize (Hk w). destruct (supported k); cbn [andb].
    + apply andThen_fst; [exact Hk|]. intros w1. destruct (key_eqb k k); cbn [negb orb].
      * specialize (Hx w1). destruct (supported x); cbn [andb].
        -- apply andThen_fst; auto.
        -- apply andThen_fst_err; exact Hx.
      * cbn [andb]. apply andThen_fst; [reflexivity|]. auto.
    + apply andThen_fst_err; exact Hk.
  - reflexivity.
Qed.

Lemma encode_err ws v w :
  fst (encode buf_wr ws v w) = if supported v then None else Some EUnsupported.
Proof.
  destruct v as [|t b|t b|t b|t k n|t k z|t s|k l|i l|h i]; unfold encode;
    try (apply encodeValue_err).
  - reflexivity.
  - destruct (t =? 0), b; reflexivity.
  - destruct (t =? 0); [apply u32_ok|apply encodeValue_err].
  - destruct (t =? 0); [apply u64_ok|apply encodeValue_err].
  - destruct (t =? 0); [|apply encodeValue_err].
    destruct k; [reflexivity|apply u16_ok|apply u32_ok|apply u64_ok| |apply encodeValue_err].
    destruct ws; [apply u32_ok|apply u64_ok].
  - destruct (t =? 0); [|apply encodeValue_err].
    destruct k; [reflexivity|apply i16_ok|apply i32_ok|apply i64_ok|].
    destruct ws; [apply i32_ok|apply i64_ok].
  - destruct (t =? 0); reflexivity.
Qed.

(* ------------------------------------------------------------------ *)
(* Decoder over an arbitrary finite reader *)
Section Eqs.
Context {R : Type} (rd : Z -> R -> option (list Z) * R).
Lemma decode_S f r : decode rd (S f) r =
      dbind (readByte rd r) (fun c r =>
      if c =? cNil then DOk VNil r
      else if c =? cFalse then DOk (VBool 0 false) r
      else if c =? cTrue then DOk (VBool 0 true) r
      else if c =? cFloat32 then
        dbind (decode rd f r) (fun d r =>
          match d with VUint 0 U32 n => DOk (VF32 0 n) r | _ => DPanic end)
      else if c =? cFloat64 then
        dbind (decode rd f r) (fun d r =>
          match d with VUint 0 U64 n => DOk (VF64 0 n) r | _ => DPanic end)
      else if c =? cUint8 then dmap (VUint 0 U8) (readByte rd r)
      else if c =? cUint16 then dmap (VUint 0 U16) (readUint16 rd r)
      else if c =? cUint32 then dmap (VUint 0 U32) (readUint32 rd r)
      else if c =? cUint64 then dmap (VUint 0 U64) (readUint64 rd r)
      else if c =? cInt8 then dmap (fun b => VInt 0 I8 (swrap 8 b)) (readByte rd r)
      else if c =? cInt16 then dmap (VInt 0 I16) (readInt16 rd r)
      else if c =? cInt32 then dmap (VInt 0 I32) (readInt32 rd r)
      else if c =? cInt64 then dmap (VInt 0 I64) (readInt64 rd r)
      else if c =? cStr32 then
        dbind (readUint32 rd r) (fun n r =>
          if n =? 0 then DOk (VStr 0 []) r
          else match rd n r with
               | (None, r') => DErr VNil r'
               | (Some d, r') =>
                   DOk (VStr 0 (d ++ repeat 0 (Z.to_nat (n - Z.of_nat (length d))))) r'
               end)
      else if c =? cArr32 then
        dbind (readUint32 rd r) (fun n r =>
          match decodeArray rd f n r with
          | DOk l r' => DOk (VArr ASliceIface l) r'
          | DErr _ r' => DErr (VArr ASliceIface []) r'
          | DPanic => DPanic
          | DFuel => DFuel
          end)
      else if c =? cMap32 then
        dbind (readUint32 rd r) (fun n r =>
          match decodeMap rd f n [] r with
          | DOk m r' => DOk (VMap true m) r'
          | DErr _ r' => DErr (VMap true []) r'
          | DPanic => DPanic
          | DFuel => DFuel
          end)
      else DErr VNil r).
Proof. reflexivity. Qed.
Lemma decodeArray_S f n r : decodeArray rd (S f) n r =
      if n <=? 0 then DOk [] r
      else dbind (decode rd f r) (fun v r =>
           dbind (decodeArray rd f (n - 1) r) (fun l r => DOk (v :: l) r)).
Proof. reflexivity. Qed.
Lemma decodeMap_S f n m r : decodeMap rd (S f) n m r =
      if n <=? 0 then DOk m r
      else dbind (decode rd f r) (fun k r =>
           dbind (decode rd f r) (fun v r =>
           if hashable k then decodeMap rd f (n - 1) (map_put m k v) r else DPanic)).
Proof. reflexivity. Qed.
(* what decode does once it has read the tag c *)
Definition decode_body f c r : dres gval :=
      if c =? cNil then DOk VNil r
      else if c =? cFalse then DOk (VBool 0 false) r
      else if c =? cTrue then DOk (VBool 0 true) r
      else if c =? cFloat32 then
        dbind (decode rd f r) (fun d r =>
          match d with VUint 0 U32 n => DOk (VF32 0 n) r | _ => DPanic end)
      else if c =? cFloat64 then
        dbind (decode rd f r) (fun d r =>
          match d with VUint 0 U64 n => DOk (VF64 0 n) r | _ => DPanic end)
      else if c =? cUint8 then dmap (VUint 0 U8) (readByte rd r)
      else if c =? cUint16 then dmap (VUint 0 U16) (readUint16 rd r)
      else if c =? cUint32 then dmap (VUint 0 U32) (readUint32 rd r)
      else if c =? cUint64 then dmap (VUint 0 U64) (readUint64 rd r)
      else if c =? cInt8 then dmap (fun b => VInt 0 I8 (swrap 8 b)) (readByte rd r)
      else if c =? cInt16 then dmap (VInt 0 I16) (readInt16 rd r)
      else if c =? cInt32 then dmap (VInt 0 I32) (readInt32 rd r)
      else if c =? cInt64 then dmap (VInt 0 I64) (readInt64 rd r)
      else if c =? cStr32 then
        dbind (readUint32 rd r) (fun n r =>
          if n =? 0 then DOk (VStr 0 []) r
          else match rd n r with
               | (None, r') => DErr VNil r'
               | (Some d, r') =>
                   DOk (VStr 0 (d ++ repeat 0 (Z.to_nat (n - Z.of_nat (length d))))) r'
               end)
      else if c =? cArr32 then
        dbind (readUint32 rd r) (fun n r =>
          match decodeArray rd f n r with
          | DOk l r' => DOk (VArr ASliceIface l) r'
          | DErr _ r' => DErr (VArr ASliceIface []) r'
          | DPanic => DPanic
          | DFuel => DFuel
          end)
      else if c =? cMap32 then
        dbind (readUint32 rd r) (fun n r =>
          match decodeMap rd f n [] r with
          | DOk m r' => DOk (VMap true m) r'
          | DErr _ r' => DErr (VMap true []) r'
          | DPanic => DPanic
          | DFuel => DFuel
          end)
      else DErr VNil r.
Lemma decode_S_body f r : decode rd (S f) r = dbind (readByte rd r) (decode_body f).
Proof. reflexivity. Qed.
End Eqs.

Section Fuel.
Context {R : Type} (rd : Z -> R -> option (list Z) * R).
Variable meas : R -> nat.
Variable Rel : R -> R -> Prop.      (* [Rel r r']: r' is what may be left of r *)
Hypothesis Rel_refl : forall r, Rel r r.
Hypothesis Rel_trans : forall a b c, Rel a b -> Rel b c -> Rel a c.
Hypothesis rd_ok : forall n r d r', 0 < n -> rd n r = (Some d, r') -> (meas r' < meas r)%nat.
Hypothesis rd_any : forall n r x r', rd n r = (x, r') -> (meas r' <= meas r)%nat /\ Rel r r'.

(* outcome: no fuel exhaustion; on success at least [k] less is left *)
Definition good {A} (k : nat) (r : R) (x : dres (R:=R) A) : Prop :=
  match x with
  | DOk _ r' => (meas r' + k <= meas r)%nat /\ Rel r r'
  | DErr _ r' => (meas r' <= meas r)%nat /\ Rel r r'
  | DPanic => True
  | DFuel => False
  end.

Lemma good_weaken {A} k k' r (x : dres (R:=R) A) : (k' <= k)%nat -> good k r x -> good k' r x.
Proof. destruct x; cbn; intuition lia. Qed.

Lemma good_bind {A B} k k' r (x : dres (R:=R) A) (f : A -> R -> dres (R:=R) B) :
  good k r x ->
  (forall a r', (meas r' + k <= meas r)%nat -> Rel r r' -> good k' r' (f a r')) ->
  good (k + k') r (dbind x f).
Proof.
  destruct x as [a r1|d r1| |]; cbn [dbind good]; intros Hx Hf; auto.
  destruct Hx as [H1 H2]. specialize (Hf a r1 H1 H2).
  destruct (f a r1); cbn in *; intuition (try lia); eauto.
Qed.

Lemma good_rd {A} n r (f : list Z -> A) : 0 < n ->
  good 1 r (match rd n r with (None, r') => DErr VNil r' | (Some d, r') => DOk (f d) r' end).
Proof.
  intros Hn. destruct (rd n r) as [[d|] r'] eqn:E; cbn.
  - pose proof (rd_ok n r d r' Hn E). destruct (rd_any n r _ r' E). split; [lia|assumption].
  - exact (rd_any n r _ r' E).
Qed.

Lemma good_map {A B} (g : A -> B) k r (x : dres (R:=R) A) : good k r x -> good k r (dmap g x).
Proof. destruct x; cbn; auto. Qed.

Lemma body_good f c r1 :
  (forall r, (meas r + 1 <= f)%nat -> good 1 r (decode rd f r)) ->
  (forall n r, (meas r + 2 <= f)%nat -> good 0 r (decodeArray rd f n r)) ->
  (forall n m r, (meas r + 2 <= f)%nat -> good 0 r (decodeMap rd f n m r)) ->
  (meas r1 + 1 <= f)%nat -> good 0 r1 (decode_body rd f c r1).
Proof.
      intros IHd IHa IHm Hr. unfold decode_body.
      repeat match goal with |- good _ _ (if ?b then _ else _) => destruct b end;
        try (cbn; split; [lia|apply Rel_refl]);
        try (eapply good_weaken with (k := 1%nat); [lia|]; apply good_map;
             first [apply (good_rd 1 r1 (fun d => at_ d 0)); lia
                   |apply (good_rd 2 r1 (fun d => _)); lia
                   |apply (good_rd 4 r1 (fun d => _)); lia
                   |apply (good_rd 8 r1 (fun d => _)); lia]).
      * eapply good_weaken with (k := (1 + 0)%nat); [lia|]. apply good_bind; [apply IHd; lia|].
        intros d r2 _ _. destruct d; try exact I. destruct t; try exact I. destruct k; try exact I.
        cbn; split; [lia|apply Rel_refl].
      * eapply good_weaken with (k := (1 + 0)%nat); [lia|]. apply good_bind; [apply IHd; lia|].
        intros d r2 _ _. destruct d; try exact I. destruct t; try exact I. destruct k; try exact I.
        cbn; split; [lia|apply Rel_refl].
      * eapply good_weaken with (k := (1 + 0)%nat); [lia|]. apply good_bind; [apply (good_rd 4 r1 (fun d => _)); lia|].
        intros n r2 H2 _. destruct (n =? 0) eqn:En; [cbn; split; [lia|apply Rel_refl]|].
        destruct (rd n r2) as [[d|] r3] eqn:E; cbn; destruct (rd_any n r2 _ r3 E); split; try lia; assumption.
      * eapply good_weaken with (k := (1 + 0)%nat); [lia|]. apply good_bind; [apply (good_rd 4 r1 (fun d => _)); lia|].
        intros n r2 H2 _. specialize (IHa n r2 ltac:(lia)).
        destruct (decodeArray rd f n r2); cbn in *; intuition lia.
      * eapply good_weaken with (k := (1 + 0)%nat); [lia|]. apply good_bind; [apply (good_rd 4 r1 (fun d => _)); lia|].
        intros n r2 H2 _. specialize (IHm n [] r2 ltac:(lia)).
        destruct (decodeMap rd f n [] r2); cbn in *; intuition lia.
Qed.

Lemma decode_good : forall f,
  (forall r, (meas r + 1 <= f)%nat -> good 1 r (decode rd f r)) /\
  (forall n r, (meas r + 2 <= f)%nat -> good 0 r (decodeArray rd f n r)) /\
  (forall n m r, (meas r + 2 <= f)%nat -> good 0 r (decodeMap rd f n m r)).
Proof.
  induction f as [|f (IHd & IHa & IHm)].
  - repeat split; intros; lia.
  - split; [|split].
    + intros r Hr. rewrite decode_S_body.
      change 1%nat with (1 + 0)%nat. apply good_bind; [apply (good_rd 1 r (fun d => at_ d 0)); lia|].
      intros c r1 H1 HR. apply body_good; try assumption. lia.
    + intros n r Hr. rewrite decodeArray_S. destruct (n <=? 0); [cbn; split; [lia|apply Rel_refl]|].
      eapply good_weaken with (k := (1 + 0)%nat); [lia|]. apply good_bind; [apply IHd; lia|].
      intros v r1 H1 _. change 0%nat with (0 + 0)%nat. apply good_bind; [apply IHa; lia|].
      intros l r2 _ _. cbn; split; [lia|apply Rel_refl].
    + intros n m r Hr. rewrite decodeMap_S. destruct (n <=? 0); [cbn; split; [lia|apply Rel_refl]|].
      eapply good_weaken with (k := (1 + 0)%nat); [lia|]. apply good_bind; [apply IHd; lia|].
      intros k r1 H1 _. eapply good_weaken with (k := (1 + 0)%nat); [lia|]. apply good_bind; [apply IHd; lia|].
      intros v r2 H2 _. destruct (hashable k); [apply IHm; lia|exact I].
Qed.
End Fuel.

(* More fuel does not change an outcome. *)
Section Mono.
Context {R : Type} (rd : Z -> R -> option (list Z) * R).

Lemma dbind_mono {A B} (x y : dres (R:=R) A) (f g : A -> R -> dres (R:=R) B) :
  (x <> DFuel -> y = x) -> (forall a r, f a r <> DFuel -> g a r = f a r) ->
  dbind x f <> DFuel -> dbind y g = dbind x f.
Proof.
  intros Hx Hf H. destruct x as [a r|d r| |]; cbn in *; try (rewrite Hx by discriminate; cbn; auto).
  congruence.
Qed.

Lemma decode_mono_S : forall f,
  (forall r, decode rd f r <> DFuel -> decode rd (S f) r = decode rd f r) /\
  (forall n r, decodeArray rd f n r <> DFuel -> decodeArray rd (S f) n r = decodeArray rd f n r) /\
  (forall n m r, decodeMap rd f n m r <> DFuel -> decodeMap rd (S f) n m r = decodeMap rd f n m r).
Proof.
  induction f as [|f (IHd & IHa & IHm)].
  - repeat split; intros; exfalso; auto.
  - split; [|split].
    + intros r. rewrite (decode_S rd (S f)), (decode_S rd f).
      apply (dbind_mono (readByte rd r) (readByte rd r)); [reflexivity|].
      intros c r1.
      repeat match goal with |- (if ?b then _ else _) <> _ -> _ => destruct b; [try reflexivity|] end;
        try reflexivity.
      * apply dbind_mono; [apply IHd|reflexivity].
      * apply dbind_mono; [apply IHd|reflexivity].
      * apply dbind_mono; [reflexivity|]. intros n r2 H.
        rewrite IHa; [reflexivity|]. intros E. rewrite E in H. congruence.
      * apply dbind_mono; [reflexivity|]. intros n r2 H.
        rewrite IHm; [reflexivity|]. intros E. rewrite E in H. congruence.
    + intros n r. rewrite (decodeArray_S rd (S f)), (decodeArray_S rd f). destruct (n <=? 0); [reflexivity|].
      apply dbind_mono; [apply IHd|]. intros v r1.
      apply dbind_mono; [apply IHa|reflexivity].
    + intros n m r. rewrite (decodeMap_S rd (S f)), (decodeMap_S rd f). destruct (n <=? 0); [reflexivity|].
      apply dbind_mono; [apply IHd|]. intros k r1.
      apply dbind_mono; [apply IHd|]. intros v r2.
      destruct (hashable k); [apply IHm|reflexivity].
Qed.

Lemma decode_mono f f' r : (f <= f')%nat -> decode rd f r <> DFuel -> decode rd f' r = decode rd f r.
Proof.
  induction 1 as [|f' Hle IH]; intros H; [reflexivity|].
  rewrite <- IH by exact H. apply decode_mono_S. rewrite IH by exact H. exact H.
Qed.
End Mono.

(* ------------------------------------------------------------------ *)
(* The in-memory buffer *)
Definition is_suffix (b b' : list Z) : Prop := exists p, b = p ++ b'.

Lemma buf_rd_ok n r d r' : 0 < n -> buf_rd n r = (Some d, r') -> (length r' < length r)%nat.
Proof.
  unfold buf_rd. destruct r as [|x r]; [congruence|]. intros Hn E. injection E as _ <-.
  rewrite skipn_length. cbn [length]. lia.
Qed.
Lemma buf_rd_any n r x r' : buf_rd n r = (x, r') -> (length r' <= length r)%nat /\ is_suffix r r'.
Proof.
  unfold buf_rd. destruct r as [|y r]; intros E; injection E as <- <-.
  - split; [lia|]. exists []. reflexivity.
  - split; [rewrite skipn_length; lia|]. eexists. symmetry. apply firstn_skipn.
Qed.

Lemma bdecode_good b : good (@length Z) is_suffix 1 b (bdecode b).
Proof.
  unfold bdecode, buf_fuel.
  apply (decode_good buf_rd (@length Z) is_suffix); try lia.
  - intros r. exists []. reflexivity.
  - intros x y z [p ->] [q ->]. exists (p ++ q). apply app_assoc.
  - apply buf_rd_ok.
  - apply buf_rd_any.
Qed.

Lemma bdecode_tag x b : good (@length Z) is_suffix 0 b (bdecode (x :: b)).
Proof.
  unfold bdecode, buf_fuel. rewrite decode_S_body.
  assert (E : readByte buf_rd (x :: b) = DOk x b).
  { unfold readByte, buf_rd. replace (Z.to_nat (Z.min 1 (Z.of_nat (length (x :: b))))) with 1%nat by (cbn [length]; lia).
    reflexivity. }
  rewrite E. cbn [dbind].
  destruct (decode_good buf_rd (@length Z) is_suffix) with (f := S (length (x :: b))) as (Hd & Ha & Hm).
  - intros r. exists []. reflexivity.
  - intros y z w [p ->] [q ->]. exists (p ++ q). apply app_assoc.
  - apply buf_rd_ok.
  - apply buf_rd_any.
  - apply body_good; try assumption.
    + intros r. exists []. reflexivity.
    + intros y z w [p ->] [q ->]. exists (p ++ q). apply app_assoc.
    + apply buf_rd_ok.
    + apply buf_rd_any.
    + cbn [length]. lia.
Qed.

Lemma bdecode_not_fuel b : bdecode b <> DFuel.
Proof. pose proof (bdecode_good b) as H. intros E. rewrite E in H. exact H. Qed.

Lemma bdecode_any_fuel b f : decode buf_rd f b <> DFuel -> bdecode b = decode buf_rd f b.
Proof.
  intros H. destruct (le_lt_dec f (buf_fuel b)).
  - apply decode_mono; assumption.
  - symmetry. apply decode_mono; [lia|]. exact (bdecode_not_fuel b).
Qed.

(* The chunked reader *)
Definition chunk_meas (cs : list (list Z)) : nat := length (concat cs).

Lemma chunk_rd_any n cs x cs' : chunk_rd n cs = (x, cs') ->
  (chunk_meas cs' <= chunk_meas cs)%nat /\ is_suffix (concat cs) (concat cs').
Proof.
  revert x cs'. induction cs as [|c cs IH]; intros x cs' E; cbn in E.
  - injection E as <- <-. split; [lia|]. exists []; reflexivity.
  - destruct c as [|y c]; [apply IH in E; exact E|].
    set (k := Z.to_nat (Z.min n (Z.of_nat (length (y :: c))))) in E.
    injection E as <- <-. unfold chunk_meas.
    assert (Hc : concat (match skipn k (y :: c) with [] => cs | t => t :: cs end)
                 = skipn k (y :: c) ++ concat cs).
    { destruct (skipn k (y :: c)); reflexivity. }
    rewrite Hc. cbn [concat]. split.
    + rewrite !app_length, skipn_length. lia.
    + exists (firstn k (y :: c)). rewrite app_assoc, firstn_skipn. reflexivity.
Qed.
Lemma chunk_rd_ok n cs d cs' : 0 < n -> chunk_rd n cs = (Some d, cs') -> (chunk_meas cs' < chunk_meas cs)%nat.
Proof.
  intros Hn. revert cs'. induction cs as [|c cs IH]; intros cs' E; cbn in E; [discriminate|].
  destruct c as [|y c]; [apply IH in E; exact E|].
  set (k := Z.to_nat (Z.min n (Z.of_nat (length (y :: c))))) in E.
  injection E as <- <-. unfold chunk_meas.
  assert (Hc : concat (match skipn k (y :: c) with [] => cs | t => t :: cs end)
               = skipn k (y :: c) ++ concat cs).
  { destruct (skipn k (y :: c)); reflexivity. }
  rewrite Hc. cbn [concat]. rewrite !app_length, skipn_length.
  assert (0 < k)%nat by (subst k; cbn [length]; lia). cbn [length]. lia.
Qed.
Lemma cdecode_good cs : good chunk_meas (fun a b => is_suffix (concat a) (concat b)) 1 cs (cdecode cs).
Proof.
  unfold cdecode, buf_fuel.
  apply (decode_good chunk_rd chunk_meas (fun a b => is_suffix (concat a) (concat b))).
  - intros r. exists []. reflexivity.
  - intros x y z [p Hp] [q Hq]. exists (p ++ q). rewrite Hp, Hq. apply app_assoc.
  - apply chunk_rd_ok.
  - apply chunk_rd_any.
  - unfold chunk_meas. lia.
Qed.
