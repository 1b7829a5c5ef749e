(* Lemmas about the codec model: arbitrary readers, truncation. *)
From Verif Require Import GoInt GoFloat GoVal CodecModel CodecSpec CodecProof CodecProof2 CodecProof3 CodecProof4.
From Coq Require Import ZifyBool ZifyNat.
Ltac Zify.zify_post_hook ::= idtac.

Lemma concat_pieces_uint n : concat (pieces_uint n) = fmt_uint n.
Proof. unfold pieces_uint, fmt_uint. repeat destruct (_ <? _); cbn [concat app]; rewrite app_nil_r; reflexivity. Qed.
Lemma concat_pieces_int n : concat (pieces_int n) = fmt_int n.
Proof. unfold pieces_int, fmt_int. repeat destruct (_ && _); cbn [concat app]; rewrite app_nil_r; reflexivity. Qed.
Lemma concat_pieces_str s : concat (pieces_str s) = fmt_len 0xdb (length s) ++ s.
Proof. unfold pieces_str, fmt_len. destruct s; cbn [concat app]; rewrite ?app_nil_r; reflexivity. Qed.

Lemma concat_flat_map {A} (f : A -> list (list Z)) l : concat (flat_map f l) = flat_map (fun x => concat (f x)) l.
Proof. induction l; cbn; [reflexivity|]. rewrite concat_app, IHl. reflexivity. Qed.

Lemma flat_map_ext_in {A B} (f g : A -> list B) l : (forall x, In x l -> f x = g x) -> flat_map f l = flat_map g l.
Proof. induction l; cbn; intros H; [reflexivity|]. rewrite H, IHl; auto. Qed.

Lemma concat_pieces v : concat (pieces v) = fmt v.
Proof.
  induction v as [|t b|t b|t b|t k n|t k z|t s|k l IH|i l IH|h i] using gval_rect'; cbn [pieces fmt].
  - reflexivity.
  - reflexivity.
  - cbn [concat app]. rewrite concat_pieces_uint. reflexivity.
  - cbn [concat app]. rewrite concat_pieces_uint. reflexivity.
  - apply concat_pieces_uint.
  - apply concat_pieces_int.
  - apply concat_pieces_str.
  - unfold fmt_len. cbn [concat app]. do 2 f_equal.
    rewrite concat_flat_map. apply flat_map_ext_in. rewrite Forall_forall in IH. exact IH.
  - unfold fmt_len. cbn [concat app]. do 2 f_equal.
    rewrite concat_flat_map. apply flat_map_ext_in. rewrite Forall_forall in IH.
    intros [k x] Hin. destruct (IH _ Hin) as [Hk Hx]. cbn [fst snd] in *. rewrite concat_app, Hk.
    destruct (key_eqb k k); [rewrite Hx|]; reflexivity.
  - reflexivity.
Qed.

Lemma cons_inj {A} (x y : A) a b : x :: a = y :: b -> y = x /\ a = b.
Proof. intros H; injection H; auto. Qed.

Lemma rbyte {R} {rd : Z -> R -> option (list Z) * R} {x r r1} :
  rd 1 r = (Some [x], r1) -> readByte rd r = DOk x r1.
Proof. intros E. unfold readByte. rewrite E. reflexivity. Qed.

Ltac gtag H := rewrite decode_S; rewrite (rbyte H); cbn [dbind];
  cbv [cNil cFalse cTrue cFloat32 cFloat64 cUint8 cUint16 cUint32 cUint64 cInt8 cInt16 cInt32 cInt64 cStr32 cArr32 cMap32];
  cbn [Z.eqb Pos.eqb].

Section Feeds.
Context {R : Type} (rd : Z -> R -> option (list Z) * R).

(* the reader hands over these pieces when asked for exactly their sizes *)
Inductive feeds : list (list Z) -> R -> R -> Prop :=
| feeds_nil r : feeds [] r r
| feeds_cons p ps r r1 r2 :
    rd (Z.of_nat (length p)) r = (Some p, r1) -> feeds ps r1 r2 -> feeds (p :: ps) r r2.

Lemma feeds_app ps qs r r2 : feeds (ps ++ qs) r r2 <-> exists r1, feeds ps r r1 /\ feeds qs r1 r2.
Proof.
  revert r. induction ps as [|p ps IH]; cbn; intros r.
  - split; [intros H; exists r; split; [constructor|exact H]|intros (r1 & H1 & H2); inversion H1; subst; exact H2].
  - split.
    + intros H. inversion H as [|a b c r3 d E HF]; subst. apply IH in HF as (r1 & H1 & H2).
      exists r1. split; [econstructor; eauto|exact H2].
    + intros (r1 & H1 & H2). inversion H1 as [|a b c r3 d E HF]; subst.
      econstructor; [exact E|]. apply IH. eauto.
Qed.

Lemma feeds_inv p ps r r2 : feeds (p :: ps) r r2 ->
  exists r1, rd (Z.of_nat (length p)) r = (Some p, r1) /\ feeds ps r1 r2.
Proof. intros H. inversion H; subst. eauto. Qed.
Lemma feeds_nil_inv r r2 : feeds [] r r2 -> r2 = r.
Proof. intros H. inversion H; subst. reflexivity. Qed.

Definition outc {A} (o : option A) (r : R) : dres (R:=R) A :=
  match o with Some v => DOk v r | None => DPanic end.

Lemma ru32 v r r1 : rd 4 r = (Some (be_bytes 4 v), r1) -> readUint32 rd r = DOk (uwrap 32 v) r1.
Proof.
  intros E. erewrite readUint32_val; [|exact E|apply be_bytes_ok].
  rewrite pad_full by apply be_bytes_length. rewrite be_val_bytes. reflexivity.
Qed.

Lemma gdec_uint f n r r' : in_u 64 n -> feeds (pieces_uint n) r r' ->
  decode rd (S f) r = DOk (VUint 0 (narrow_u n) n) r'.
Proof.
  intros Hn. unfold in_u in Hn. unfold pieces_uint, narrow_u.
  destruct (Z.ltb_spec n (2 ^ 8)); [|destruct (Z.ltb_spec n (2 ^ 16)); [|destruct (Z.ltb_spec n (2 ^ 32))]];
    intros HF; apply feeds_inv in HF as (r1 & E1 & HF1); apply feeds_inv in HF1 as (r2 & E2 & HF2);
    apply feeds_nil_inv in HF2; subst; gtag E1; rewrite be_bytes_length in E2.
  - rewrite be1 in E2. rewrite (rbyte E2). unfold byte_of. rewrite uwrap_id by (unfold in_u; lia). reflexivity.
  - erewrite readUint16_val; [|exact E2|apply be_bytes_ok].
    rewrite pad_full by apply be_bytes_length. rewrite be_val_bytes, Z.mod_small by lia. reflexivity.
  - erewrite readUint32_val; [|exact E2|apply be_bytes_ok].
    rewrite pad_full by apply be_bytes_length. rewrite be_val_bytes, Z.mod_small by lia. reflexivity.
  - erewrite readUint64_val; [|exact E2|apply be_bytes_ok].
    rewrite pad_full by apply be_bytes_length. rewrite be_val_bytes, Z.mod_small by lia. reflexivity.
Qed.

Lemma gdec_int f n r r' : in_s 64 n -> feeds (pieces_int n) r r' ->
  decode rd (S f) r = DOk (VInt 0 (narrow_s n) n) r'.
Proof.
  intros Hn. unfold in_s in Hn. unfold pieces_int, narrow_s.
  destruct ((- 2 ^ 7 <? n) && (n <? 2 ^ 7)) eqn:H1;
    [|destruct ((- 2 ^ 15 <? n) && (n <? 2 ^ 15)) eqn:H2;
      [|destruct ((- 2 ^ 31 <? n) && (n <? 2 ^ 31)) eqn:H3]];
    intros HF; apply feeds_inv in HF as (r1 & E1 & HF1); apply feeds_inv in HF1 as (r2 & E2 & HF2);
    apply feeds_nil_inv in HF2; subst; gtag E1; rewrite be_bytes_length in E2.
  - rewrite be1 in E2. rewrite (rbyte E2). cbn [dmap dbind]. unfold byte_of.
    rewrite swrap_uwrap by (unfold in_s; lia). reflexivity.
  - erewrite readInt16_val; [|exact E2|apply be_bytes_ok].
    rewrite pad_full by apply be_bytes_length. rewrite be_val_bytes.
    change (256 ^ Z.of_nat 2) with (2 ^ 16). fold (uwrap 16 n). rewrite swrap_uwrap by (unfold in_s; lia). reflexivity.
  - erewrite readInt32_val; [|exact E2|apply be_bytes_ok].
    rewrite pad_full by apply be_bytes_length. rewrite be_val_bytes.
    change (256 ^ Z.of_nat 4) with (2 ^ 32). fold (uwrap 32 n). rewrite swrap_uwrap by (unfold in_s; lia). reflexivity.
  - erewrite readInt64_val; [|exact E2|apply be_bytes_ok].
    rewrite pad_full by apply be_bytes_length. rewrite be_val_bytes.
    change (256 ^ Z.of_nat 8) with (2 ^ 64). fold (uwrap 64 n). rewrite swrap_uwrap by (unfold in_s; lia). reflexivity.
Qed.

Lemma gdec_f64 f b r r' : in_u 64 b -> feeds ([0xcb] :: pieces_uint b) r r' ->
  decode rd (S (S f)) r = outc (if b <? 2 ^ 32 then None else Some (VF64 0 b)) r'.
Proof.
  intros H HF. apply feeds_inv in HF as (r1 & E1 & HF1). gtag E1.
  rewrite (gdec_uint _ _ _ _ H HF1). cbn [dbind]. unfold narrow_u.
  destruct (Z.ltb_spec b (2 ^ 8)); [replace (b <? 2 ^ 32) with true by lia; reflexivity|].
  destruct (Z.ltb_spec b (2 ^ 16)); [replace (b <? 2 ^ 32) with true by lia; reflexivity|].
  destruct (Z.ltb_spec b (2 ^ 32)); reflexivity.
Qed.

Lemma gdec_str f s r r' : small_len s = true -> feeds (pieces_str s) r r' ->
  decode rd (S f) r = DOk (VStr 0 s) r'.
Proof.
  intros Hl HF. unfold small_len in Hl. unfold pieces_str in HF.
  apply feeds_inv in HF as (r1 & E1 & HF1). apply feeds_inv in HF1 as (r2 & E2 & HF2).
  rewrite be_bytes_length in E2. gtag E1.
  rewrite (ru32 _ _ _ E2), uwrap_id by (unfold in_u; lia). cbn [dbind].
  destruct s as [|x s]; [apply feeds_nil_inv in HF2; subst; reflexivity|].
  apply feeds_inv in HF2 as (r3 & E3 & HF3). apply feeds_nil_inv in HF3; subst.
  replace (Z.of_nat (length (x :: s)) =? 0) with false by (cbn [length]; lia).
  rewrite E3, Z.sub_diag. cbn [repeat Z.to_nat]. rewrite app_nil_r. reflexivity.
Qed.

Definition gdecodes (v : gval) : Prop :=
  exists f0, forall f r r', (f0 <= f)%nat -> feeds (pieces v) r r' -> decode rd f r = outc (wire v) r'.

Lemma garray l : Forall gdecodes l ->
  exists f0, forall f r r', (f0 <= f)%nat -> feeds (flat_map pieces l) r r' ->
    decodeArray rd f (Z.of_nat (length l)) r = outc (opt_map wire l) r'.
Proof.
  induction 1 as [|v l [f1 H1] Hl [f2 H2]].
  - exists 1%nat. intros [|f] r r' Hf HF; [lia|]. apply feeds_nil_inv in HF; subst. reflexivity.
  - exists (S (f1 + f2)). intros [|f] r r' Hf HF; [lia|]. cbn [flat_map] in HF.
    apply feeds_app in HF as (r1 & HF1 & HF2). rewrite decodeArray_S.
    replace (Z.of_nat (length (v :: l)) <=? 0) with false by (cbn [length]; lia).
    rewrite (H1 f _ _ ltac:(lia) HF1). cbn [opt_map].
    destruct (wire v) as [v'|]; [|reflexivity]. cbn [outc dbind].
    replace (Z.of_nat (length (v :: l)) - 1) with (Z.of_nat (length l)) by (cbn [length]; lia).
    rewrite (H2 f _ _ ltac:(lia) HF2). fold (opt_map wire l). destruct (opt_map wire l); reflexivity.
Qed.

Definition pieces_entry (kv : gval * gval) : list (list Z) :=
  pieces (fst kv) ++ (if key_eqb (fst kv) (fst kv) then pieces (snd kv) else [[0xc0]]).

Lemma gdec_nil f r r' : feeds [[0xc0]] r r' -> decode rd (S f) r = DOk VNil r'.
Proof.
  intros HF. apply feeds_inv in HF as (r1 & E1 & HF1). apply feeds_nil_inv in HF1; subst. gtag E1. reflexivity.
Qed.

Definition gentry_ok (kv : gval * gval) : Prop :=
  gdecodes (fst kv) /\ (key_eqb (fst kv) (fst kv) = true -> gdecodes (snd kv)).

Lemma gvalue_of kv : gentry_ok kv ->
  exists f2, forall f r r', (f2 <= f)%nat ->
    feeds (if key_eqb (fst kv) (fst kv) then pieces (snd kv) else [[0xc0]]) r r' ->
    decode rd f r = outc (if key_eqb (fst kv) (fst kv) then wire (snd kv) else Some VNil) r'.
Proof.
  intros [_ Hx]. destruct (key_eqb (fst kv) (fst kv)); [apply Hx; reflexivity|].
  exists 1%nat. intros [|f] r r' Hf HF; [lia|]. apply gdec_nil. exact HF.
Qed.

Lemma gmap l : Forall gentry_ok l ->
  forall m, exists f0, forall f r r', (f0 <= f)%nat -> feeds (flat_map pieces_entry l) r r' ->
    decodeMap rd f (Z.of_nat (length l)) m r = outc (wire_entries l m) r'.
Proof.
  induction 1 as [|kv l Hkv Hl IH]; intros m.
  - exists 1%nat. intros [|f] r r' Hf HF; [lia|]. apply feeds_nil_inv in HF; subst. reflexivity.
  - destruct (gvalue_of kv Hkv) as [f2 H2]. destruct Hkv as [[f1 H1] _]. destruct kv as [k x]. cbn [fst snd] in *.
    set (k' := match wire k with Some k' => k' | None => VNil end).
    set (x' := match (if key_eqb k k then wire x else Some VNil) with Some x' => x' | None => VNil end).
    destruct (IH (map_put m k' x')) as [f3 H3].
    exists (S (f1 + f2 + f3)). intros [|f] r r' Hf HF; [lia|]. cbn [flat_map] in HF.
    unfold pieces_entry at 1 in HF. cbn [fst snd] in HF.
    apply feeds_app in HF as (rb & HF1 & HF3). apply feeds_app in HF1 as (ra & HF1 & HF2).
    rewrite decodeMap_S.
    replace (Z.of_nat (length ((k, x) :: l)) <=? 0) with false by (cbn [length]; lia).
    replace (Z.of_nat (length ((k, x) :: l)) - 1) with (Z.of_nat (length l)) by (cbn [length]; lia).
    rewrite (H1 f _ _ ltac:(lia) HF1). cbn [wire_entries].
    destruct (wire k) as [k1|] eqn:Ek; [|reflexivity]. cbn [outc dbind].
    rewrite (H2 f _ _ ltac:(lia) HF2). subst k' x'.
    destruct (if key_eqb k k then wire x else Some VNil) as [x1|]; [|reflexivity].
    cbn [outc dbind]. destruct (hashable k1); [|reflexivity]. rewrite (H3 f _ _ ltac:(lia) HF3). reflexivity.
Qed.

Lemma gvalue ws v : go_value ws v = true -> supported v = true -> gdecodes v.
Proof.
  induction v as [|t b|t b|t b|t k n|t k z|t s|k l IH|i l IH|h i] using gval_rect';
    intros Hg Hs; cbn [go_value supported] in Hg, Hs.
  - exists 1%nat. intros [|f] r r' Hf HF; [lia|]. apply gdec_nil, HF.
  - exists 1%nat. intros [|f] r r' Hf HF; [lia|]. cbn [pieces] in HF.
    apply feeds_inv in HF as (r1 & E1 & HF1). apply feeds_nil_inv in HF1; subst. destruct b; gtag E1; reflexivity.
  - exists 2%nat. intros [|[|f]] r r' Hf HF; [lia|lia|].
    apply gdec_f64; [apply f32_widen_range, in_ub_iff; exact Hg|exact HF].
  - exists 2%nat. intros [|[|f]] r r' Hf HF; [lia|lia|].
    apply gdec_f64; [apply in_ub_iff; exact Hg|exact HF].
  - exists 1%nat. intros [|f] r r' Hf HF; [lia|].
    apply gdec_uint; [|exact HF]. apply (ubits_range ws k), in_ub_iff; exact Hg.
  - exists 1%nat. intros [|f] r r' Hf HF; [lia|].
    apply gdec_int; [|exact HF]. apply (ibits_range ws k), in_sb_iff; exact Hg.
  - exists 1%nat. intros [|f] r r' Hf HF; [lia|].
    apply gdec_str; [|exact HF]. apply andb_true_iff in Hg. apply Hg.
  - apply andb_true_iff in Hg as [Hg Hl].
    destruct (garray l) as [f0 H0].
    { rewrite Forall_forall in *. rewrite forallb_forall in Hg, Hs. auto. }
    exists (S f0). intros [|f] r r' Hf HF; [lia|]. cbn [pieces] in HF.
    apply feeds_inv in HF as (r1 & E1 & HF1). apply feeds_inv in HF1 as (r2 & E2 & HF2).
    rewrite be_bytes_length in E2. gtag E1. unfold small_len in Hl.
    rewrite (ru32 _ _ _ E2), uwrap_id by (unfold in_u; lia). cbn [dbind].
    rewrite (H0 f _ _ ltac:(lia) HF2). cbn [wire]. destruct (opt_map wire l); reflexivity.
  - apply andb_true_iff in Hg as [Hg Hl].
    destruct (gmap l) with (m := @nil (gval * gval)) as [f0 H0].
    { rewrite Forall_forall in *. rewrite forallb_forall in Hg, Hs.
      intros [k x] Hin. specialize (Hg _ Hin). specialize (Hs _ Hin). destruct (IH _ Hin) as [IHk IHx].
      cbn [fst snd] in *. apply andb_true_iff in Hg as [? ?]. apply andb_true_iff in Hs as [? Hs].
      split; cbn [fst snd]; [auto|]. intros Ek. rewrite Ek in Hs. auto. }
    exists (S f0). intros [|f] r r' Hf HF; [lia|]. rewrite wire_map. cbn [pieces] in HF.
    apply feeds_inv in HF as (r1 & E1 & HF1). apply feeds_inv in HF1 as (r2 & E2 & HF2).
    rewrite be_bytes_length in E2. gtag E1. unfold small_len in Hl.
    rewrite (ru32 _ _ _ E2), uwrap_id by (unfold in_u; lia). cbn [dbind].
    rewrite (H0 f _ _ ltac:(lia) HF2). destruct (wire_entries l []); reflexivity.
  - discriminate.
Qed.

(* --- input ends at a piece boundary --- *)
Definition eof (r : R) : Prop := forall n, 0 < n -> exists r', rd n r = (None, r').

Definition failed {A B} (o : option B) (x : dres (R:=R) A) : Prop :=
  (exists d r, x = DErr d r) \/ (x = DPanic /\ o = None).

Definition cut_fails (v : gval) : Prop :=
  exists f0, forall f p q r r', (f0 <= f)%nat -> pieces v = p ++ q -> q <> [] -> feeds p r r' -> eof r' ->
    failed (wire v) (decode rd f r).

Lemma eof_byte r : eof r -> exists r', readByte rd r = DErr VNil r'.
Proof. intros H. destruct (H 1 ltac:(lia)) as [r' E]. exists r'. unfold readByte. rewrite E. reflexivity. Qed.

Lemma eof_decode f r : eof r -> exists d r', decode rd (S f) r = DErr d r'.
Proof.
  intros H. destruct (eof_byte r H) as [r' E]. rewrite decode_S, E. cbn. eauto.
Qed.

Lemma cut_uint f n p q r r' o : pieces_uint n = p ++ q -> q <> [] -> feeds p r r' -> eof r' ->
  failed (B:=gval) o (decode rd (S f) r).
Proof.
  intros E Hq HF He. left.
  destruct p as [|p1 p].
  { apply feeds_nil_inv in HF; subst. apply eof_decode, He. }
  assert (exists t bs, pieces_uint n = [[t]; bs] /\ (t = 0xcc \/ t = 0xcd \/ t = 0xce \/ t = 0xcf)) as (t & bs & Ep & Ht).
  { unfold pieces_uint. repeat destruct (_ <? _); eauto 8. }
  rewrite Ep in E. cbn [app] in E; apply cons_inj in E as [-> E].
  assert (p = []) as ->.
  { destruct p as [|? [|? ?]]; [reflexivity|injection E as _ E; subst; congruence|discriminate]. }
  apply feeds_inv in HF as (r1 & E1 & HF1). apply feeds_nil_inv in HF1; subst.
  destruct Ht as [->|[->|[->| ->]]]; gtag E1.
  - destruct (eof_byte _ He) as [r' ->]. cbn. eauto.
  - destruct (He 2 ltac:(lia)) as [r2 E2]. unfold readUint16. rewrite E2. cbn. eauto.
  - destruct (He 4 ltac:(lia)) as [r2 E2]. unfold readUint32. rewrite E2. cbn. eauto.
  - destruct (He 8 ltac:(lia)) as [r2 E2]. unfold readUint64. rewrite E2. cbn. eauto.
Qed.

Lemma cut_int f n p q r r' o : pieces_int n = p ++ q -> q <> [] -> feeds p r r' -> eof r' ->
  failed (B:=gval) o (decode rd (S f) r).
Proof.
  intros E Hq HF He. left.
  destruct p as [|p1 p].
  { apply feeds_nil_inv in HF; subst. apply eof_decode, He. }
  assert (exists t bs, pieces_int n = [[t]; bs] /\ (t = 0xd0 \/ t = 0xd1 \/ t = 0xd2 \/ t = 0xd3)) as (t & bs & Ep & Ht).
  { unfold pieces_int. repeat destruct (_ && _); eauto 8. }
  rewrite Ep in E. cbn [app] in E; apply cons_inj in E as [-> E].
  assert (p = []) as ->.
  { destruct p as [|? [|? ?]]; [reflexivity|injection E as _ E; subst; congruence|discriminate]. }
  apply feeds_inv in HF as (r1 & E1 & HF1). apply feeds_nil_inv in HF1; subst.
  destruct Ht as [->|[->|[->| ->]]]; gtag E1.
  - destruct (eof_byte _ He) as [r' ->]. cbn. eauto.
  - destruct (He 2 ltac:(lia)) as [r2 E2]. unfold readInt16. rewrite E2. cbn. eauto.
  - destruct (He 4 ltac:(lia)) as [r2 E2]. unfold readInt32. rewrite E2. cbn. eauto.
  - destruct (He 8 ltac:(lia)) as [r2 E2]. unfold readInt64. rewrite E2. cbn. eauto.
Qed.

Lemma cut_f64 f n p q r r' o : [0xcb] :: pieces_uint n = p ++ q -> q <> [] -> feeds p r r' -> eof r' ->
  failed (B:=gval) o (decode rd (S (S f)) r).
Proof.
  intros E Hq HF He.
  destruct p as [|p1 p].
  { apply feeds_nil_inv in HF; subst. left. apply eof_decode, He. }
  cbn [app] in E; apply cons_inj in E as [-> E]. apply feeds_inv in HF as (r1 & E1 & HF1). gtag E1.
  destruct (cut_uint f _ _ _ _ _ (None : option gval) E Hq HF1 He) as [(d & r2 & Ed)|[Ed _]]; rewrite Ed; cbn.
  - left. eauto.
  - exfalso. destruct (cut_uint f _ _ _ _ _ (Some VNil) E Hq HF1 He) as [(d & r2 & Ed')|[_ E']]; congruence.
Qed.

Lemma cut_prefix {A} (p q a b : list A) : a ++ b = p ++ q ->
  (exists t, p = a ++ t /\ b = t ++ q) \/ (exists t, t <> [] /\ a = p ++ t).
Proof.
  revert p. induction a as [|x a IH]; intros p E; cbn in E.
  - left. exists p. auto.
  - destruct p as [|y p].
    + right. exists (x :: a). split; [discriminate|reflexivity].
    + cbn in E. injection E as -> E. destruct (IH p E) as [(t & -> & ->)|(t & Ht & ->)].
      * left. exists t. auto.
      * right. exists t. auto.
Qed.

Lemma failed_bind {A B C} (o : option C) (x : dres (R:=R) A) (k : A -> R -> dres (R:=R) B) :
  failed o x -> failed o (dbind x k).
Proof. intros [(d & r & ->)|[-> Ho]]; [left; cbn; eauto|right; auto]. Qed.

Lemma failed_weaken {A B C} (o : option B) (o' : option C) (x : dres (R:=R) A) :
  failed o x -> (o = None -> o' = None) -> failed o' x.
Proof. intros [H|[H1 H2]] Hi; [left; exact H|right; auto]. Qed.

Lemma cut_array l : Forall gdecodes l -> Forall cut_fails l ->
  exists f0, forall f p q r r', (f0 <= f)%nat -> flat_map pieces l = p ++ q -> q <> [] -> feeds p r r' -> eof r' ->
    failed (opt_map wire l) (decodeArray rd f (Z.of_nat (length l)) r).
Proof.
  induction l as [|v l IH]; intros Hd Hc.
  - exists 0%nat. intros f p q r r' Hf E Hq. destruct p; [|discriminate]. cbn in E. congruence.
  - inversion Hd as [|? ? [f1 H1] Hd']; subst. inversion Hc as [|? ? [f2 H2] Hc']; subst.
    destruct (IH Hd' Hc') as [f3 H3]. exists (S (f1 + f2 + f3)). intros [|f] p q r r' Hf E Hq HF He; [lia|].
    rewrite decodeArray_S. replace (Z.of_nat (length (v :: l)) <=? 0) with false by (cbn [length]; lia).
    replace (Z.of_nat (length (v :: l)) - 1) with (Z.of_nat (length l)) by (cbn [length]; lia).
    cbn [flat_map] in E. cbn [opt_map].
    apply cut_prefix in E as [(t & -> & E)|(t & Ht & E)].
    + apply feeds_app in HF as (r1 & HF1 & HF2).
      rewrite (H1 f _ _ ltac:(lia) HF1). destruct (wire v); [|right; split; reflexivity]. cbn [outc dbind].
      apply failed_bind. eapply failed_weaken; [eapply H3; eauto; lia|].
      intros E'. fold (opt_map wire l). rewrite E'. reflexivity.
    + apply failed_bind. eapply failed_weaken; [eapply H2; eauto; lia|]. intros E'. rewrite E'. reflexivity.
Qed.

Definition cut_entry_ok (kv : gval * gval) : Prop :=
  cut_fails (fst kv) /\ (key_eqb (fst kv) (fst kv) = true -> cut_fails (snd kv)).

Lemma cut_nil : cut_fails VNil.
Proof.
  exists 1%nat. intros [|f] p q r r' Hf E Hq HF He; [lia|]. left.
  destruct p as [|p1 [|? ?]]; cbn in E.
  - apply feeds_nil_inv in HF; subst. apply eof_decode, He.
  - injection E as <- <-. congruence.
  - discriminate.
Qed.

Lemma cut_value_of kv : cut_entry_ok kv ->
  exists f2, forall f p q r r', (f2 <= f)%nat ->
    (if key_eqb (fst kv) (fst kv) then pieces (snd kv) else [[0xc0]]) = p ++ q -> q <> [] ->
    feeds p r r' -> eof r' ->
    failed (if key_eqb (fst kv) (fst kv) then wire (snd kv) else Some VNil) (decode rd f r).
Proof.
  intros [_ Hx]. destruct (key_eqb (fst kv) (fst kv)); [apply Hx; reflexivity|].
  apply cut_nil.
Qed.

Lemma cut_map l : Forall gentry_ok l -> Forall cut_entry_ok l ->
  forall m, exists f0, forall f p q r r', (f0 <= f)%nat -> flat_map pieces_entry l = p ++ q -> q <> [] ->
    feeds p r r' -> eof r' ->
    failed (wire_entries l m) (decodeMap rd f (Z.of_nat (length l)) m r).
Proof.
  induction l as [|kv l IH]; intros Hd Hc m.
  - exists 0%nat. intros f p q r r' Hf E Hq. destruct p; [|discriminate]. cbn in E. congruence.
  - inversion Hd as [|? ? Hkv Hd']; subst. inversion Hc as [|? ? Hkc Hc']; subst.
    destruct (gvalue_of kv Hkv) as [f2 H2]. destruct Hkv as [[f1 H1] _].
    destruct (cut_value_of kv Hkc) as [f4 H4]. destruct Hkc as [[f5 H5] _].
    destruct kv as [k x]. cbn [fst snd] in *.
    set (k' := match wire k with Some k' => k' | None => VNil end).
    set (x' := match (if key_eqb k k then wire x else Some VNil) with Some x' => x' | None => VNil end).
    destruct (IH Hd' Hc' (map_put m k' x')) as [f3 H3].
    exists (S (f1 + f2 + f3 + f4 + f5)). intros [|f] p q r r' Hf E Hq HF He; [lia|].
    rewrite decodeMap_S. replace (Z.of_nat (length ((k, x) :: l)) <=? 0) with false by (cbn [length]; lia).
    replace (Z.of_nat (length ((k, x) :: l)) - 1) with (Z.of_nat (length l)) by (cbn [length]; lia).
    cbn [flat_map] in E. unfold pieces_entry at 1 in E. cbn [fst snd] in E. rewrite <- app_assoc in E.
    cbn [wire_entries].
    apply cut_prefix in E as [(t & -> & E)|(t & Ht & E)].
    2:{ apply failed_bind. eapply failed_weaken; [eapply H5; eauto; lia|]. intros E'. rewrite E'. reflexivity. }
    apply feeds_app in HF as (r1 & HF1 & HF2).
    rewrite (H1 f _ _ ltac:(lia) HF1). subst k' x'. destruct (wire k) as [k1|]; [|right; split; reflexivity].
    cbn [outc dbind].
    apply cut_prefix in E as [(t' & -> & E)|(t' & Ht & E)].
    2:{ apply failed_bind. eapply failed_weaken; [eapply H4; eauto; lia|]. intros E'. rewrite E'. reflexivity. }
    apply feeds_app in HF2 as (r2 & HF2 & HF3).
    rewrite (H2 f _ _ ltac:(lia) HF2).
    destruct (if key_eqb k k then wire x else Some VNil) as [x1|]; [|right; split; reflexivity].
    cbn [outc dbind]. destruct (hashable k1); [|right; split; reflexivity].
    eapply H3; eauto. lia.
Qed.

Lemma cut_value ws v : go_value ws v = true -> supported v = true -> cut_fails v.
Proof.
  induction v as [|t b|t b|t b|t k n|t k z|t s|k l IH|i l IH|h i] using gval_rect';
    intros Hg Hs; cbn [go_value supported] in Hg, Hs.
  - apply cut_nil.
  - exists 1%nat. intros [|f] p q r r' Hf E Hq HF He; [lia|]. left. cbn [pieces] in E.
    destruct p as [|p1 [|? ?]]; cbn in E.
    + apply feeds_nil_inv in HF; subst. apply eof_decode, He.
    + injection E as <- <-. congruence.
    + discriminate.
  - exists 2%nat. intros [|[|f]] p q r r' Hf E Hq HF He; [lia|lia|]. eapply cut_f64; eauto.
  - exists 2%nat. intros [|[|f]] p q r r' Hf E Hq HF He; [lia|lia|]. eapply cut_f64; eauto.
  - exists 1%nat. intros [|f] p q r r' Hf E Hq HF He; [lia|]. eapply cut_uint; eauto.
  - exists 1%nat. intros [|f] p q r r' Hf E Hq HF He; [lia|]. eapply cut_int; eauto.
  - apply andb_true_iff in Hg as [_ Hl]. unfold small_len in Hl.
    exists 1%nat. intros [|f] p q r r' Hf E Hq HF He; [lia|]. left. cbn [pieces] in E. unfold pieces_str in E.
    destruct p as [|p1 p]; [apply feeds_nil_inv in HF; subst; apply eof_decode, He|]. cbn [app] in E; apply cons_inj in E as [-> E].
    apply feeds_inv in HF as (r1 & E1 & HF1). gtag E1.
    destruct p as [|p2 p].
    { apply feeds_nil_inv in HF1; subst. destruct (He 4 ltac:(lia)) as [r2 E2]. unfold readUint32. rewrite E2. cbn. eauto. }
    cbn [app] in E; apply cons_inj in E as [-> E]. apply feeds_inv in HF1 as (r2 & E2 & HF2). rewrite be_bytes_length in E2.
    rewrite (ru32 _ _ _ E2), uwrap_id by (unfold in_u; lia). cbn [dbind].
    destruct s as [|x s]; [destruct p; cbn in E; congruence|].
    replace (Z.of_nat (length (x :: s)) =? 0) with false by (cbn [length]; lia).
    destruct p as [|p3 [|? ?]]; cbn in E; [|injection E as <- <-; congruence|discriminate].
    apply feeds_nil_inv in HF2; subst. destruct (He (Z.of_nat (length (x :: s))) ltac:(cbn [length]; lia)) as [r3 E3].
    rewrite E3. eauto.
  - apply andb_true_iff in Hg as [Hg Hl]. unfold small_len in Hl.
    assert (Hd : Forall gdecodes l).
    { rewrite Forall_forall. rewrite forallb_forall in Hg, Hs. intros x Hx. eapply gvalue; eauto. }
    assert (Hc : Forall cut_fails l).
    { rewrite Forall_forall in *. rewrite forallb_forall in Hg, Hs. auto. }
    destruct (cut_array l Hd Hc) as [f0 H0].
    exists (S f0). intros [|f] p q r r' Hf E Hq HF He; [lia|]. cbn [pieces] in E.
    destruct p as [|p1 p]; [apply feeds_nil_inv in HF; subst; left; apply eof_decode, He|]. cbn [app] in E; apply cons_inj in E as [-> E].
    apply feeds_inv in HF as (r1 & E1 & HF1). gtag E1.
    destruct p as [|p2 p].
    { apply feeds_nil_inv in HF1; subst. destruct (He 4 ltac:(lia)) as [r2 E2]. unfold readUint32. rewrite E2. left. cbn. eauto. }
    cbn [app] in E; apply cons_inj in E as [-> E]. apply feeds_inv in HF1 as (r2 & E2 & HF2). rewrite be_bytes_length in E2.
    rewrite (ru32 _ _ _ E2), uwrap_id by (unfold in_u; lia). cbn [dbind wire].
    destruct (H0 f p q r2 r' ltac:(lia) E Hq HF2 He) as [(d & r3 & ->)|[-> ->]]; [left; eauto|right; auto].
  - apply andb_true_iff in Hg as [Hg Hl]. unfold small_len in Hl.
    assert (Hd : Forall gentry_ok l).
    { rewrite Forall_forall. rewrite forallb_forall in Hg, Hs.
      intros [k x] Hin. specialize (Hg _ Hin). specialize (Hs _ Hin).
      cbn [fst snd] in *. apply andb_true_iff in Hg as [? ?]. apply andb_true_iff in Hs as [? Hs].
      split; cbn [fst snd]; [eapply gvalue; eauto|]. intros Ek. rewrite Ek in Hs. eapply gvalue; eauto. }
    assert (Hc : Forall cut_entry_ok l).
    { rewrite Forall_forall in *. rewrite forallb_forall in Hg, Hs.
      intros [k x] Hin. specialize (Hg _ Hin). specialize (Hs _ Hin). destruct (IH _ Hin) as [IHk IHx].
      cbn [fst snd] in *. apply andb_true_iff in Hg as [? ?]. apply andb_true_iff in Hs as [? Hs].
      split; cbn [fst snd]; [auto|]. intros Ek. rewrite Ek in Hs. auto. }
    destruct (cut_map l Hd Hc []) as [f0 H0].
    exists (S f0). intros [|f] p q r r' Hf E Hq HF He; [lia|]. rewrite wire_map. cbn [pieces] in E.
    destruct p as [|p1 p]; [apply feeds_nil_inv in HF; subst; left; apply eof_decode, He|]. cbn [app] in E; apply cons_inj in E as [-> E].
    apply feeds_inv in HF as (r1 & E1 & HF1). gtag E1.
    destruct p as [|p2 p].
    { apply feeds_nil_inv in HF1; subst. destruct (He 4 ltac:(lia)) as [r2 E2]. unfold readUint32. rewrite E2. left. cbn. eauto. }
    cbn [app] in E; apply cons_inj in E as [-> E]. apply feeds_inv in HF1 as (r2 & E2 & HF2). rewrite be_bytes_length in E2.
    rewrite (ru32 _ _ _ E2), uwrap_id by (unfold in_u; lia). cbn [dbind].
    destruct (H0 f p q r2 r' ltac:(lia) E Hq HF2 He) as [(d & r3 & ->)|[-> ->]]; [left; eauto|right; auto].
  - discriminate.
Qed.
End Feeds.

(* --- instances --- *)
Lemma pieces_nonempty v : Forall (fun p => p <> []) (pieces v).
Proof.
  assert (Hbe : forall n z, be_bytes (S n) z <> []) by (intros; discriminate).
  assert (Hu : forall n, Forall (fun p => p <> []) (pieces_uint n)).
  { intros. unfold pieces_uint. repeat destruct (_ <? _); repeat constructor; discriminate. }
  induction v as [|t b|t b|t b|t k n|t k z|t s|k l IH|i l IH|h i] using gval_rect'; cbn [pieces].
  - repeat constructor; discriminate.
  - repeat constructor; discriminate.
  - constructor; [discriminate|apply Hu].
  - constructor; [discriminate|apply Hu].
  - apply Hu.
  - unfold pieces_int. repeat destruct (_ && _); repeat constructor; discriminate.
  - unfold pieces_str. destruct s; repeat constructor; discriminate.
  - do 2 (constructor; [discriminate|]). apply Forall_flat_map. exact IH.
  - do 2 (constructor; [discriminate|]). apply Forall_flat_map.
    eapply Forall_impl; [|exact IH]. intros [k x] [Hk Hx]. cbn [fst snd] in *. apply Forall_app. split; [exact Hk|].
    destruct (key_eqb k k); [exact Hx|]. repeat constructor. discriminate.
  - constructor.
Qed.

Lemma buf_feeds ps rest : Forall (fun p => p <> []) ps -> feeds buf_rd ps (concat ps ++ rest) rest.
Proof.
  induction 1 as [|p ps Hp Hps IH]; cbn [concat app]; [constructor|].
  rewrite <- app_assoc. econstructor; [|exact IH]. apply buf_rd_app; [|reflexivity].
  destruct p; [congruence|cbn; lia].
Qed.

Lemma buf_eof : eof buf_rd [].
Proof. intros n Hn. exists []. reflexivity. Qed.

Lemma chunk_rd_piece p t cs : p <> [] ->
  chunk_rd (Z.of_nat (length p)) ((p ++ t) :: cs) = (Some p, match t with [] => cs | _ => t :: cs end).
Proof.
  intros Hp. destruct p as [|x p]; [congruence|].
  cbn [chunk_rd app]. change (x :: p ++ t) with ((x :: p) ++ t).
  replace (Z.to_nat (Z.min (Z.of_nat (length (x :: p))) (Z.of_nat (length ((x :: p) ++ t)))))
    with (length (x :: p)) by (rewrite app_length; lia).
  rewrite firstn_app, Nat.sub_diag, firstn_all. cbn [firstn]. rewrite app_nil_r.
  rewrite skipn_app, Nat.sub_diag, skipn_all. destruct t; reflexivity.
Qed.

Lemma chunk_feeds1 ps cs : ps <> [] -> Forall (fun p => p <> []) ps -> feeds chunk_rd ps (concat ps :: cs) cs.
Proof.
  intros Hne H. induction H as [|p ps Hp Hps IH]; [congruence|]. cbn [concat].
  destruct ps as [|p2 ps].
  - econstructor; [|constructor]. rewrite chunk_rd_piece by exact Hp. reflexivity.
  - econstructor; [|apply IH; discriminate]. rewrite chunk_rd_piece by exact Hp.
    destruct (concat (p2 :: ps)) eqn:E; [|reflexivity].
    inversion Hps; subst. cbn in E. apply app_eq_nil in E as [E _]. congruence.
Qed.

Lemma chunk_feeds groups cs :
  Forall (fun g => g <> []) groups -> Forall (fun p => p <> []) (concat groups) ->
  feeds chunk_rd (concat groups) (map (@concat Z) groups ++ cs) cs.
Proof.
  induction 1 as [|g groups Hg Hgs IH]; cbn [concat map app]; intros H; [constructor|].
  apply Forall_app in H as [H1 H2]. apply feeds_app. eexists. split; [apply chunk_feeds1; assumption|]. auto.
Qed.

Lemma cdecode_any_fuel cs f : decode chunk_rd f cs <> DFuel -> cdecode cs = decode chunk_rd f cs.
Proof.
  intros H. assert (Hc : cdecode cs <> DFuel).
  { pose proof (cdecode_good cs) as G. intros E. rewrite E in G. exact G. }
  destruct (le_lt_dec f (buf_fuel (concat cs))).
  - apply decode_mono; assumption.
  - symmetry. apply decode_mono; [lia|]. exact Hc.
Qed.

Lemma gdec_i8 {R} (rd : Z -> R -> option (list Z) * R) f z r r' : in_s 8 z -> feeds rd [[0xd0]; be_bytes 1 z] r r' ->
  decode rd (S f) r = DOk (VInt 0 I8 z) r'.
Proof.
  intros Hz HF. apply feeds_inv in HF as (r1 & E1 & HF). apply feeds_inv in HF as (r2 & E2 & HF).
  apply feeds_nil_inv in HF; subst. rewrite be_bytes_length in E2. gtag E1.
  rewrite be1 in E2. rewrite (rbyte E2). cbn [dmap dbind]. unfold byte_of.
  rewrite swrap_uwrap by (assumption || lia). reflexivity.
Qed.
Lemma gdec_i16 {R} (rd : Z -> R -> option (list Z) * R) f z r r' : in_s 16 z -> feeds rd [[0xd1]; be_bytes 2 z] r r' ->
  decode rd (S f) r = DOk (VInt 0 I16 z) r'.
Proof.
  intros Hz HF. apply feeds_inv in HF as (r1 & E1 & HF). apply feeds_inv in HF as (r2 & E2 & HF).
  apply feeds_nil_inv in HF; subst. rewrite be_bytes_length in E2. gtag E1.
  erewrite readInt16_val; [|exact E2|apply be_bytes_ok].
  rewrite pad_full by apply be_bytes_length. rewrite be_val_bytes.
  change (256 ^ Z.of_nat 2) with (2 ^ 16). fold (uwrap 16 z). rewrite swrap_uwrap by (assumption || lia). reflexivity.
Qed.
Lemma gdec_i32 {R} (rd : Z -> R -> option (list Z) * R) f z r r' : in_s 32 z -> feeds rd [[0xd2]; be_bytes 4 z] r r' ->
  decode rd (S f) r = DOk (VInt 0 I32 z) r'.
Proof.
  intros Hz HF. apply feeds_inv in HF as (r1 & E1 & HF). apply feeds_inv in HF as (r2 & E2 & HF).
  apply feeds_nil_inv in HF; subst. rewrite be_bytes_length in E2. gtag E1.
  erewrite readInt32_val; [|exact E2|apply be_bytes_ok].
  rewrite pad_full by apply be_bytes_length. rewrite be_val_bytes.
  change (256 ^ Z.of_nat 4) with (2 ^ 32). fold (uwrap 32 z). rewrite swrap_uwrap by (assumption || lia). reflexivity.
Qed.
Lemma gdec_f32 {R} (rd : Z -> R -> option (list Z) * R) f b r r' : in_u 32 b -> feeds rd ([0xca] :: pieces_uint b) r r' ->
  decode rd (S (S f)) r = outc (if b <? 2 ^ 16 then None else if b <? 2 ^ 32 then Some (VF32 0 b) else None) r'.
Proof.
  intros H HF. unfold in_u in H. apply feeds_inv in HF as (r1 & E1 & HF1). gtag E1.
  rewrite (gdec_uint rd f b _ _ ltac:(unfold in_u; lia) HF1). cbn [dbind]. unfold narrow_u.
  destruct (Z.ltb_spec b (2 ^ 8)); [replace (b <? 2 ^ 16) with true by lia; reflexivity|].
  destruct (Z.ltb_spec b (2 ^ 16)); [reflexivity|].
  destruct (Z.ltb_spec b (2 ^ 32)); [reflexivity|lia].
Qed.

Lemma gtop {R} (rd : Z -> R -> option (list Z) * R) ws v : go_value ws v = true -> supported v = true ->
  exists f0, forall f r r', (f0 <= f)%nat -> feeds rd (pieces_top ws v) r r' -> decode rd f r = outc (wire_top ws v) r'.
Proof.
  intros Hg Hs. destruct (gvalue rd ws v Hg Hs) as [f0 H0].
  exists (S (S f0)). intros [|[|f]] r r' Hf HF; [lia|lia|].
  specialize (H0 (S (S f)) r r' ltac:(lia)).
  assert (I32case : forall z, in_s 32 z ->
    feeds rd (if z =? - 2 ^ 31 then [[0xd2]; be_bytes 4 z] else pieces_int z) r r' ->
    decode rd (S (S f)) r = DOk (VInt 0 (if z =? - 2 ^ 31 then I32 else narrow_s z) z) r').
  { intros z Hz. destruct (z =? - 2 ^ 31); [apply gdec_i32; exact Hz|].
    apply gdec_int. apply (in_s_mono 32); [lia|exact Hz]. }
  destruct v as [|t b|t b|t b|t k n|t k z|t s|k l|i l|h i]; try exact (H0 HF).
  - destruct t; [|exact (H0 HF)|exact (H0 HF)]. apply gdec_f32; [apply in_ub_iff; exact Hg|exact HF].
  - destruct t; [|exact (H0 HF)|exact (H0 HF)].
    assert (H : in_s (ibits ws k) z) by (apply in_sb_iff; exact Hg).
    destruct k; cbn [ibits] in H; cbn [pieces_top wire_top outc] in *.
    + apply gdec_i8; assumption.
    + unfold in_s in H. destruct ((- 2 ^ 7 <? z) && (z <? 2 ^ 7)) eqn:E.
      * apply gdec_i8; [unfold in_s; lia|exact HF].
      * apply gdec_i16; assumption.
    + apply I32case; assumption.
    + exact (H0 HF).
    + destruct ws; [apply I32case; assumption|exact (H0 HF)].
Qed.

Lemma cut_two {R} (rd : Z -> R -> option (list Z) * R) f t w z p q r r' o :
  t = 0xd0 /\ w = 1%nat \/ t = 0xd1 /\ w = 2%nat \/ t = 0xd2 /\ w = 4%nat ->
  [[t]; be_bytes w z] = p ++ q -> q <> [] -> feeds rd p r r' -> eof rd r' ->
  failed (B:=gval) o (decode rd (S f) r).
Proof.
  intros Ht E Hq HF He. left.
  destruct p as [|p1 p].
  { apply feeds_nil_inv in HF; subst. apply eof_decode, He. }
  cbn [app] in E; apply cons_inj in E as [-> E].
  assert (p = []) as ->.
  { destruct p as [|? [|? ?]]; [reflexivity|injection E as _ E; subst; congruence|discriminate]. }
  apply feeds_inv in HF as (r1 & E1 & HF1). apply feeds_nil_inv in HF1; subst.
  destruct Ht as [[-> ->]|[[-> ->]|[-> ->]]]; gtag E1.
  - destruct (eof_byte _ _ He) as [r' ->]. cbn. eauto.
  - destruct (He 2 ltac:(lia)) as [r2 E2]. unfold readInt16. rewrite E2. cbn. eauto.
  - destruct (He 4 ltac:(lia)) as [r2 E2]. unfold readInt32. rewrite E2. cbn. eauto.
Qed.

Lemma cut_f32 {R} (rd : Z -> R -> option (list Z) * R) f n p q r r' o :
  [0xca] :: pieces_uint n = p ++ q -> q <> [] -> feeds rd p r r' -> eof rd r' ->
  failed (B:=gval) o (decode rd (S (S f)) r).
Proof.
  intros E Hq HF He.
  destruct p as [|p1 p].
  { apply feeds_nil_inv in HF; subst. left. apply eof_decode, He. }
  cbn [app] in E; apply cons_inj in E as [-> E]. apply feeds_inv in HF as (r1 & E1 & HF1). gtag E1.
  destruct (cut_uint rd f _ _ _ _ _ (None : option gval) E Hq HF1 He) as [(d & r2 & Ed)|[Ed _]]; rewrite Ed; cbn.
  - left. eauto.
  - exfalso. destruct (cut_uint rd f _ _ _ _ _ (Some VNil) E Hq HF1 He) as [(d & r2 & Ed')|[_ E']]; congruence.
Qed.

Lemma cut_top {R} (rd : Z -> R -> option (list Z) * R) ws v : go_value ws v = true -> supported v = true ->
  exists f0, forall f p q r r', (f0 <= f)%nat -> pieces_top ws v = p ++ q -> q <> [] -> feeds rd p r r' -> eof rd r' ->
    failed (wire_top ws v) (decode rd f r).
Proof.
  intros Hg Hs. destruct (cut_value rd ws v Hg Hs) as [f0 H0].
  exists (S (S f0)). intros [|[|f]] p q r r' Hf E Hq HF He; [lia|lia|].
  specialize (H0 (S (S f)) p q r r' ltac:(lia)).
  assert (I32case : forall z o, (if z =? - 2 ^ 31 then [[0xd2]; be_bytes 4 z] else pieces_int z) = p ++ q ->
     failed (B:=gval) o (decode rd (S (S f)) r)).
  { intros z o Ez. destruct (z =? - 2 ^ 31).
    - eapply (cut_two rd _ 0xd2 4); eauto.
    - eapply cut_int; eauto. }
  destruct v as [|t b|t b|t b|t k n|t k z|t s|k l|i l|h i]; try exact (H0 E Hq HF He).
  - destruct t; [|exact (H0 E Hq HF He)|exact (H0 E Hq HF He)]. eapply cut_f32; eauto.
  - destruct t; [|exact (H0 E Hq HF He)|exact (H0 E Hq HF He)].
    destruct k; cbn [pieces_top] in E.
    + eapply (cut_two rd _ 0xd0 1); eauto.
    + destruct ((- 2 ^ 7 <? z) && (z <? 2 ^ 7)) eqn:E'.
      * eapply (cut_two rd _ 0xd0 1); eauto.
      * eapply (cut_two rd _ 0xd1 2); eauto 8.
    + eapply I32case; eauto.
    + exact (H0 E Hq HF He).
    + destruct ws; [eapply I32case; eauto|eapply cut_int; eauto].
Qed.

Lemma concat_pieces_top ws v : concat (pieces_top ws v) = fmt_top_ws ws v.
Proof.
  assert (H1 : forall t w z, concat [[t]; be_bytes w z] = t :: be_bytes w z) by (intros; cbn; rewrite app_nil_r; reflexivity).
  assert (H2 : forall z, concat (if z =? - 2 ^ 31 then [[0xd2]; be_bytes 4 z] else pieces_int z)
                 = if z =? - 2 ^ 31 then 0xd2 :: be_bytes 4 z else fmt_int z).
  { intros z. destruct (z =? _); [apply H1|apply concat_pieces_int]. }
  pose proof (concat_pieces v) as H.
  destruct v as [|t b|t b|t b|t k n|t k z|t s|k l|i l|h i]; try (destruct ws; exact H).
  - destruct t; try (destruct ws; exact H). cbn [pieces_top concat app]. rewrite concat_pieces_uint. destruct ws; reflexivity.
  - destruct t; try (destruct ws; exact H). destruct k; try (destruct ws; exact H).
    + destruct ws; apply H1.
    + cbn [pieces_top]. unfold fmt_top_ws, fmt_top. destruct ((- 2 ^ 7 <? z) && (z <? 2 ^ 7)); rewrite H1; destruct ws; reflexivity.
    + destruct ws; apply H2.
    + destruct ws; [apply H2|exact H].
Qed.

Lemma pieces_top_nonempty ws v : Forall (fun p => p <> []) (pieces_top ws v).
Proof.
  pose proof (pieces_nonempty v) as H.
  assert (H2 : forall t w z, Forall (fun p => p <> []) [[t]; be_bytes (S w) z]) by (intros; repeat constructor; discriminate).
  assert (Hu : forall n, Forall (fun p => p <> []) (pieces_uint n)).
  { intros. unfold pieces_uint. repeat destruct (_ <? _); repeat constructor; discriminate. }
  assert (Hi : forall z, Forall (fun p => p <> []) (pieces_int z)).
  { intros. unfold pieces_int. repeat destruct (_ && _); repeat constructor; discriminate. }
  destruct v as [|t b|t b|t b|t k n|t k z|t s|k l|i l|h i]; try exact H.
  - destruct t; try exact H. constructor; [discriminate|apply Hu].
  - destruct t; try exact H. destruct k; try exact H; cbn [pieces_top].
    + apply H2.
    + destruct (_ && _); apply H2.
    + destruct (_ =? _); [apply H2|apply Hi].
    + destruct ws; [|apply Hi]. destruct (_ =? _); [apply H2|apply Hi].
Qed.

(* any split at piece boundaries decodes as the undivided buffer does *)
Lemma chunks_ok ws v groups rest : go_value ws v = true -> supported v = true ->
  concat groups = pieces_top ws v -> Forall (fun g => g <> []) groups ->
  cdecode (map (@concat Z) groups ++ rest) = outc (wire_top ws v) rest.
Proof.
  intros Hg Hs Hp Hne. destruct (gtop chunk_rd ws v Hg Hs) as [f0 H].
  assert (HF : feeds chunk_rd (pieces_top ws v) (map (@concat Z) groups ++ rest) rest).
  { rewrite <- Hp. apply chunk_feeds; [exact Hne|]. rewrite Hp. apply pieces_top_nonempty. }
  specialize (H f0 _ _ (le_n _) HF). rewrite <- H. apply cdecode_any_fuel.
  rewrite H. destruct (wire_top ws v); discriminate.
Qed.

(* the input ends at a piece boundary inside the encoding *)
Lemma cut_ok ws v p q : go_value ws v = true -> supported v = true ->
  pieces_top ws v = p ++ q -> q <> [] -> failed (wire_top ws v) (bdecode (concat p)).
Proof.
  intros Hg Hs E Hq. destruct (cut_top buf_rd ws v Hg Hs) as [f0 H].
  assert (HF : feeds buf_rd p (concat p) []).
  { rewrite <- (app_nil_r (concat p)). apply buf_feeds.
    pose proof (pieces_top_nonempty ws v) as Hn. rewrite E in Hn. apply Forall_app in Hn. apply Hn. }
  specialize (H f0 p q _ _ (le_n _) E Hq HF buf_eof).
  rewrite (bdecode_any_fuel _ f0); [exact H|].
  destruct H as [(d & r & ->)|[-> _]]; discriminate.
Qed.

(* --- cuts inside a field --- *)
Lemma pad_short n d : (length d <= n)%nat -> pad n d = d ++ repeat 0 (n - length d).
Proof.
  intros Hl. apply nth_ext with 0 0.
  - rewrite pad_length, app_length, repeat_length. lia.
  - rewrite pad_length. intros i Hi. unfold pad.
    rewrite nth_indep with (d' := at_ d 0%nat) by (rewrite map_length, seq_length; lia).
    rewrite map_nth, seq_nth by lia. unfold at_. cbn [Nat.add].
    destruct (Nat.lt_ge_cases i (length d)).
    + rewrite app_nth1 by assumption. reflexivity.
    + rewrite app_nth2 by assumption. rewrite nth_overflow by assumption.
      rewrite nth_repeat. reflexivity.
Qed.
Lemma be_val_app a b : be_val (a ++ b) = be_val a * 256 ^ Z.of_nat (length b) + be_val b.
Proof.
  induction a as [|x a IH]; cbn [app be_val]; [reflexivity|].
  rewrite IH, app_length, Nat2Z.inj_add, Z.pow_add_r by lia. ring.
Qed.
Lemma be_val_zeros n : be_val (repeat 0 n) = 0.
Proof. induction n; cbn; [reflexivity|]. rewrite IHn. reflexivity. Qed.

Lemma be_val_cut bs c : bytes_ok bs -> (c <= length bs)%nat ->
  be_val (pad (length bs) (firstn c bs)) = be_val bs - be_val bs mod 256 ^ Z.of_nat (length bs - c).
Proof.
  intros Hb Hc. rewrite pad_short by (rewrite firstn_length; lia).
  rewrite firstn_length_le by exact Hc.
  rewrite <- (firstn_skipn c bs) in Hb. apply bytes_ok_app in Hb as [_ Ht].
  assert (E : be_val bs = be_val (firstn c bs) * 256 ^ Z.of_nat (length bs - c) + be_val (skipn c bs)).
  { rewrite <- (firstn_skipn c bs) at 1. rewrite be_val_app, skipn_length. reflexivity. }
  rewrite E, be_val_app, be_val_zeros, repeat_length.
  pose proof (be_val_range _ Ht) as Hr. rewrite skipn_length in Hr.
  rewrite (Z.add_comm _ (be_val (skipn c bs))), Z.mod_add by lia. rewrite Z.mod_small by exact Hr. lia.
Qed.

Lemma swrap_cut w z j : (0 < j)%nat -> (j < w)%nat -> in_s (8 * Z.of_nat w) z ->
  swrap (8 * Z.of_nat w) (z mod 256 ^ Z.of_nat w - (z mod 256 ^ Z.of_nat w) mod 256 ^ Z.of_nat j) =
  z - z mod 256 ^ Z.of_nat j.
Proof.
  intros Hj Hw Hz.
  assert (HW : 2 ^ (8 * Z.of_nat w) = 256 ^ Z.of_nat w) by (rewrite Z.pow_mul_r by lia; reflexivity).
  set (W := 256 ^ Z.of_nat w) in *. set (J := 256 ^ Z.of_nat j).
  assert (HWJ : W = J * (256 ^ Z.of_nat (w - j))) by (unfold W, J; rewrite <- Z.pow_add_r by lia; f_equal; lia).
  set (K := 256 ^ Z.of_nat (w - j)) in *.
  assert (HJ : 0 < J) by (apply Z.pow_pos_nonneg; lia).
  assert (HK : exists K2, K = 256 * K2 /\ 0 < K2).
  { exists (256 ^ Z.of_nat (w - j - 1)). split; [|apply Z.pow_pos_nonneg; lia].
    unfold K. rewrite <- Z.pow_succ_r by lia. f_equal. lia. }
  destruct HK as (K2 & HK & HK2).
  assert (Hhalf : 2 ^ (8 * Z.of_nat w - 1) = J * 128 * K2).
  { assert (2 * 2 ^ (8 * Z.of_nat w - 1) = W); [|rewrite HWJ, HK in *; nia].
    rewrite <- HW, <- Z.pow_succ_r by lia. f_equal. lia. }
  unfold swrap, in_s in *. rewrite HW, Hhalf in *.
  assert (E1 : (z mod W) mod J = z mod J).
  { rewrite HWJ, Z.rem_mul_r by nia. rewrite (Z.mul_comm J), Z.mod_add by lia. apply Z.mod_mod. lia. }
  rewrite E1.
  assert (E2 : (z mod W - z mod J + J * 128 * K2) mod W = (z - z mod J + J * 128 * K2) mod W).
  { rewrite <- Z.add_sub_swap, Zminus_mod, Zplus_mod_idemp_l, <- Zminus_mod. f_equal. lia. }
  rewrite E2.
  assert (Hq1 : - (128 * K2) <= z / J) by (apply Z.div_le_lower_bound; [lia|]; replace (J * - (128 * K2)) with (- (J * 128 * K2)) by ring; lia).
  assert (Hq2 : z / J < 128 * K2) by (apply Z.div_lt_upper_bound; [lia|]; replace (J * (128 * K2)) with (J * 128 * K2) by ring; lia).
  assert (Hm : z - z mod J = J * (z / J)) by (rewrite Z.mod_eq by lia; ring). rewrite Hm.
  rewrite Z.mod_small; [lia|].
  replace (J * (z / J) + J * 128 * K2) with (J * (z / J + 128 * K2)) by ring. rewrite HWJ, HK.
  split; [apply Z.mul_nonneg_nonneg; lia|]. apply Z.mul_lt_mono_pos_l; lia.
Qed.

Lemma buf_rd_short n bs : bs <> [] -> Z.of_nat (length bs) <= n -> buf_rd n bs = (Some bs, []).
Proof.
  intros Hne Hn. unfold buf_rd. destruct bs as [|x bs]; [congruence|].
  replace (Z.to_nat (Z.min n (Z.of_nat (length (x :: bs))))) with (length (x :: bs)) by lia.
  rewrite firstn_all, skipn_all. reflexivity.
Qed.

Lemma firstn_ne {A} c (l : list A) : (0 < c)%nat -> (c <= length l)%nat -> firstn c l <> [].
Proof. destruct c; [lia|]. destruct l; cbn; [lia|discriminate]. Qed.

(* width in bytes of the payload of an integer code *)

Lemma bytes_firstn c bs : bytes_ok bs -> bytes_ok (firstn c bs).
Proof. intros H. rewrite <- (firstn_skipn c bs) in H. apply bytes_ok_app in H. apply H. Qed.

Lemma one_fuel b v r : decode buf_rd 1 b = DOk v r -> bdecode b = DOk v r.
Proof. intros E. rewrite (bdecode_any_fuel _ 1); rewrite E; [reflexivity|discriminate]. Qed.

Lemma cut_read w z c : (0 < c <= w)%nat ->
  buf_rd (Z.of_nat w) (firstn c (be_bytes w z)) = (Some (firstn c (be_bytes w z)), []).
Proof.
  intros Hc. apply buf_rd_short; [apply firstn_ne; [lia|rewrite be_bytes_length; lia]|
          rewrite firstn_length, be_bytes_length; lia].
Qed.
Lemma cut_be w z c : (c <= w)%nat ->
  be_val (pad w (firstn c (be_bytes w z))) = z mod 256 ^ Z.of_nat w - (z mod 256 ^ Z.of_nat w) mod 256 ^ Z.of_nat (w - c).
Proof.
  intros Hw. pose proof (be_val_cut (be_bytes w z) c (be_bytes_ok _ _) ltac:(rewrite be_bytes_length; lia)) as Hv.
  rewrite be_bytes_length, be_val_bytes in Hv. exact Hv.
Qed.

Lemma cut_uint_value n c : in_u 64 n -> (0 < c < uwidth (narrow_u n))%nat ->
  bdecode (firstn (S c) (fmt_uint n)) =
  DOk (VUint 0 (narrow_u n) (n - n mod 256 ^ Z.of_nat (uwidth (narrow_u n) - c))) [].
Proof.
  intros Hn Hc. apply one_fuel. revert Hc. unfold in_u in Hn. unfold narrow_u, fmt_uint.
  destruct (Z.ltb_spec n (2 ^ 8)); [cbn [uwidth]; lia|].
  destruct (Z.ltb_spec n (2 ^ 16)); [|destruct (Z.ltb_spec n (2 ^ 32))];
  cbn [uwidth]; intros Hc; cbn [firstn]; tag.
  - rewrite (readUint16_val _ _ _ _ (cut_read 2 n c ltac:(lia))) by (apply bytes_firstn, be_bytes_ok).
    rewrite cut_be, (Z.mod_small n (256 ^ Z.of_nat 2)) by lia. reflexivity.
  - rewrite (readUint32_val _ _ _ _ (cut_read 4 n c ltac:(lia))) by (apply bytes_firstn, be_bytes_ok).
    rewrite cut_be, (Z.mod_small n (256 ^ Z.of_nat 4)) by lia. reflexivity.
  - rewrite (readUint64_val _ _ _ _ (cut_read 8 n c ltac:(lia))) by (apply bytes_firstn, be_bytes_ok).
    rewrite cut_be, (Z.mod_small n (256 ^ Z.of_nat 8)) by lia. reflexivity.
Qed.

Lemma cut_int_value z c : in_s 64 z -> (0 < c < iwidth (narrow_s z))%nat ->
  bdecode (firstn (S c) (fmt_int z)) =
  DOk (VInt 0 (narrow_s z) (z - z mod 256 ^ Z.of_nat (iwidth (narrow_s z) - c))) [].
Proof.
  intros Hz Hc. apply one_fuel. revert Hc. unfold in_s in Hz. unfold narrow_s, fmt_int.
  destruct ((- 2 ^ 7 <? z) && (z <? 2 ^ 7)) eqn:E1; [cbn [iwidth]; lia|].
  destruct ((- 2 ^ 15 <? z) && (z <? 2 ^ 15)) eqn:E2; [|destruct ((- 2 ^ 31 <? z) && (z <? 2 ^ 31)) eqn:E3];
  cbn [iwidth]; intros Hc; cbn [firstn]; tag.
  - rewrite (readInt16_val _ _ _ _ (cut_read 2 z c ltac:(lia))) by (apply bytes_firstn, be_bytes_ok).
    rewrite cut_be by lia. change 16 with (8 * Z.of_nat 2).
    rewrite (swrap_cut 2 z (2 - c)) by (unfold in_s; lia). reflexivity.
  - rewrite (readInt32_val _ _ _ _ (cut_read 4 z c ltac:(lia))) by (apply bytes_firstn, be_bytes_ok).
    rewrite cut_be by lia. change 32 with (8 * Z.of_nat 4).
    rewrite (swrap_cut 4 z (4 - c)) by (unfold in_s; lia). reflexivity.
  - rewrite (readInt64_val _ _ _ _ (cut_read 8 z c ltac:(lia))) by (apply bytes_firstn, be_bytes_ok).
    rewrite cut_be by lia. change 64 with (8 * Z.of_nat 8).
    rewrite (swrap_cut 8 z (8 - c)) by (unfold in_s; lia). reflexivity.
Qed.

Lemma cut_str_value s c : small_len s = true -> (0 < c <= length s)%nat ->
  bdecode (firstn (5 + c) (fmt_len 0xdb (length s) ++ s)) =
  DOk (VStr 0 (firstn c s ++ repeat 0 (length s - c))) [].
Proof.
  intros Hl Hc. unfold small_len in Hl. apply one_fuel.
  assert (E : firstn (5 + c) (fmt_len 0xdb (length s) ++ s) = fmt_len 0xdb (length s) ++ firstn c s).
  { change 5%nat with (length (fmt_len 0xdb (length s))). rewrite firstn_app_2. reflexivity. }
  rewrite E. unfold fmt_len. tag. rewrite readU32_be, uwrap_id by (unfold in_u; lia). cbn [dbind].
  replace (Z.of_nat (length s) =? 0) with false by lia.
  rewrite buf_rd_short; [|apply firstn_ne; lia|rewrite firstn_length; lia].
  rewrite firstn_length_le by lia. do 3 f_equal. f_equal. lia.
Qed.
