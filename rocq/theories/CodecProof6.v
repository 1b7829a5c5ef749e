(* Lemmas about the codec model: what crosses the wire, stability, universe. *)
From Verif Require Import GoInt GoFloat GoVal CodecModel CodecSpec CodecProof CodecProof2 CodecProof3 CodecProof4.
From Coq Require Import ZifyBool ZifyNat.
Ltac Zify.zify_post_hook ::= idtac.

Lemma widen_nan b : in_u 32 b -> f64_is_nan (f32_widen b) = f32_is_nan b.
Proof.
  intros Hb. destruct (f32_widen_shape b Hb) as (e & m & -> & He & Hm & Hc).
  destruct (f32_decompose b Hb) as (_ & Hs & Hxe & Hxm).
  destruct (f64_fields (f32_sign b) e m He Hm) as (_ & Ee & Em).
  unfold f64_is_nan, f32_is_nan. rewrite Ee, Em.
  destruct Hc as [(H1 & H2 & H3 & H4)|[(H1 & H2 & H3 & H4)|[(H1 & H2 & H3 & H4)|[(H1 & H2 & H3 & H4)|(H1 & H2 & H3)]]]].
  - lia.
  - destruct (Z.ltb_spec (f32_man b) (2 ^ 22)); lia.
  - lia.
  - assert (Z.log2 (f32_man b) < 23) by (apply Z.log2_lt_pow2; lia). lia.
  - lia.
Qed.

Lemma f64_eqb_self b : f64_eqb b b = negb (f64_is_nan b).
Proof. unfold f64_eqb. rewrite Z.eqb_refl. destruct (f64_is_nan b); reflexivity. Qed.
Lemma f32_eqb_self b : f32_eqb b b = negb (f32_is_nan b).
Proof. unfold f32_eqb. rewrite Z.eqb_refl. destruct (f32_is_nan b); reflexivity. Qed.

Definition scalar (v : gval) : bool :=
  match v with VArr _ _ | VMap _ _ | VOther _ _ => false | _ => true end.

Lemma wire_scalar_key ws k k' : go_value ws k = true -> scalar k = true -> key_eqb k k = true ->
  wire k = Some k' -> hashable k' = true /\ key_eqb k' k' = true.
Proof.
  destruct k; cbn [scalar wire key_eqb]; intros Hg Hsc Hk Hw; try discriminate.
  - injection Hw as <-. auto.
  - injection Hw as <-. cbn. split; [reflexivity|]. apply Bool.eqb_reflx.
  - destruct (_ <? _); [discriminate|]. injection Hw as <-. cbn. split; [reflexivity|].
    apply andb_true_iff in Hk as [_ Hk]. rewrite f32_eqb_self in Hk.
    rewrite f64_eqb_self, widen_nan; [exact Hk|]. apply in_ub_iff. exact Hg.
  - destruct (_ <? _); [discriminate|]. injection Hw as <-. cbn. split; [reflexivity|].
    apply andb_true_iff in Hk as [_ Hk]. exact Hk.
  - injection Hw as <-. cbn. split; [reflexivity|]. rewrite Z.eqb_refl. destruct (narrow_u n); reflexivity.
  - injection Hw as <-. cbn. split; [reflexivity|]. rewrite Z.eqb_refl. destruct (narrow_s z); reflexivity.
  - injection Hw as <-. cbn. split; [reflexivity|]. apply zlist_eqb_eq. reflexivity.
Qed.

Lemma map_put_new m k v : forallb (fun kv => negb (key_eqb (fst kv) k)) m = true -> map_put m k v = m ++ [(k, v)].
Proof.
  induction m as [|[k' v'] m IH]; cbn; intros H; [reflexivity|].
  apply andb_true_iff in H as [H1 H2]. destruct (key_eqb k' k); [discriminate|]. rewrite IH by exact H2. reflexivity.
Qed.

(* entries whose keys and values cross the wire, keys staying distinct, are all kept in order *)
Lemma wire_entries_distinct l : forall m es,
  opt_map wire (map fst l) = Some (map fst es) ->
  opt_map wire (map snd l) = Some (map snd es) ->
  Forall (fun kv => key_eqb (fst kv) (fst kv) = true) l ->
  Forall (fun kv => hashable (fst kv) = true) es ->
  distinct_keys (map fst (m ++ es)) = true ->
  wire_entries l m = Some (m ++ es).
Proof.
  induction l as [|[k x] l IH]; intros m es Hk Hx Hself Hh Hd; cbn [map fst snd opt_map] in Hk, Hx.
  - injection Hk as Hk. destruct es; [|discriminate]. rewrite app_nil_r. reflexivity.
  - fold (opt_map wire (map fst l)) in Hk. fold (opt_map wire (map snd l)) in Hx.
    destruct (wire k) as [k1|] eqn:Ek; [|discriminate]. destruct (opt_map wire (map fst l)) eqn:Ekl; [|discriminate].
    destruct (wire x) as [x1|] eqn:Ex; [|discriminate]. destruct (opt_map wire (map snd l)) eqn:Exl; [|discriminate].
    destruct es as [|[k2 x2] es]; [discriminate|]. cbn [map fst snd] in Hk, Hx.
    injection Hk as -> ->. injection Hx as -> ->.
    inversion Hself as [|? ? Hs1 Hs2]; subst. inversion Hh as [|? ? Hh1 Hh2]; subst. cbn [fst] in *.
    cbn [wire_entries]. rewrite Ek, Hs1, Ex, Hh1.
    rewrite map_put_new.
    + rewrite (IH (m ++ [(k2, x2)]) es); [rewrite <- app_assoc; reflexivity|reflexivity|reflexivity|assumption|assumption|].
      rewrite <- app_assoc. exact Hd.
    + clear - Hd. induction m as [|[k' x'] m IHm]; [reflexivity|]. cbn [app map fst distinct_keys] in Hd.
      apply andb_true_iff in Hd as [H1 H2]. cbn [forallb fst]. rewrite IHm by exact H2.
      rewrite forallb_forall in H1. rewrite (H1 k2); [reflexivity|].
      rewrite map_app. apply in_or_app. right. left. reflexivity.
Qed.

Lemma narrow_u_range n : in_u 64 n -> in_u (ubits W64 (narrow_u n)) n.
Proof.
  unfold in_u, narrow_u. intros H.
  destruct (Z.ltb_spec n (2 ^ 8)); [cbn [ubits]; lia|]. destruct (Z.ltb_spec n (2 ^ 16)); [cbn [ubits]; lia|].
  destruct (Z.ltb_spec n (2 ^ 32)); cbn [ubits]; lia.
Qed.
Lemma narrow_s_range n : in_s 64 n -> in_s (ibits W64 (narrow_s n)) n.
Proof.
  unfold in_s, narrow_s. intros H.
  destruct ((- 2 ^ 7 <? n) && (n <? 2 ^ 7)) eqn:E1; [cbn [ibits]; lia|].
  destruct ((- 2 ^ 15 <? n) && (n <? 2 ^ 15)) eqn:E2; [cbn [ibits]; lia|].
  destruct ((- 2 ^ 31 <? n) && (n <? 2 ^ 31)) eqn:E3; cbn [ibits]; lia.
Qed.
Lemma narrow_u_ws n : forall ws, ubits ws (narrow_u n) = ubits W64 (narrow_u n).
Proof. intros ws. unfold narrow_u. repeat destruct (_ <? _); reflexivity. Qed.
Lemma narrow_s_ws n : forall ws, ibits ws (narrow_s n) = ibits W64 (narrow_s n).
Proof. intros ws. unfold narrow_s. repeat destruct (_ && _); reflexivity. Qed.

(* everything [safe] promises about crossing the wire *)
Definition crosses (ws : wsize) (v : gval) : Prop :=
  exists v', wire v = Some v' /\ same_value v v' /\ fmt v' = fmt v /\ go_value ws v' = true /\ supported v' = true /\
             wire_universe v' = true.

Lemma same_len_small {A B} (l : list A) (l' : list B) : length l' = length l -> small_len l' = small_len l.
Proof. unfold small_len. intros ->. reflexivity. Qed.

Lemma crosses_list ws l : Forall (crosses ws) l ->
  exists l', opt_map wire l = Some l' /\ Forall2 same_value l l' /\ flat_map fmt l' = flat_map fmt l /\
    length l' = length l /\ forallb (go_value ws) l' = true /\ forallb supported l' = true /\
    forallb wire_universe l' = true.
Proof.
  induction 1 as [|v l (v' & Hw & Hsv & Hf & Hg & Hs & Hu) Hl (l' & Hw2 & Hsv2 & Hf2 & Hl2 & Hg2 & Hs2 & Hu2)].
  - exists []. repeat split; constructor.
  - exists (v' :: l'). cbn [opt_map]. fold (opt_map wire l). rewrite Hw, Hw2. repeat split.
    + constructor; assumption.
    + cbn [flat_map]. rewrite Hf, Hf2. reflexivity.
    + cbn [length]. lia.
    + cbn [forallb]. rewrite Hg, Hg2. reflexivity.
    + cbn [forallb]. rewrite Hs, Hs2. reflexivity.
    + cbn [forallb]. rewrite Hu, Hu2. reflexivity.
Qed.

Definition key_shape (v : gval) : bool :=
  match v with VArr _ _ | VMap _ _ | VOther _ _ => false | _ => true end.

Lemma crosses_entries ws l :
  Forall (fun kv => crosses ws (fst kv) /\ crosses ws (snd kv)) l ->
  Forall (fun kv => key_eqb (fst kv) (fst kv) = true) l ->
  Forall (fun kv => scalar (fst kv) = true) l ->
  Forall (fun kv => go_value ws (fst kv) = true) l ->
  exists es, opt_map wire (map fst l) = Some (map fst es) /\ opt_map wire (map snd l) = Some (map snd es) /\
    Forall2 (fun a b => same_value (fst a) (fst b) /\ same_value (snd a) (snd b)) l es /\
    flat_map fmt_entry es = flat_map fmt_entry l /\ length es = length l /\
    Forall (fun kv => hashable (fst kv) = true) es /\
    forallb (fun kv => go_value ws (fst kv) && go_value ws (snd kv)) es = true /\
    forallb (fun kv => supported (fst kv) && (negb (key_eqb (fst kv) (fst kv)) || supported (snd kv))) es = true /\
    forallb (fun kv => hashable (fst kv) && wire_universe (fst kv) && wire_universe (snd kv)) es = true.
Proof.
  induction 1 as [|[k x] l [(k' & Hkw & Hksv & Hkf & Hkg & Hks & Hku) (x' & Hxw & Hxsv & Hxf & Hxg & Hxs & Hxu)] Hl IH]; intros H1 H2 H3.
  - exists []. repeat split; constructor.
  - cbn [fst snd] in *. inversion H1 as [|? ? Hk1 H1']; subst. inversion H2 as [|? ? Hk2 H2']; subst.
    inversion H3 as [|? ? Hk3 H3']; subst. cbn [fst] in *.
    destruct (IH H1' H2' H3') as (es & E1 & E2 & E3 & E4 & E5 & E6 & E7 & E8 & E9).
    destruct (wire_scalar_key ws k k' Hk3 Hk2 Hk1 Hkw) as [Hh Hself].
    exists ((k', x') :: es). cbn [map opt_map fst snd].
    fold (opt_map wire (map fst l)). fold (opt_map wire (map snd l)). rewrite Hkw, E1, Hxw, E2.
    repeat split.
    + constructor; [split; assumption|assumption].
    + cbn [flat_map]. unfold fmt_entry at 1 3. cbn [fst snd]. rewrite Hself, Hk1, Hkf, Hxf, E4. reflexivity.
    + cbn [length]. lia.
    + constructor; assumption.
    + cbn [forallb fst snd]. rewrite Hkg, Hxg, E7. reflexivity.
    + cbn [forallb fst snd]. rewrite Hks, Hxs, E8, orb_true_r. reflexivity.
    + cbn [forallb fst snd]. rewrite Hh, Hku, Hxu, E9. reflexivity.
Qed.

Lemma safe_crosses ws v : go_value ws v = true -> safe v = true -> crosses ws v.
Proof.
  induction v as [|t b|t b|t b|t k n|t k z|t s|k l IH|i l IH|h i] using gval_rect';
    intros Hg Hs; cbn [go_value safe float_ok] in Hg, Hs; unfold crosses.
  - exists VNil. repeat split; constructor.
  - exists (VBool 0 b). repeat split; constructor.
  - exists (VF64 0 (f32_widen b)). cbn [wire]. replace (f32_widen b <? 2 ^ 32) with false by lia.
    assert (in_u 64 (f32_widen b)) by (apply f32_widen_range, in_ub_iff; exact Hg).
    repeat split; try constructor; cbn; apply in_ub_iff; assumption.
  - exists (VF64 0 b). cbn [wire]. replace (b <? 2 ^ 32) with false by lia.
    repeat split; try constructor; cbn; assumption.
  - apply in_ub_iff in Hg. apply (ubits_range ws k) in Hg.
    exists (VUint 0 (narrow_u n) n). pose proof (narrow_u_range n Hg). repeat split.
    + constructor. assumption.
    + cbn [go_value]. rewrite narrow_u_ws. apply in_ub_iff. assumption.
    + cbn [wire_universe]. apply in_ub_iff in H. unfold narrow_u in *. repeat destruct (_ <? _); exact H.
  - apply in_sb_iff in Hg. apply (ibits_range ws k) in Hg.
    exists (VInt 0 (narrow_s z) z). pose proof (narrow_s_range z Hg). repeat split.
    + constructor. assumption.
    + cbn [go_value]. rewrite narrow_s_ws. apply in_sb_iff. assumption.
    + cbn [wire_universe]. rewrite Z.eqb_refl. cbn [andb]. apply in_sb_iff in H. unfold narrow_s in *.
      destruct ((- 2 ^ 7 <? z) && (z <? 2 ^ 7)); [exact H|].
      destruct ((- 2 ^ 15 <? z) && (z <? 2 ^ 15)); [exact H|].
      destruct ((- 2 ^ 31 <? z) && (z <? 2 ^ 31)); exact H.
  - apply andb_true_iff in Hg as [Hg1 Hg2]. exists (VStr 0 s). repeat split; try constructor; cbn; rewrite ?Hg1, ?Hg2; reflexivity.
  - apply andb_true_iff in Hg as [Hg1 Hg2].
    destruct (crosses_list ws l) as (l' & E1 & E2 & E3 & E4 & E5 & E6 & E7).
    { rewrite Forall_forall in *. rewrite forallb_forall in Hg1, Hs. auto. }
    exists (VArr ASliceIface l'). cbn [wire]. rewrite E1. repeat split.
    + constructor. exact E2.
    + cbn [fmt]. rewrite E3, E4. reflexivity.
    + cbn [go_value]. rewrite E5, (same_len_small l l' E4), Hg2. reflexivity.
    + exact E6.
    + exact E7.
  - apply andb_true_iff in Hg as [Hg1 Hg2]. apply andb_true_iff in Hs as [Hs Hd]. apply andb_true_iff in Hs as [Hs1 Hs2].
    rewrite forallb_forall in Hg1, Hs1, Hs2. rewrite Forall_forall in IH.
    destruct (crosses_entries ws l) as (es & E1 & E2 & E3 & E4 & E5 & E6 & E7 & E8 & E9).
    + apply Forall_forall. intros kv Hin. specialize (Hg1 _ Hin). specialize (Hs1 _ Hin). specialize (IH _ Hin).
      apply andb_true_iff in Hg1 as [? ?]. apply andb_true_iff in Hs1 as [? ?]. destruct IH. auto.
    + apply Forall_forall. intros kv Hin. specialize (Hs2 _ Hin). apply andb_true_iff in Hs2 as [_ ?]. assumption.
    + apply Forall_forall. intros kv Hin. specialize (Hs2 _ Hin). apply andb_true_iff in Hs2 as [? _].
      unfold scalar. destruct (fst kv); assumption.
    + apply Forall_forall. intros kv Hin. specialize (Hg1 _ Hin). apply andb_true_iff in Hg1 as [? _]. assumption.
    + exists (VMap true es). rewrite E1 in Hd.
      assert (Ew : wire_entries l [] = Some es).
      { apply (wire_entries_distinct l [] es E1 E2); [|exact E6|exact Hd].
        apply Forall_forall. intros kv Hin. specialize (Hs2 _ Hin). apply andb_true_iff in Hs2 as [_ ?]. assumption. }
      rewrite wire_map, Ew. repeat split.
      * constructor. exact E3.
      * cbn [fmt]. rewrite E5. unfold fmt_entry in E4. rewrite E4. reflexivity.
      * cbn [go_value]. rewrite E7, (same_len_small l es E5), Hg2. reflexivity.
      * exact E8.
      * exact E9.
  - discriminate.
Qed.

(* top level *)
Lemma safe_supported v : safe v = true -> supported v = true.
Proof.
  induction v as [|t b|t b|t b|t k n|t k z|t s|k l IH|i l IH|h i] using gval_rect'; auto.
  - cbn [safe supported]. rewrite !forallb_forall. rewrite Forall_forall in IH. auto.
  - cbn [safe supported]. intros H. apply andb_true_iff in H as [H _]. apply andb_true_iff in H as [H _].
    rewrite forallb_forall in *. rewrite Forall_forall in IH. intros kv Hin. specialize (H _ Hin).
    apply andb_true_iff in H as [Ha Hb]. destruct (IH _ Hin) as [IHa IHb].
    rewrite IHa, IHb, orb_true_r by assumption. reflexivity.
Qed.
Lemma safe_top_supported v : safe_top v = true -> supported v = true.
Proof.
  destruct v; cbn [safe_top]; try apply safe_supported; reflexivity.
Qed.

Lemma safe_top_crosses ws v : go_value ws v = true -> safe_top v = true ->
  exists v', wire_top ws v = Some v' /\ same_value v v' /\ fmt_top_ws ws v' = fmt_top_ws ws v /\
             go_value ws v' = true /\ supported v' = true /\ wire_universe v' = true.
Proof.
  intros Hg Hs.
  assert (I32case : forall z, in_s 32 z -> exists k, k <> IInt /\
     (if z =? - 2 ^ 31 then I32 else narrow_s z) = k /\ in_s (ibits W64 k) z /\
     fmt_top (VInt 0 k z) = fmt_top (VInt 0 I32 z)).
  { intros z Hz. unfold in_s in Hz. destruct (Z.eqb_spec z (- 2 ^ 31)) as [->|Hne].
    - exists I32. repeat split; try discriminate; cbn [ibits]; lia.
    - exists (narrow_s z). unfold narrow_s, fmt_top, fmt_int.
      destruct ((- 2 ^ 7 <? z) && (z <? 2 ^ 7)) eqn:E1.
      { repeat split; try discriminate; cbn [ibits]; try lia. replace (z =? - 2 ^ 31) with false by lia. reflexivity. }
      destruct ((- 2 ^ 15 <? z) && (z <? 2 ^ 15)) eqn:E2.
      { repeat split; try discriminate; cbn [ibits]; try lia. replace (z =? - 2 ^ 31) with false by lia. reflexivity. }
      replace ((- 2 ^ 31 <? z) && (z <? 2 ^ 31)) with true by lia.
      repeat split; try discriminate; cbn [ibits]; try lia. }
  assert (Hnar : forall z, in_s 64 z -> fmt_top_ws ws (VInt 0 (narrow_s z) z) = fmt_int z).
  { intros z Hz. unfold fmt_top_ws, fmt_top, narrow_s, fmt_int.
    destruct ((- 2 ^ 7 <? z) && (z <? 2 ^ 7)) eqn:E1; [destruct ws; reflexivity|].
    destruct ((- 2 ^ 15 <? z) && (z <? 2 ^ 15)) eqn:E2; [destruct ws; reflexivity|].
    destruct ((- 2 ^ 31 <? z) && (z <? 2 ^ 31)) eqn:E3.
    - replace (z =? - 2 ^ 31) with false by lia. destruct ws; reflexivity.
    - unfold fmt. unfold fmt_int. rewrite E1, E2, E3. destruct ws; reflexivity. }
  assert (Hint : forall k z, k <> IInt -> in_s (ibits W64 k) z ->
            go_value ws (VInt 0 k z) = true /\ wire_universe (VInt 0 k z) = true).
  { intros k z Hk Hz. apply in_sb_iff in Hz. destruct k; try congruence; cbn in *; rewrite Hz; auto. }
  destruct v as [|t b|t b|t b|t k n|t k z|t s|k l|i l|h i].
  - destruct (safe_crosses ws _ Hg Hs) as (v' & E1 & E2 & E3 & E4). exists v'. injection E1 as <-. destruct ws; auto.
  - destruct (safe_crosses ws _ Hg Hs) as (v' & E1 & E2 & E3 & E4). exists v'. injection E1 as <-. destruct ws; auto.
  - assert (Hb : in_u 32 b) by (apply in_ub_iff; exact Hg).
    destruct t as [|p|p].
    + cbn [safe_top] in Hs. exists (VF32 0 b). cbn [wire_top]. replace (b <? 2 ^ 16) with false by lia.
      unfold in_u in Hb. replace (b <? 2 ^ 32) with true by lia. repeat split; try constructor; exact Hg.
    + destruct (safe_crosses ws _ Hg Hs) as (v' & E1 & E2 & E3 & E4). exists v'. repeat split; try apply E4; auto.
      cbn [wire] in E1. destruct (_ <? _); [discriminate|]. injection E1 as <-. destruct ws; exact E3.
    + destruct (safe_crosses ws _ Hg Hs) as (v' & E1 & E2 & E3 & E4). exists v'. repeat split; try apply E4; auto.
      cbn [wire] in E1. destruct (_ <? _); [discriminate|]. injection E1 as <-. destruct ws; exact E3.
  - destruct (safe_crosses ws _ Hg Hs) as (v' & E1 & E2 & E3 & E4). exists v'. repeat split; try apply E4; auto.
    cbn [wire] in E1. destruct (_ <? _); [discriminate|]. injection E1 as <-. destruct ws; exact E3.
  - destruct (safe_crosses ws _ Hg Hs) as (v' & E1 & E2 & E3 & E4). exists v'. repeat split; try apply E4; auto.
    injection E1 as <-. destruct ws; exact E3.
  - assert (Hz : in_s (ibits ws k) z) by (apply in_sb_iff; exact Hg).
    assert (Hz64 : in_s 64 z) by (apply (ibits_range ws k); exact Hz).
    destruct t as [|p|p].
    2,3: destruct (safe_crosses ws _ Hg Hs) as (v' & E1 & E2 & E3 & E4); exists v';
         repeat split; try apply E4; auto; injection E1 as <-; rewrite Hnar by exact Hz64; destruct ws; reflexivity.
    destruct k; cbn [ibits] in Hz.
    + exists (VInt 0 I8 z). destruct (Hint I8 z ltac:(discriminate) Hz). repeat split; auto. constructor. exact Hz.
    + cbn [wire_top]. eexists. split; [reflexivity|]. unfold in_s in Hz.
      destruct ((- 2 ^ 7 <? z) && (z <? 2 ^ 7)) eqn:E.
      * assert (H8 : in_s (ibits W64 I8) z) by (unfold in_s; cbn [ibits]; lia).
        destruct (Hint I8 z ltac:(discriminate) H8). repeat split; auto; [constructor; exact H8|].
        unfold fmt_top_ws, fmt_top. rewrite E. destruct ws; reflexivity.
      * destruct (Hint I16 z ltac:(discriminate) Hz). repeat split; auto. constructor. exact Hz.
    + cbn [wire_top]. destruct (I32case z Hz) as (k & Hk1 & -> & Hk2 & Hk3).
      eexists. split; [reflexivity|]. destruct (Hint k z Hk1 Hk2). repeat split; auto; [constructor; exact Hk2|].
      destruct ws; destruct k; try congruence; exact Hk3.
    + cbn [wire_top wire]. pose proof (narrow_s_range z Hz64) as Hr.
      eexists. split; [reflexivity|].
      destruct (Hint (narrow_s z) z) as [G1 G2]; [unfold narrow_s; repeat destruct (_ && _); discriminate|exact Hr|].
      repeat split; auto; [constructor; exact Hr|]. rewrite Hnar by exact Hz64. destruct ws; reflexivity.
    + cbn [wire_top]. destruct ws.
      * destruct (I32case z Hz) as (k & Hk1 & -> & Hk2 & Hk3).
        eexists. split; [reflexivity|]. destruct (Hint k z Hk1 Hk2). repeat split; auto; [constructor; exact Hk2|].
        destruct k; try congruence; exact Hk3.
      * pose proof (narrow_s_range z Hz64) as Hr.
        eexists. split; [reflexivity|].
        destruct (Hint (narrow_s z) z) as [G1 G2]; [unfold narrow_s; repeat destruct (_ && _); discriminate|exact Hr|].
        repeat split; auto; [constructor; exact Hr|]. rewrite Hnar by exact Hz64. reflexivity.
  - destruct (safe_crosses ws _ Hg Hs) as (v' & E1 & E2 & E3 & E4). exists v'. injection E1 as <-. destruct ws; auto.
  - destruct (safe_crosses ws _ Hg Hs) as (v' & E1 & E2 & E3 & E4). exists v'. repeat split; try apply E4; auto.
    cbn [wire] in E1. destruct (opt_map wire l); [|discriminate]. injection E1 as <-. destruct ws; exact E3.
  - destruct (safe_crosses ws _ Hg Hs) as (v' & E1 & E2 & E3 & E4). exists v'. repeat split; try apply E4; auto.
    rewrite wire_map in E1. destruct (wire_entries l []); [|discriminate]. injection E1 as <-. destruct ws; exact E3.
  - discriminate.
Qed.
