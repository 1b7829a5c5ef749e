(* Lemmas for protocol, framing and the receive loop. *)
From Verif Require Import GoInt GoFloat GoVal CodecModel CodecSpec CodecApi CodecProof CodecProof2 CodecProof4 CodecProof6 CodecProof7 CodecProof8
  CodecProof9 ProtoModel PeerRecvModel ProtoSpec.
From Coq Require Import ZifyBool ZifyNat.
Ltac Zify.zify_post_hook ::= idtac.

(* --- header --- *)

Lemma nth_byte d i : bytes_ok d -> 0 <= nth i d 0 < 256.
Proof.
  intros H. destruct (Nat.lt_ge_cases i (length d)) as [Hl|Hl].
  - exact (proj1 (Forall_forall _ _) H _ (nth_In d 0 Hl)).
  - rewrite nth_overflow by exact Hl. lia.
Qed.
Lemma swrap32_hi x : 0 <= x < 256 -> swrap 32 (x * 2 ^ 24) = swrap 8 x * 2 ^ 24.
Proof.
  intros H. unfold swrap. destruct (Z.lt_ge_cases x 128).
  - rewrite !Z.mod_small by lia. lia.
  - rewrite (Z.mod_eq (x * 2 ^ 24 + 2 ^ (32 - 1)) (2 ^ 32)) by lia.
    rewrite (Z.mod_eq (x + 2 ^ (8 - 1)) (2 ^ 8)) by lia.
    replace ((x * 2 ^ 24 + 2 ^ (32 - 1)) / 2 ^ 32) with 1 by (apply Z.div_unique with (x * 2 ^ 24 + 2 ^ 31 - 2 ^ 32); lia).
    replace ((x + 2 ^ (8 - 1)) / 2 ^ 8) with 1 by (apply Z.div_unique with (x + 2 ^ 7 - 2 ^ 8); lia). lia.
Qed.
Lemma header_length_val ws d : bytes_ok d -> header_length ws d = swrap (wbits ws) (le_val d).
Proof.
  intros H. pose proof (nth_byte d 0 H) as B0. pose proof (nth_byte d 1 H) as B1. pose proof (nth_byte d 2 H) as B2.
  pose proof (nth_byte d 3 H) as B3. unfold header_length, le_val.
  set (b0 := nth 0 d 0) in *. set (b1 := nth 1 d 0) in *. set (b2 := nth 2 d 0) in *. set (b3 := nth 3 d 0) in *.
  clearbody b0 b1 b2 b3. rewrite !Z.shiftl_mul_pow2 by lia.
  rewrite (swrap_id (wbits ws) b0) by (destruct ws; unfold in_s; cbn; lia).
  rewrite (swrap_id (wbits ws) (b1 * 2 ^ 8)) by (destruct ws; unfold in_s; cbn; lia).
  rewrite (swrap_id (wbits ws) (b2 * 2 ^ 16)) by (destruct ws; unfold in_s; cbn; lia).
  rewrite (Z.lor_comm b0), lor_mul_add by lia.
  rewrite (Z.lor_comm _ (b2 * 2 ^ 16)), lor_mul_add by lia.
  destruct ws; cbn [wbits].
  - rewrite swrap32_hi by lia. rewrite (Z.lor_comm _ (swrap 8 b3 * 2 ^ 24)), lor_mul_add by lia.
    assert (E : swrap 8 b3 = b3 \/ swrap 8 b3 = b3 - 256 /\ 128 <= b3).
    { unfold swrap. destruct (Z.lt_ge_cases b3 128).
      - left. rewrite Z.mod_small by lia. lia.
      - right. rewrite (Z.mod_eq (b3 + 2 ^ (8 - 1)) (2 ^ 8)) by lia.
        replace ((b3 + 2 ^ (8 - 1)) / 2 ^ 8) with 1 by (apply Z.div_unique with (b3 + 2 ^ 7 - 2 ^ 8); lia). lia. }
    pose proof (swrap_range 8 b3 ltac:(lia)) as R. unfold in_s in R.
    destruct E as [E|[E E2]]; rewrite E in *.
    + rewrite swrap_id; [lia|lia|]. unfold in_s. lia.
    + replace (b0 + 2 ^ 8 * b1 + 2 ^ 16 * b2 + 2 ^ 24 * b3) with
        ((b3 - 256) * 2 ^ 24 + (b2 * 2 ^ 16 + (b1 * 2 ^ 8 + b0)) + 1 * 2 ^ 32) by lia.
      unfold swrap. replace ((b3 - 256) * 2 ^ 24 + (b2 * 2 ^ 16 + (b1 * 2 ^ 8 + b0)) + 1 * 2 ^ 32 + 2 ^ (32 - 1)) with
        (((b3 - 256) * 2 ^ 24 + (b2 * 2 ^ 16 + (b1 * 2 ^ 8 + b0)) + 2 ^ (32 - 1)) + 1 * 2 ^ 32) by lia.
      rewrite Z.mod_add by lia. rewrite Z.mod_small by lia. lia.
  - rewrite (swrap_id 64 (b3 * 2 ^ 24)) by (unfold in_s; cbn; lia).
    rewrite (Z.lor_comm _ (b3 * 2 ^ 24)), lor_mul_add by lia. rewrite swrap_id; [lia|lia|unfold in_s; lia].
Qed.

Definition header (n : Z) : bytes := [byte_of n; byte_of (Z.shiftr n 8); byte_of (Z.shiftr n 16); byte_of (Z.shiftr n 24)].
Lemma header_ok n : bytes_ok (header n).
Proof. repeat constructor; apply byte_of_is_byte. Qed.
Lemma header_val n b : 0 <= n < 2 ^ 32 -> le_val (header n ++ b) = n.
Proof.
  intros H. unfold le_val, header. cbn [app nth]. rewrite !shiftr_byte by lia. unfold byte_of, uwrap.
  assert (E : n = n mod 256 + 256 * ((n / 2 ^ 8) mod 256 + 256 * ((n / 2 ^ 16) mod 256 + 256 * (n / 2 ^ 24)))).
  { rewrite (Z.div_mod n 256) at 1 by lia. change (2 ^ 16) with (2 ^ 8 * 2 ^ 8). change (2 ^ 24) with (2 ^ 8 * 2 ^ 8 * 2 ^ 8).
    rewrite <- !Z.div_div by lia. change (2 ^ 8) with 256.
    pose proof (Z.div_mod (n / 256) 256 ltac:(lia)). pose proof (Z.div_mod (n / 256 / 256) 256 ltac:(lia)). lia. }
  rewrite (Z.mod_small (n / 2 ^ 24) 256).
  - change (2 ^ 8) with 256 at 2. lia.
  - split; [apply Z.div_pos; lia|apply Z.div_lt_upper_bound; lia].
Qed.
Lemma frame_header body : frame_of body = header (Z.of_nat (length body)) ++ body.
Proof.
  unfold frame_of, header. f_equal. set (n := Z.of_nat (length body)). clearbody n.
  cbn [be_bytes rev app]. rewrite !shiftr_byte by lia. unfold byte_of, uwrap.
  change (256 ^ Z.of_nat 0) with 1. change (256 ^ Z.of_nat 1) with (2 ^ 8).
  change (256 ^ Z.of_nat 2) with (2 ^ 16). change (256 ^ Z.of_nat 3) with (2 ^ 24). rewrite Z.div_1_r. reflexivity.
Qed.

Lemma header_length_app ws n x : header_length ws (header n ++ x) = header_length ws (header n).
Proof. reflexivity. Qed.
Lemma header_length_header ws n x : 0 <= n < 2 ^ 32 -> header_length ws (header n ++ x) = swrap (wbits ws) n.
Proof.
  intros H. rewrite header_length_app, header_length_val by apply header_ok.
  rewrite <- (app_nil_r (header n)), header_val by exact H. reflexivity.
Qed.
Lemma max_small ws n : 0 <= n -> 4 + n < max_frame ws ->
  0 <= n < 2 ^ 32 /\ swrap (wbits ws) n = n /\ swrap (wbits ws) (4 + n) = 4 + n.
Proof.
  intros H0 H. split; [destruct ws; unfold max_frame in H; lia|].
  split; (rewrite swrap_id; [reflexivity|destruct ws; unfold wbits; lia|]); destruct ws; unfold in_s, max_frame, wbits in *; lia.
Qed.

Lemma slice_frame ws body rest : Z.of_nat (length (frame_of body)) < max_frame ws ->
  slice ws (frame_of body ++ rest) = Z.of_nat (length (frame_of body)).
Proof.
  rewrite frame_header, app_length. cbn [length header]. intros Hl. unfold slice. rewrite <- app_assoc.
  destruct (max_small ws (Z.of_nat (length body)) ltac:(lia) ltac:(lia)) as (H1 & H2 & H3).
  rewrite header_length_header by exact H1. rewrite H2, H3.
  rewrite !app_length. cbn [length header].
  replace (Z.of_nat (4 + (length body + length rest)) <? 4) with false by lia.
  replace (Z.of_nat (4 + (length body + length rest)) <? 4 + Z.of_nat (length body)) with false by lia. lia.
Qed.
Lemma slice_prefix ws body p q : Z.of_nat (length (frame_of body)) < max_frame ws ->
  frame_of body = p ++ q -> q <> [] -> slice ws p = 0.
Proof.
  rewrite frame_header. intros Hl E Hq. unfold slice. destruct (Z.ltb_spec (Z.of_nat (length p)) 4) as [H4|H4]; [reflexivity|].
  assert (Hp : exists t, p = header (Z.of_nat (length body)) ++ t).
  { exists (skipn 4 p). rewrite <- (firstn_skipn 4 p) at 1. f_equal.
    assert (E2 : firstn 4 (header (Z.of_nat (length body)) ++ body) = firstn 4 (p ++ q)) by (rewrite E; reflexivity).
    rewrite (firstn_app 4 p q) in E2. replace (4 - length p)%nat with 0%nat in E2 by lia. rewrite (firstn_O q) in E2.
    rewrite app_nil_r in E2. rewrite <- E2. reflexivity. }
  destruct Hp as [t ->]. rewrite app_length in Hl. cbn [length header] in Hl.
  destruct (max_small ws (Z.of_nat (length body)) ltac:(lia) ltac:(lia)) as (H1 & H2 & H3).
  rewrite header_length_header by exact H1. rewrite H2, H3.
  assert (length body = length (t ++ q)).
  { rewrite <- app_assoc in E. apply app_inv_head in E. rewrite E. reflexivity. }
  rewrite app_length in H. destruct q; [congruence|]. cbn [length] in H.
  rewrite app_length. cbn [length header].
  replace (Z.of_nat (4 + length t) <? 4 + Z.of_nat (length body)) with true by lia. reflexivity.
Qed.

(* --- codec fields --- *)
Lemma marshal_shape ws p f : marshal ws p = SOk f -> exists body, f = frame_of body.
Proof.
  unfold marshal. destruct (put ws _ []) as [[e|] w]; [discriminate|].
  destruct (proto_marshal ws (p_p p) w) as [[e|] d]; [discriminate|]. intros E. injection E as <-.
  exists d. rewrite frame_header. reflexivity.
Qed.

Lemma put_ok ws v w : go_value ws v = true -> supported v = true -> put ws v w = (None, w ++ fmt_top_ws ws v).
Proof. apply api_encode. Qed.
Lemma field_ok {A} ws v v' (get : any -> ares A) x a rest : go_value ws v = true -> supported v = true ->
  wire_top ws v = Some v' -> wire_universe v' = true -> get (NewAny v') = AOk x ->
  field get a (fmt_top_ws ws v ++ rest) = UOk (x, NewAny v') rest.
Proof.
  intros Hg Hs Hw Hu Hx. unfold field. rewrite (api_decode ws v a rest v' Hg Hs Hw Hu), Hx. reflexivity.
Qed.

Lemma str_go ws s : str_ok s = true -> go_value ws (VStr 0 s) = true.
Proof. exact (fun H => H). Qed.
Lemma field_str ws s a rest : str_ok s = true ->
  field acc_String a (fmt_top_ws ws (VStr 0 s) ++ rest) = UOk (s, NewAny (VStr 0 s)) rest.
Proof.
  intros H. eapply field_ok; [exact H|reflexivity|reflexivity| |reflexivity].
  apply andb_true_iff in H as [H _]. cbn. exact H.
Qed.
Lemma field_int64 ws z a rest : in_sb 64 z = true ->
  exists v, field acc_Int64 a (fmt_top_ws ws (VInt 0 I64 z) ++ rest) = UOk (z, NewAny v) rest.
Proof.
  intros H. apply in_sb_iff in H. destruct (wire_top_int ws 0 I64 z H) as (E & Hr & Hk).
  exists (VInt 0 (top_ik ws 0 I64 z) z). eapply field_ok; [apply in_sb_iff; exact H|reflexivity|exact E| |].
  - destruct (top_ik ws 0 I64 z); try congruence; cbn; apply in_sb_iff; exact Hr.
  - apply acc_int_exact; [lia|exact H|exact Hk].
Qed.
Lemma field_int ws ws' z a rest : in_sb (wbits ws) z = true -> in_sb (wbits ws') z = true ->
  exists v, field (acc_Int ws') a (fmt_top_ws ws (VInt 0 IInt z) ++ rest) = UOk (z, NewAny v) rest.
Proof.
  intros H H'. apply in_sb_iff in H. apply in_sb_iff in H'. destruct (wire_top_int ws 0 IInt z H) as (E & Hr & Hk).
  exists (VInt 0 (top_ik ws 0 IInt z) z). eapply field_ok; [apply in_sb_iff; exact H|reflexivity|exact E| |].
  - destruct (top_ik ws 0 IInt z); try congruence; cbn; apply in_sb_iff; exact Hr.
  - apply acc_int_exact; [destruct ws'; cbn; lia|exact H'|exact Hk].
Qed.
Lemma field_bool ws b a rest : field acc_Bool a (fmt_top_ws ws (VBool 0 b) ++ rest) = UOk (b, NewAny (VBool 0 b)) rest.
Proof. eapply field_ok; reflexivity. Qed.
Lemma field_arr ws l a rest : go_value ws (VArr ASliceIface l) = true -> safe (VArr ASliceIface l) = true ->
  exists l', Forall2 same_value l l' /\
    field acc_Arr a (fmt_top_ws ws (VArr ASliceIface l) ++ rest) = UOk (l', NewAny (VArr ASliceIface l')) rest.
Proof.
  intros Hg Hs. destruct (safe_top_crosses ws _ Hg Hs) as (v' & E & Hsv & _ & _ & _ & Hu).
  inversion Hsv; subst. exists l'. split; [assumption|].
  eapply field_ok; [exact Hg|apply safe_top_supported; exact Hs|exact E|exact Hu|reflexivity].
Qed.
Lemma wire_strings l : opt_map wire (map (VStr 0) l) = Some (map (VStr 0) l).
Proof. induction l as [|s l IH]; cbn [map opt_map wire]; [reflexivity|]. fold (opt_map wire (map (VStr 0) l)). rewrite IH. reflexivity. Qed.
Lemma as_strings_map l : as_strings (map (VStr 0) l) = Some l.
Proof. induction l as [|s l IH]; cbn; [reflexivity|]. rewrite IH. reflexivity. Qed.
Lemma strings_go ws l : forallb str_ok l && small_len l = true -> go_value ws (strings l) = true /\ supported (strings l) = true.
Proof.
  intros H. apply andb_true_iff in H as [H Hl]. split; cbn [strings go_value supported].
  - unfold small_len in *. rewrite map_length, Hl, andb_true_r. rewrite forallb_forall in *. intros x Hx.
    apply in_map_iff in Hx as (s & <- & Hs). apply H, Hs.
  - apply forallb_forall. intros x Hx. apply in_map_iff in Hx as (s & <- & Hs). reflexivity.
Qed.
Lemma unmarshal_slots_ok ws mk l rest : forallb str_ok l && small_len l = true ->
  unmarshal_slots mk (fmt_top_ws ws (strings l) ++ rest) = UOk (mk l) rest.
Proof.
  intros H. destruct (strings_go ws l H) as [Hg Hs]. unfold unmarshal_slots.
  erewrite (field_ok ws (strings l) (VArr ASliceIface (map (VStr 0) l))); [|exact Hg|exact Hs| | |reflexivity].
  - cbn [ubind fst]. rewrite as_strings_map. reflexivity.
  - cbn [strings wire_top wire]. rewrite wire_strings. reflexivity.
  - apply andb_true_iff in H as [H _]. rewrite forallb_forall in H. cbn [wire_universe andb]. apply forallb_forall.
    intros x Hx. apply in_map_iff in Hx as (s & <- & Hin). specialize (H s Hin). apply andb_true_iff in H as [H _]. exact H.
Qed.

Lemma proto_roundtrip ws ws' p w : proto_ok ws p = true -> fits ws' p = true ->
  exists b, proto_marshal ws p w = (None, w ++ b) /\
    forall rest, exists p', proto_unmarshal ws' (proto_id p) (b ++ rest) = UOk p' rest /\ same_proto p p'.
Proof.
  destruct p as [e| |l|l|n|s|s|i s m a r|i s m a e]; cbn [proto_ok proto_marshal proto_id fits]; intros H H'.
  - eexists. split; [apply put_ok; [exact H|reflexivity]|]. intros rest. exists (PError e).
    split; [|apply sp_refl; exact I]. unfold proto_unmarshal, unmarshal_string. cbn [Z.eqb idError].
    rewrite field_str by exact H. reflexivity.
  - exists []. split; [rewrite app_nil_r; reflexivity|]. intros rest. exists PHeartbeat. split; [reflexivity|apply sp_refl; exact I].
  - destruct (strings_go ws l H) as [Hg Hs]. eexists. split; [apply put_ok; assumption|]. intros rest. exists (PReady l).
    split; [|apply sp_refl; exact I]. change (proto_unmarshal ws' 2) with (unmarshal_slots PReady). apply unmarshal_slots_ok, H.
  - destruct (strings_go ws l H) as [Hg Hs]. eexists. split; [apply put_ok; assumption|]. intros rest. exists (PRegisterRequest l).
    split; [|apply sp_refl; exact I]. change (proto_unmarshal ws' 3) with (unmarshal_slots PRegisterRequest). apply unmarshal_slots_ok, H.
  - eexists. split; [apply put_ok; [exact H|reflexivity]|]. intros rest. exists (PRegisterResponse n).
    split; [|apply sp_refl; exact I]. unfold proto_unmarshal. cbn [Z.eqb idError idHeartbeat idRegisterRequest idRegisterResponse Pos.eqb].
    destruct (field_int ws ws' n (NewAny VNil) rest H H') as [v ->]. reflexivity.
  - eexists. split; [apply put_ok; [exact H|reflexivity]|]. intros rest. exists (PQueryRequest s).
    split; [|apply sp_refl; exact I]. change (proto_unmarshal ws' 5) with (unmarshal_string PQueryRequest). unfold unmarshal_string.
    rewrite field_str by exact H. reflexivity.
  - eexists. split; [apply put_ok; [exact H|reflexivity]|]. intros rest. exists (PQueryResponse s).
    split; [|apply sp_refl; exact I]. change (proto_unmarshal ws' 6) with (unmarshal_string PQueryResponse). unfold unmarshal_string.
    rewrite field_str by exact H. reflexivity.
  - rewrite !andb_true_iff in H. destruct H as [[[Hi Hs] Hm] [Hg Hf]].
    pose proof (safe_supported _ Hf) as Hsup.
    rewrite (put_ok ws (VInt 0 I64 i)) by (exact Hi || reflexivity). cbn [andThen].
    rewrite (put_ok ws (VStr 0 s)) by (exact Hs || reflexivity). cbn [andThen].
    rewrite (put_ok ws (VStr 0 m)) by (exact Hm || reflexivity). cbn [andThen].
    rewrite (put_ok ws (VArr ASliceIface a)) by (exact Hg || exact Hsup). cbn [andThen].
    rewrite (put_ok ws (VBool 0 r)) by reflexivity. rewrite <- !app_assoc.
    eexists. split; [reflexivity|]. intros rest. rewrite <- !app_assoc.
    destruct (field_arr ws a (NewAny (VStr 0 m)) (fmt_top_ws ws (VBool 0 r) ++ rest) Hg Hf) as (a' & Ha & E).
    exists (PRpcRequest i s m a' r). split; [|constructor; exact Ha].
    unfold proto_unmarshal. cbn [Z.eqb idError idHeartbeat idRegisterRequest idRegisterResponse idReady idQueryRequest idQueryResponse idRpcRequest Pos.eqb].
    destruct (field_int64 ws i (NewAny VNil) (fmt_top_ws ws (VStr 0 s) ++ fmt_top_ws ws (VStr 0 m) ++
      fmt_top_ws ws (VArr ASliceIface a) ++ fmt_top_ws ws (VBool 0 r) ++ rest) Hi) as [v ->].
    cbn [ubind fst snd]. rewrite field_str by exact Hs. cbn [ubind fst snd]. rewrite field_str by exact Hm. cbn [ubind fst snd].
    rewrite E. cbn [ubind fst snd]. rewrite field_bool. reflexivity.
  - rewrite !andb_true_iff in H. destruct H as [[[[Hi Hs] Hm] [Hg Hf]] He].
    pose proof (safe_supported _ Hf) as Hsup.
    rewrite (put_ok ws (VInt 0 I64 i)) by (exact Hi || reflexivity). cbn [andThen].
    rewrite (put_ok ws (VStr 0 s)) by (exact Hs || reflexivity). cbn [andThen].
    rewrite (put_ok ws (VStr 0 m)) by (exact Hm || reflexivity). cbn [andThen].
    rewrite (put_ok ws (VArr ASliceIface a)) by (exact Hg || exact Hsup). cbn [andThen].
    rewrite (put_ok ws (VStr 0 e)) by (exact He || reflexivity). rewrite <- !app_assoc.
    eexists. split; [reflexivity|]. intros rest. rewrite <- !app_assoc.
    destruct (field_arr ws a (NewAny (VStr 0 m)) (fmt_top_ws ws (VStr 0 e) ++ rest) Hg Hf) as (a' & Ha & E).
    exists (PRpcResponse i s m a' e). split; [|constructor; exact Ha].
    unfold proto_unmarshal. cbn [Z.eqb idError idHeartbeat idRegisterRequest idRegisterResponse idReady idQueryRequest idQueryResponse idRpcRequest idRpcResponse Pos.eqb].
    destruct (field_int64 ws i (NewAny VNil) (fmt_top_ws ws (VStr 0 s) ++ fmt_top_ws ws (VStr 0 m) ++
      fmt_top_ws ws (VArr ASliceIface a) ++ fmt_top_ws ws (VStr 0 e) ++ rest) Hi) as [v ->].
    cbn [ubind fst snd]. rewrite field_str by exact Hs. cbn [ubind fst snd]. rewrite field_str by exact Hm. cbn [ubind fst snd].
    rewrite E. cbn [ubind fst snd]. rewrite field_str by exact He. reflexivity.
Qed.

Lemma unmarshal_frame ws body : Z.of_nat (length (frame_of body)) < max_frame ws ->
  unmarshal ws (frame_of body) =
  match field acc_Uint8 (NewAny VNil) body with
  | UErr => SFatal | UPanic => SPanic | UFuel => SFuel
  | UOk (id, _) r =>
      match proto_unmarshal ws id r with
      | UOk p _ => SOk (mkPacker id p) | UErr => SFatal | UPanic => SPanic | UFuel => SFuel
      end
  end.
Proof.
  rewrite frame_header, app_length. cbn [length header]. intros Hl. unfold unmarshal. rewrite app_length. cbn [length header].
  destruct (max_small ws (Z.of_nat (length body)) ltac:(lia) ltac:(lia)) as (H1 & H2 & H3).
  rewrite header_length_header by exact H1. rewrite H2, H3.
  replace (Z.of_nat (4 + length body) <? 4) with false by lia.
  replace ((4 + Z.of_nat (length body) <? 4) || (Z.of_nat (4 + length body) <? 4 + Z.of_nat (length body))) with false by lia.
  replace (Z.to_nat (4 + Z.of_nat (length body) - 4)) with (length body) by lia.
  change (skipn 4 (header (Z.of_nat (length body)) ++ body)) with body. rewrite firstn_all. reflexivity.
Qed.

Lemma proto_id_range p : 0 <= proto_id p < 9.
Proof. destruct p; cbn; lia. Qed.
Lemma put_id ws id : 0 <= id < 256 -> put ws (VUint tProtoType U8 id) [] = (None, [0xcc; id]).
Proof.
  intros H. rewrite put_ok; [|apply in_ub_iff; unfold in_u; cbn; lia|reflexivity]. cbn [app].
  replace (fmt_top_ws ws (VUint tProtoType U8 id)) with (fmt_uint id) by (destruct ws; reflexivity).
  unfold fmt_uint. replace (id <? 2 ^ 8) with true by lia. cbn [be_bytes]. change (256 ^ Z.of_nat 0) with 1.
  rewrite Z.div_1_r, Z.mod_small by lia. reflexivity.
Qed.
Lemma field_id id rest : 0 <= id < 256 -> field acc_Uint8 (NewAny VNil) (0xcc :: id :: rest) = UOk (id, NewAny (VUint 0 U8 id)) rest.
Proof.
  intros H. unfold field.
  assert (E : any_decode (NewAny VNil) (0xcc :: id :: rest) = DecOk (NewAny (VUint 0 U8 id)) rest).
  { pose proof (api_decode W64 (VUint 0 U8 id) (NewAny VNil) rest (VUint 0 U8 id)) as D.
    replace (fmt_top_ws W64 (VUint 0 U8 id)) with [0xcc; id] in D.
    - apply D; try reflexivity; try (apply in_ub_iff; unfold in_u; cbn; lia).
      unfold wire_top, wire, narrow_u. replace (id <? 2 ^ 8) with true by lia. reflexivity.
    - unfold fmt_top_ws, fmt_top, fmt, fmt_uint. replace (id <? 2 ^ 8) with true by lia. cbn [be_bytes]. change (256 ^ Z.of_nat 0) with 1.
      rewrite Z.div_1_r, Z.mod_small by lia. reflexivity. }
  rewrite E. unfold acc_Uint8. rewrite acc_uint_exact; [reflexivity|unfold in_u; lia|discriminate|discriminate].
Qed.

Lemma packet_roundtrip ws ws' p : proto_ok ws p = true -> fits ws' p = true ->
  exists f, marshal ws (pack p) = SOk f /\
    (Z.of_nat (length f) < max_frame ws' -> exists p', unmarshal ws' f = SOk (pack p') /\ same_proto p p').
Proof.
  intros H H'. unfold marshal, pack. cbn [p_id p_p]. pose proof (proto_id_range p) as Hid. rewrite put_id by lia.
  destruct (proto_roundtrip ws ws' p [0xcc; proto_id p] H H') as (b & -> & Hu). eexists. split; [reflexivity|].
  set (body := [0xcc; proto_id p] ++ b).
  change ([byte_of (Z.of_nat (length body)); byte_of (Z.shiftr (Z.of_nat (length body)) 8);
           byte_of (Z.shiftr (Z.of_nat (length body)) 16); byte_of (Z.shiftr (Z.of_nat (length body)) 24)] ++ body)
    with (header (Z.of_nat (length body)) ++ body).
  rewrite <- frame_header. intros Hl. rewrite unmarshal_frame by exact Hl. subst body. cbn [app]. rewrite field_id by lia.
  destruct (Hu []) as (p' & E & Hs). rewrite app_nil_r in E. rewrite E. exists p'. split; [|exact Hs].
  f_equal. f_equal. destruct Hs; reflexivity.
Qed.
