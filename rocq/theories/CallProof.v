From Verif Require Import GoInt GoFloat GoVal CodecModel CodecSpec CodecProof CodecProof2 CodecProof3 CodecProof4 CodecProof5 CodecProof6 CodecProof8 CodecProof9
  ProtoModel ProtoSpec ProtoProof PeerRecvModel RecvProof MetaModel MetaSpec MetaProof CallModel CallSpec.
From Coq Require Import Lia ZifyBool ZifyNat.

(* --- one message --- *)
Lemma field_arr_exact ws l a rest : go_value ws (VArr ASliceIface l) = true -> supported (VArr ASliceIface l) = true ->
  field acc_Arr a (fmt_top_ws ws (VArr ASliceIface l) ++ rest) =
  match opt_map wire l with Some l' => UOk (l', NewAny (VArr ASliceIface l')) rest | None => UPanic end.
Proof.
  intros Hg Hs. unfold field, any_decode. rewrite (top_decode ws _ rest Hg Hs). cbn [wire_top wire]. fold wire.
  destruct (opt_map wire l) as [l'|]; reflexivity.
Qed.

Lemma rpc_proto ws ws' request i s m args w e b : in_sb 64 i = true -> str_ok s = true -> str_ok m = true -> str_ok e = true ->
  go_value ws (VArr ASliceIface args) = true -> supported (VArr ASliceIface args) = true ->
  exists t, proto_marshal ws (rpc request i s m args w e) b = (None, b ++ t) /\
    proto_unmarshal ws' (if request then 7 else 8) t =
    match opt_map wire args with Some a' => UOk (rpc request i s m a' w e) [] | None => UPanic end.
Proof.
  intros Hi Hs Hm He Hg Hsup.
  set (t := fmt_top_ws ws (VInt 0 I64 i) ++ fmt_top_ws ws (VStr 0 s) ++ fmt_top_ws ws (VStr 0 m) ++ fmt_top_ws ws (VArr ASliceIface args) ++
    (if request then fmt_top_ws ws (VBool 0 w) else fmt_top_ws ws (VStr 0 e)) ++ []).
  exists t. split.
  { destruct request; cbn [rpc proto_marshal];
      rewrite (put_ok ws (VInt 0 I64 i)) by (exact Hi || reflexivity); cbn [andThen];
      rewrite (put_ok ws (VStr 0 s)) by (exact Hs || reflexivity); cbn [andThen];
      rewrite (put_ok ws (VStr 0 m)) by (exact Hm || reflexivity); cbn [andThen];
      rewrite (put_ok ws (VArr ASliceIface args)) by (exact Hg || exact Hsup); cbn [andThen];
      [rewrite (put_ok ws (VBool 0 w)) by reflexivity|rewrite (put_ok ws (VStr 0 e)) by (exact He || reflexivity)];
      unfold t; rewrite <- !app_assoc, ?app_nil_r; reflexivity. }
  destruct (field_int64 ws i (NewAny VNil) (fmt_top_ws ws (VStr 0 s) ++ fmt_top_ws ws (VStr 0 m) ++ fmt_top_ws ws (VArr ASliceIface args) ++
    (if request then fmt_top_ws ws (VBool 0 w) else fmt_top_ws ws (VStr 0 e)) ++ []) Hi) as [x Ex].
  unfold proto_unmarshal, t.
  destruct request; cbn [Z.eqb idError idHeartbeat idRegisterRequest idRegisterResponse idReady idQueryRequest idQueryResponse idRpcRequest idRpcResponse Pos.eqb];
    rewrite Ex; cbn [ubind fst snd]; rewrite field_str by exact Hs; cbn [ubind fst snd]; rewrite field_str by exact Hm; cbn [ubind fst snd];
    rewrite field_arr_exact by assumption; destruct (opt_map wire args) as [a'|]; cbn [ubind fst snd]; try reflexivity.
  - rewrite field_bool. reflexivity.
  - rewrite field_str by exact He. reflexivity.
Qed.

Lemma rpc_packet ws ws' request i s m args w e : in_s 64 i -> str_ok s = true -> str_ok m = true -> str_ok e = true ->
  go_value ws (VArr ASliceIface args) = true -> supported (VArr ASliceIface args) = true ->
  exists body, marshal ws (pack (rpc request i s m args w e)) = SOk (frame_of body) /\
    (Z.of_nat (length (frame_of body)) < max_frame ws' ->
     unmarshal ws' (frame_of body) = match opt_map wire args with Some a' => SOk (pack (rpc request i s m a' w e)) | None => SPanic end).
Proof.
  intros Hi Hs Hm He Hg Hsup. apply in_sb_iff in Hi.
  destruct (rpc_proto ws ws' request i s m args w e [0xcc; if request then 7 else 8] Hi Hs Hm He Hg Hsup) as (t & Et & Eu).
  exists ([0xcc; if request then 7 else 8] ++ t).
  assert (Eid : proto_id (rpc request i s m args w e) = if request then 7 else 8) by (destruct request; reflexivity).
  split.
  - unfold marshal, pack. cbn [p_id p_p]. rewrite Eid, put_id by (destruct request; lia). rewrite Et, frame_header. reflexivity.
  - intros Hl. rewrite unmarshal_frame by exact Hl. cbn [app]. rewrite field_id by (destruct request; lia). rewrite Eu.
    destruct (opt_map wire args); [|reflexivity]. unfold pack. destruct request; reflexivity.
Qed.

Lemma rpc_unsupported ws request i s m args w e : in_s 64 i -> str_ok s = true -> str_ok m = true -> str_ok e = true ->
  supported (VArr ASliceIface args) = false -> forall f, marshal ws (pack (rpc request i s m args w e)) <> SOk f.
Proof.
  intros Hi Hs Hm He Hsup f E. apply in_sb_iff in Hi.
  assert (Eid : proto_id (rpc request i s m args w e) = if request then 7 else 8) by (destruct request; reflexivity).
  unfold marshal, pack in E. cbn [p_id p_p] in E. rewrite Eid, put_id in E by (destruct request; lia).
  assert (X : forall b, exists x b', put ws (VArr ASliceIface args) b = (Some x, b')).
  { intros b. apply (encode_error_iff ws (VArr ASliceIface args) b). exact Hsup. }
  destruct request; cbn [rpc proto_marshal] in E;
    rewrite (put_ok ws (VInt 0 I64 i)) in E by (exact Hi || reflexivity); cbn [andThen] in E;
    rewrite (put_ok ws (VStr 0 s)) in E by (exact Hs || reflexivity); cbn [andThen] in E;
    rewrite (put_ok ws (VStr 0 m)) in E by (exact Hm || reflexivity); cbn [andThen] in E;
    match type of E with context[put ws (VArr ASliceIface args) ?b] => destruct (X b) as (x & b' & Ex); rewrite Ex in E; cbn [andThen] in E; discriminate end.
Qed.

Lemma transfer_rpc ws ws' cut (request : bool) i s m args w e : in_s 64 i -> str_ok s = true -> str_ok m = true -> str_ok e = true ->
  go_value ws (VArr ASliceIface args) = true -> supported (VArr ASliceIface args) = true ->
  short ws ws' (rpc request i s m args w e) -> whole cut ->
  transfer ws ws' cut (if request then 7 else 8) (rpc request i s m args w e) =
  match opt_map wire args with Some a' => Arrived (rpc request i s m a' w e) | None => ReceiverDown end.
Proof.
  intros Hi Hs Hm He Hg Hsup Hsh Hc.
  destruct (rpc_packet ws ws' request i s m args w e Hi Hs Hm He Hg Hsup) as (body & Em & Eu).
  specialize (Hsh _ Em). specialize (Eu Hsh). unfold transfer.
  assert (Ep : mkPacker (if request then 7 else 8) (rpc request i s m args w e) = pack (rpc request i s m args w e)) by (destruct request; reflexivity).
  rewrite Ep, Em. cbv zeta. pose proof (Hc (frame_of body)) as Ec.
  destruct (opt_map wire args) as [a'|].
  - destruct (recv_concat (ferry_serializer ws') (ferry_stable ws') (cut (frame_of body))) as (R1 & R2 & _).
    assert (D : drained (ferry_serializer ws') (concat [frame_of body] ++ []) = mkReceived [pack (rpc request i s m a' w e)] [] false).
    { apply (drained_frames (ferry_serializer ws') (ferry_stable ws')); [|cbn; lia]. constructor; [|constructor].
      split; [intros t; apply slice_frame; exact Hsh|]. split; [rewrite frame_header; discriminate|exact Eu]. }
    cbn [concat] in D. rewrite !app_nil_r in D. rewrite Ec, D in R1, R2.
    cbn [delivered crashed] in R1, R2. rewrite R1, R2. reflexivity.
  - rewrite (one_frame ws' body (cut (frame_of body)) []); [reflexivity|rewrite app_nil_r; exact Ec|exact Hsh|].
    intros p. rewrite Eu. discriminate.
Qed.

Lemma transfer_unsupported ws ws' cut (request : bool) i s m args w e : in_s 64 i -> str_ok s = true -> str_ok m = true -> str_ok e = true ->
  supported (VArr ASliceIface args) = false ->
  transfer ws ws' cut (if request then 7 else 8) (rpc request i s m args w e) = SenderDown.
Proof.
  intros Hi Hs Hm He Hsup. unfold transfer.
  assert (Ep : mkPacker (if request then 7 else 8) (rpc request i s m args w e) = pack (rpc request i s m args w e)) by (destruct request; reflexivity).
  rewrite Ep. pose proof (rpc_unsupported ws request i s m args w e Hi Hs Hm He Hsup) as X.
  destruct (marshal ws (pack (rpc request i s m args w e))); try reflexivity. exfalso. exact (X _ eq_refl).
Qed.

(* --- the whole call --- *)
Section Call.
Context {O : Type} (ws ws' : wsize) (open : open_conversion) (cut cut' : list Z -> list (list Z)) (tbl : table O) (o : O)
  (index : Z) (slot m : list Z) (args : list gval) (w : bool).
Hypotheses (Hi : in_s 64 index) (Hs : str_ok slot = true) (Hm : str_ok m = true) (Hc : whole cut) (Hc' : whole cut').

Lemma call_unsupported : supported (VArr ASliceIface args) = false ->
  remote_call ws ws' open cut cut' tbl o index slot m args w = CallerDown.
Proof.
  intros Hsup. unfold remote_call. pose proof (transfer_unsupported ws ws' cut true index slot m args w [] Hi Hs Hm eq_refl Hsup) as E.
  cbn [rpc] in E. change idRpcRequest with 7. rewrite E. reflexivity.
Qed.

Lemma call_poison : go_value ws (VArr ASliceIface args) = true -> supported (VArr ASliceIface args) = true ->
  short ws ws' (PRpcRequest index slot m args w) -> opt_map wire args = None ->
  remote_call ws ws' open cut cut' tbl o index slot m args w = CalleeDown.
Proof.
  intros Hg Hsup Hsh E. unfold remote_call.
  pose proof (transfer_rpc ws ws' cut true index slot m args w [] Hi Hs Hm eq_refl Hg Hsup Hsh Hc) as T.
  rewrite E in T. cbn [rpc] in T. change idRpcRequest with 7. rewrite T. reflexivity.
Qed.

(* the serving side's local call on what arrived, and the answer's way back *)
Lemma call_served args' : go_value ws (VArr ASliceIface args) = true -> supported (VArr ASliceIface args) = true ->
  short ws ws' (PRpcRequest index slot m args w) -> opt_map wire args = Some args' ->
  (forall o' r, local_call ws' open tbl o m args' w = Returned o' r [] ->
     go_value ws' (VArr ASliceIface r) = true /\ short ws' ws (PRpcResponse index slot m r [])) ->
  remote_call ws ws' open cut cut' tbl o index slot m args w =
  match local_call ws' open tbl o m args' w with
  | Returned o' r _ =>
      if supported (VArr ASliceIface r) then
        match opt_map wire r with Some r' => Returned o' r' [] | None => CallerDown end
      else CalleeDown
  | x => x
  end.
Proof.
  intros Hg Hsup Hsh E Hr. unfold remote_call.
  pose proof (transfer_rpc ws ws' cut true index slot m args w [] Hi Hs Hm eq_refl Hg Hsup Hsh Hc) as T.
  rewrite E in T. cbn [rpc] in T. change idRpcRequest with 7. rewrite T.
  unfold local_call in *. destruct (run_method ws' open tbl o m args' w) as [[o' r]|]; [|reflexivity].
  destruct (Hr o' r eq_refl) as [Hgr Hshr]. change idRpcResponse with 8.
  destruct (supported (VArr ASliceIface r)) eqn:Es.
  - pose proof (transfer_rpc ws' ws cut' false index slot m r false [] Hi Hs Hm eq_refl Hgr Es Hshr Hc') as T'.
    cbn [rpc] in T'. rewrite T'. destruct (opt_map wire r); [|reflexivity]. rewrite Z.eqb_refl. reflexivity.
  - pose proof (transfer_unsupported ws' ws cut' false index slot m r false [] Hi Hs Hm eq_refl Es) as T'.
    cbn [rpc] in T'. rewrite T'. reflexivity.
Qed.
End Call.

(* --- conversion of what arrives --- *)
Lemma safe_wire v : safe v = true -> forall ws, go_value ws v = true -> exists v', wire v = Some v' /\ same_value v v'.
Proof. intros Hs ws Hg. destruct (safe_crosses ws v Hg Hs) as (v' & A & B & _). eauto. Qed.

Lemma carried_wire ws l : carried ws l -> exists l', opt_map wire l = Some l' /\ Forall2 same_value l l'.
Proof.
  intros [Hg Hs]. cbn [go_value safe] in *. apply andb_true_iff in Hg as [Hg _].
  induction l as [|v l IH]; [exists []; split; [reflexivity|constructor]|].
  cbn [forallb] in Hg, Hs. apply andb_true_iff in Hg as [G1 G2]. apply andb_true_iff in Hs as [S1 S2].
  destruct (safe_wire v S1 ws G1) as (v' & E & Sv). destruct (IH G2 S2) as (l' & El & Sl).
  exists (v' :: l'). cbn [opt_map]. rewrite E. fold (opt_map wire l). rewrite El. split; [reflexivity|constructor; assumption].
Qed.

Lemma same_not_nil v v' : same_value v v' -> v <> VNil -> v' <> VNil.
Proof. intros Sv H. destruct Sv; congruence. Qed.

Lemma convert_received ws open ty v v' : accepts ty v -> go_value ws v = true -> quiet v -> wire v = Some v' -> same_value v v' ->
  exists c, convert ws open ty v' = Some c /\ received ty v c /\ (of_type ty v -> c = v).
Proof.
  intros A Hg Hq E Sv. destruct A as [T|[(-> & Hn)|[(-> & l & ->)|(-> & l & ->)]]].
  - exists v. split; [|split; [constructor; exact T|reflexivity]]. destruct T; cbn [go_value quiet wire] in *.
    + injection E as <-. reflexivity.
    + destruct (_ <? _); [discriminate|]. injection E as <-. cbn [convert].
      rewrite f64_narrow_widen; [reflexivity|apply in_ub_iff; exact Hg|exact Hq].
    + destruct (_ <? _); [discriminate|]. injection E as <-. reflexivity.
    + injection E as <-. cbn [convert]. rewrite uwrap_id; [reflexivity|]. apply in_ub_iff. exact Hg.
    + injection E as <-. cbn [convert]. rewrite swrap_id; [reflexivity|apply ibits_pos|]. apply in_sb_iff. exact Hg.
    + injection E as <-. reflexivity.
  - exists v'. split; [|split; [constructor; assumption|]].
    + pose proof (same_not_nil _ _ Sv Hn). destruct v'; try reflexivity. congruence.
    + intros T. inversion T.
  - exists v'. split; [|split; [constructor; exact Sv|intros T; inversion T]]. inversion Sv; subst. reflexivity.
  - exists v'. split; [|split; [constructor; exact Sv|intros T; inversion T]]. inversion Sv; subst. reflexivity.
Qed.

Lemma local_convert ws open ty v : accepts ty v -> go_value ws v = true -> convert ws open ty v = Some v.
Proof.
  intros [T|[(-> & Hn)|[(-> & l & ->)|(-> & l & ->)]]] Hg; try reflexivity.
  - destruct T; cbn [convert go_value] in *; try reflexivity.
    + rewrite uwrap_id; [reflexivity|]. apply in_ub_iff. exact Hg.
    + rewrite swrap_id; [reflexivity|apply ibits_pos|]. apply in_sb_iff. exact Hg.
  - destruct v; try reflexivity. congruence.
Qed.

Lemma forallb_go ws l : forallb (go_value ws) l = true <-> Forall (fun v => go_value ws v = true) l.
Proof. rewrite forallb_forall, Forall_forall. reflexivity. Qed.

Lemma args_received ws open ps args args' : Forall2 accepts ps args -> Forall (fun v => go_value ws v = true) args -> Forall quiet args ->
  opt_map wire args = Some args' -> Forall2 same_value args args' ->
  exists given, convert_args ws open ps args' = Some given /\ Forall2 (fun pa c => received (fst pa) (snd pa) c) (combine ps args) given /\
    length given = length ps /\ (Forall2 of_type ps args -> given = args).
Proof.
  intros A. revert args'. induction A as [|ty v ps args Av A IH]; intros args' G Q E S.
  - cbn in E. injection E as <-. exists []. repeat split; auto. constructor.
  - inversion G; subst. inversion Q; subst. cbn [opt_map] in E. destruct (wire v) as [v'|] eqn:Ev; [|discriminate].
    fold (opt_map wire args) in E. destruct (opt_map wire args) as [l'|] eqn:El; [|discriminate]. injection E as <-. inversion S; subst.
    destruct (convert_received ws open ty v v' Av H1 H3 Ev H6) as (c & C1 & C2 & C3).
    destruct (IH l' H2 H4 eq_refl H8) as (given & G1 & G2 & G3 & G4).
    exists (c :: given). cbn [convert_args combine]. rewrite C1, G1. split; [reflexivity|]. split; [constructor; assumption|].
    split; [cbn; congruence|]. intros T. inversion T; subst. rewrite C3, G4 by assumption. reflexivity.
Qed.

Lemma args_local ws open ps args : Forall2 accepts ps args -> Forall (fun v => go_value ws v = true) args ->
  convert_args ws open ps args = Some args /\ length args = length ps.
Proof.
  induction 1 as [|ty v ps args Av A IH]; intros G; [split; reflexivity|]. inversion G; subst. destruct (IH H2) as [E L].
  cbn [convert_args]. rewrite local_convert, E by assumption. cbn. split; congruence.
Qed.

(* --- equal to the local call --- *)
Section Same.
Context {O : Type} (ws ws' : wsize) (open open' : open_conversion) (cut cut' : list Z -> list (list Z)) (tbl : table O) (o : O)
  (index : Z) (slot m : list Z) (f : fcall O) (args : list gval) (w : bool).
Hypotheses (Hi : in_s 64 index) (Hs : str_ok slot = true) (Hm : str_ok m = true) (Hc : whole cut) (Hc' : whole cut')
  (Ht : NoDup (map fst tbl)) (Hf : In (m, f) tbl) (Ha : Forall2 accepts (params f) args) (Hq : Forall quiet args)
  (Hg : carried ws args) (Hg' : carried ws' args) (Hsh : short ws ws' (PRpcRequest index slot m args w)).

Lemma local_runs o' r : body f o args = Some (o', r) ->
  local_call ws open tbl o m args w = Returned o' (if w then r else []) [].
Proof.
  intros E. unfold local_call, run_method, meta_call. rewrite (lookup_in tbl _ _ Ht Hf).
  destruct Hg as [G _]. cbn [go_value] in G. apply andb_true_iff in G as [G _]. apply forallb_go in G.
  destruct (args_local ws open _ _ Ha G) as [-> L]. rewrite L, Nat.ltb_irrefl, E. reflexivity.
Qed.

Lemma remote_runs : exists given,
  Forall2 (fun pa c => received (fst pa) (snd pa) c) (combine (params f) args) given /\
  (Forall2 of_type (params f) args -> given = args) /\
  forall o' r, body f o given = Some (o', r) -> carried ws' (if w then r else []) ->
    short ws' ws (PRpcResponse index slot m (if w then r else []) []) ->
    exists r', remote_call ws ws' open' cut cut' tbl o index slot m args w = Returned o' r' [] /\
      opt_map wire (if w then r else []) = Some r' /\ Forall2 same_value (if w then r else []) r'.
Proof.
  destruct (carried_wire ws args Hg) as (args' & E & S).
  assert (G' : Forall (fun v => go_value ws' v = true) args).
  { destruct Hg' as [G _]. cbn [go_value] in G. apply andb_true_iff in G as [G _]. apply forallb_go. exact G. }
  destruct (args_received ws' open' _ _ _ Ha G' Hq E S) as (given & C & R & L & T).
  exists given. split; [exact R|]. split; [exact T|]. intros o' r B Cr Shr.
  destruct (carried_wire ws' _ Cr) as (r' & Er & Sr). exists r'. split; [|split; assumption].
  assert (El : local_call ws' open' tbl o m args' w = Returned o' (if w then r else []) []).
  { unfold local_call, run_method, meta_call. rewrite (lookup_in tbl _ _ Ht Hf), C, L, Nat.ltb_irrefl, B. reflexivity. }
  destruct Hg as [G Sf].
  rewrite (call_served ws ws' open' cut cut' tbl o index slot m args w Hi Hs Hm Hc Hc' args' G (safe_supported _ Sf) Hsh E).
  - rewrite El. destruct Cr as [_ Sr']. rewrite (safe_supported _ Sr'), Er. reflexivity.
  - intros o1 r1 E1. rewrite El in E1. injection E1 as <- <-. destruct Cr. auto.
Qed.

End Same.

Lemma of_type_accepts ps args : Forall2 of_type ps args -> Forall2 accepts ps args.
Proof. induction 1; constructor; [left|]; assumption. Qed.
Lemma remote_equals_local {O : Type} ws ws' open open' cut cut' (tbl : table O) o index slot m f args w o' r :
  in_s 64 index -> str_ok slot = true -> str_ok m = true -> whole cut -> whole cut' ->
  NoDup (map fst tbl) -> In (m, f) tbl -> Forall2 of_type (params f) args -> Forall quiet args ->
  carried ws args -> carried ws' args -> short ws ws' (PRpcRequest index slot m args w) ->
  body f o args = Some (o', r) -> carried ws' (if w then r else []) -> short ws' ws (PRpcResponse index slot m (if w then r else []) []) ->
  local_call ws open tbl o m args w = Returned o' (if w then r else []) [] /\
  exists r', remote_call ws ws' open' cut cut' tbl o index slot m args w = Returned o' r' [] /\ Forall2 same_value (if w then r else []) r'.
Proof.
  intros Hi Hs Hm Hc Hc' Ht Hf Ha Hq Hg Hg' Hsh B Cr Shr. pose proof (of_type_accepts _ _ Ha) as Acc.
  split; [apply (local_runs ws open tbl o m f args w Ht Hf Acc Hg); exact B|].
  destruct (remote_runs ws ws' open' cut cut' tbl o index slot m f args w Hi Hs Hm Hc Hc' Ht Hf Acc Hq Hg Hg' Hsh) as (given & _ & Tg & R).
  rewrite (Tg Ha) in R. destruct (R o' r B Cr Shr) as (r' & E & _ & S). eauto.
Qed.

(* --- proxies --- *)
Lemma assert_of_type ty v : of_type ty v -> assert_type ty v = Some v.
Proof.
  destruct 1; cbn [assert_type]; rewrite Z.eqb_refl; try reflexivity.
  - destruct k; reflexivity.
  - destruct k; reflexivity.
Qed.
Lemma assert_wire ty v v' : of_type ty v -> wire v = Some v' -> assert_type ty v' = if plain v then Some v else None.
Proof.
  destruct 1 as [t b|t b|t b|t k n|t k z|t s]; cbn [wire plain]; intros E.
  - injection E as <-. cbn. destruct (Z.eqb_spec t 0) as [->|]; reflexivity.
  - destruct (_ <? _); [discriminate|]. injection E as <-. reflexivity.
  - destruct (_ <? _); [discriminate|]. injection E as <-. cbn. destruct (Z.eqb_spec t 0) as [->|]; reflexivity.
  - injection E as <-. cbn. destruct (Z.eqb_spec t 0) as [->|]; [|reflexivity]. cbn [andb]. destruct k, (narrow_u n); reflexivity.
  - injection E as <-. cbn. destruct (Z.eqb_spec t 0) as [->|]; [|reflexivity]. cbn [andb]. destruct k, (narrow_s z); reflexivity.
  - injection E as <-. cbn. destruct (Z.eqb_spec t 0) as [->|]; reflexivity.
Qed.
Lemma proxy_local tys r : Forall2 of_type tys r -> proxy_return tys r = Some r.
Proof. induction 1 as [|ty v tys r T _ IH]; cbn [proxy_return]; [reflexivity|]. rewrite assert_of_type, IH by exact T. reflexivity. Qed.
Lemma proxy_remote tys r : forall r', Forall2 of_type tys r -> opt_map wire r = Some r' ->
  proxy_return tys r' = if forallb plain r then Some r else None.
Proof.
  intros r' T. revert r'. induction T as [|ty v tys r T _ IH]; intros r' E; cbn [opt_map] in E.
  - injection E as <-. reflexivity.
  - destruct (wire v) as [v'|] eqn:Ev; [|discriminate]. fold (opt_map wire r) in E. destruct (opt_map wire r) as [l|]; [|discriminate].
    injection E as <-. cbn [proxy_return forallb]. rewrite (assert_wire ty v v' T Ev), (IH l eq_refl).
    destruct (plain v), (forallb plain r); reflexivity.
Qed.
(* results declared with an interface type *)
Lemma proxy_any r : proxy_return (map (fun _ => TyAny) r) r = if existsb (fun v => match v with VNil => true | _ => false end) r then None else Some r.
Proof. induction r as [|v r IH]; [reflexivity|]. cbn. rewrite IH. destruct v, (existsb _ r); reflexivity. Qed.
Lemma wire_nil v v' : wire v = Some v' -> v' = VNil <-> v = VNil.
Proof.
  destruct v; cbn [wire]; intros E; try (injection E as <-; split; discriminate || reflexivity); try discriminate.
  - destruct (_ <? _); [discriminate|]. injection E as <-. split; discriminate.
  - destruct (_ <? _); [discriminate|]. injection E as <-. split; discriminate.
  - destruct (opt_map wire l); [|discriminate]. injection E as <-. split; discriminate.
  - match type of E with match ?x with _ => _ end = _ => destruct x; [|discriminate] end. injection E as <-. split; discriminate.
Qed.
Lemma proxy_any_wire r : forall r', opt_map wire r = Some r' ->
  existsb (fun v => match v with VNil => true | _ => false end) r' = existsb (fun v => match v with VNil => true | _ => false end) r /\
  map (fun _ => TyAny) r = map (fun _ : gval => TyAny) r'.
Proof.
  induction r as [|v r IH]; intros r' E; cbn [opt_map] in E; [injection E as <-; auto|].
  destruct (wire v) as [v'|] eqn:Ev; [|discriminate]. fold (opt_map wire r) in E. destruct (opt_map wire r) as [l|]; [|discriminate].
  injection E as <-. destruct (IH l eq_refl) as [I1 I2]. cbn [existsb map]. rewrite I1, I2. split; [|reflexivity]. f_equal.
  pose proof (wire_nil _ _ Ev) as [H1 H2]. destruct v; try (rewrite H2 by reflexivity; reflexivity); destruct v'; try reflexivity; discriminate (H1 eq_refl).
Qed.
Lemma proxy_missing tys r : (length r < length tys)%nat -> proxy_return tys r = None.
Proof.
  revert r. induction tys as [|ty tys IH]; intros [|v r] L; cbn in *; try lia; [reflexivity|].
  destruct (assert_type ty v); [|reflexivity]. rewrite IH by lia. reflexivity.
Qed.

Section Proxy.
Context {O : Type} (ws ws' : wsize) (open open' : open_conversion) (cut cut' : list Z -> list (list Z)) (tbl : table O) (o : O)
  (index : Z) (slot m : list Z) (f : fcall O) (args : list gval).
Hypotheses (Hi : in_s 64 index) (Hs : str_ok slot = true) (Hm : str_ok m = true) (Hc : whole cut) (Hc' : whole cut').

Lemma proxy_same (Ht : NoDup (map fst tbl)) (Hf : In (m, f) tbl) (Ha : Forall2 of_type (params f) args) (Hq : Forall quiet args)
  (Hg : carried ws args) (Hg' : carried ws' args) (Hsh : short ws ws' (PRpcRequest index slot m args true)) tys o' r :
  body f o args = Some (o', r) -> Forall2 of_type tys r -> carried ws' r -> short ws' ws (PRpcResponse index slot m r []) ->
  proxy_call tys (local_call ws open tbl o m args true) = PReturns r /\
  proxy_call tys (remote_call ws ws' open' cut cut' tbl o index slot m args true) = if forallb plain r then PReturns r else PPanics.
Proof.
  intros B T Cr Shr.
  pose proof (of_type_accepts _ _ Ha) as Acc.
  rewrite (local_runs ws open tbl o m f args true Ht Hf Acc Hg o' r B). cbn [proxy_call]. rewrite (proxy_local _ _ T). split; [reflexivity|].
  destruct (remote_runs ws ws' open' cut cut' tbl o index slot m f args true Hi Hs Hm Hc Hc' Ht Hf Acc Hq Hg Hg' Hsh) as (given & _ & Tg & R).
  rewrite (Tg Ha) in R. destruct (R o' r B Cr Shr) as (r' & -> & Ew & _). cbn [proxy_call].
  rewrite (proxy_remote _ _ _ T Ew). destruct (forallb plain r); reflexivity.
Qed.

Lemma proxy_interface (Ht : NoDup (map fst tbl)) (Hf : In (m, f) tbl) (Ha : Forall2 of_type (params f) args) (Hq : Forall quiet args)
  (Hg : carried ws args) (Hg' : carried ws' args) (Hsh : short ws ws' (PRpcRequest index slot m args true)) tys o' r :
  body f o args = Some (o', r) -> Forall (eq TyAny) tys -> length tys = length r -> carried ws' r -> short ws' ws (PRpcResponse index slot m r []) ->
  (In VNil r -> proxy_call tys (local_call ws open tbl o m args true) = PPanics /\
                proxy_call tys (remote_call ws ws' open' cut cut' tbl o index slot m args true) = PPanics) /\
  (~ In VNil r -> proxy_call tys (local_call ws open tbl o m args true) = PReturns r /\
                  exists r', proxy_call tys (remote_call ws ws' open' cut cut' tbl o index slot m args true) = PReturns r' /\ Forall2 same_value r r').
Proof.
  intros B T L Cr Shr.
  assert (Et : tys = map (fun _ => TyAny) r).
  { clear -T L. revert r L. induction T as [|y tys <- _ IH]; intros [|v r] L; cbn in *; try discriminate; [reflexivity|]. f_equal. apply IH. lia. }
  pose proof (of_type_accepts _ _ Ha) as Acc.
  assert (N : existsb (fun v => match v with VNil => true | _ => false end) r = true <-> In VNil r).
  { rewrite existsb_exists. split; [intros (x & I & X); destruct x; try discriminate X; exact I|intros I; exists VNil; auto]. }
  rewrite (local_runs ws open tbl o m f args true Ht Hf Acc Hg o' r B).
  destruct (remote_runs ws ws' open' cut cut' tbl o index slot m f args true Hi Hs Hm Hc Hc' Ht Hf Acc Hq Hg Hg' Hsh) as (given & _ & Tg & R).
  rewrite (Tg Ha) in R. destruct (R o' r B Cr Shr) as (r' & -> & Ew & Sv). cbn [proxy_call].
  destruct (proxy_any_wire _ _ Ew) as [X1 X2]. rewrite Et, proxy_any, X2, proxy_any, X1.
  destruct (existsb _ r) eqn:Ee.
  - split; [auto|]. intros K. exfalso. apply K, N. reflexivity.
  - split; [intros K; apply N in K; discriminate|]. intros _. split; [reflexivity|]. exists r'. auto.
Qed.

Lemma proxy_unknown tys : ~ In m (map fst tbl) -> (0 < length tys)%nat -> carried ws args ->
  short ws ws' (PRpcRequest index slot m args true) -> short ws' ws (PRpcResponse index slot m [] []) ->
  proxy_call tys (local_call ws open tbl o m args true) = PPanics /\
  proxy_call tys (remote_call ws ws' open' cut cut' tbl o index slot m args true) = PPanics.
Proof.
  intros N L [G Sf] Sh Sh'.
  assert (El : forall ws0 open0 a, local_call ws0 open0 tbl o m a true = Returned o [] []).
  { intros. unfold local_call, run_method. rewrite (unknown _ _ _ _ _ _ N). reflexivity. }
  rewrite El. assert (P : proxy_return tys [] = None) by (apply proxy_missing; exact L).
  cbn [proxy_call]. rewrite P. split; [reflexivity|].
  destruct (carried_wire ws args (conj G Sf)) as (args' & E & S).
  rewrite (call_served ws ws' open' cut cut' tbl o index slot m args true Hi Hs Hm Hc Hc' args' G (safe_supported _ Sf) Sh E).
  - rewrite El. cbn. rewrite P. reflexivity.
  - intros o1 r1 E1. rewrite El in E1. injection E1 as <- <-. auto.
Qed.
End Proxy.

Lemma always_plain v : of_type (TyBool 0) v \/ of_type (TyStr 0) v \/ of_type (TyF64 0) v -> plain v = true.
Proof. intros [T|[T|T]]; inversion T; reflexivity. Qed.
Lemma never_plain v t : of_type (TyInt t IInt) v \/ of_type (TyUint t UInt) v \/ of_type (TyUint t UPtr) v \/ of_type (TyF32 t) v
  \/ (t <> 0 /\ exists k, of_type (TyInt t k) v \/ exists k', of_type (TyUint t k') v \/ of_type (TyBool t) v \/ of_type (TyStr t) v \/ of_type (TyF64 t) v) ->
  plain v = false.
Proof.
  intros [T|[T|[T|[T|(Ht & k & [T|(k' & [T|[T|[T|T]]])])]]]]; inversion T; subst; cbn [plain];
    try (replace (t =? 0) with false by lia; reflexivity); try reflexivity.
  - unfold narrow_s. destruct (t =? 0); [cbn [andb]|reflexivity]. repeat destruct (_ && _); reflexivity.
  - unfold narrow_u. destruct (t =? 0); [cbn [andb]|reflexivity]. repeat destruct (_ <? _); reflexivity.
  - unfold narrow_u. destruct (t =? 0); [cbn [andb]|reflexivity]. repeat destruct (_ <? _); reflexivity.
Qed.
Lemma sized_plain z n :
  (plain (VInt 0 I8 z) = true <-> -128 < z < 128) /\
  (plain (VInt 0 I16 z) = true <-> - 2 ^ 15 < z < 2 ^ 15 /\ ~ -128 < z < 128) /\
  (plain (VInt 0 I32 z) = true <-> - 2 ^ 31 < z < 2 ^ 31 /\ ~ - 2 ^ 15 < z < 2 ^ 15) /\
  (plain (VInt 0 I64 z) = true <-> ~ - 2 ^ 31 < z < 2 ^ 31) /\
  (plain (VUint 0 U8 n) = true <-> n < 2 ^ 8) /\
  (plain (VUint 0 U16 n) = true <-> 2 ^ 8 <= n < 2 ^ 16) /\
  (plain (VUint 0 U32 n) = true <-> 2 ^ 16 <= n < 2 ^ 32) /\
  (plain (VUint 0 U64 n) = true <-> 2 ^ 32 <= n).
Proof.
  cbn [plain Z.eqb andb]. unfold narrow_s, narrow_u.
  repeat split; intros;
    repeat match goal with
    | |- context[(?a <? z) && (z <? ?b)] => destruct (Z.ltb_spec a z), (Z.ltb_spec z b); cbn [andb] in *
    | |- context[n <? ?b] => destruct (Z.ltb_spec n b)
    | H : context[(?a <? z) && (z <? ?b)] |- _ => destruct (Z.ltb_spec a z), (Z.ltb_spec z b); cbn [andb] in *
    | H : context[n <? ?b] |- _ => destruct (Z.ltb_spec n b)
    end; cbn [ikind_eqb ukind_eqb] in *; try reflexivity; try discriminate; lia.
Qed.
