(* The codec and the framing as a carrier of values between docks (C52). *)
From Verif Require Import GoInt GoFloat GoVal CodecModel CodecSpec ProtoModel ProtoSpec PeerRecvModel CallModel CallSpec CallProof.
From Verif Require Import Lts DockModel DockSpec SysModel SysSpec SysProof2.
From Coq Require Import List ZArith.
Import ListNotations.

(* What a list of values is after the wire; None: it does not get through. *)
Definition through (l : list gval) : option (list gval) := if supported (VArr ASliceIface l) then opt_map CodecSpec.wire l else None.

Lemma request_through ws ws' cut i s m args w : in_s 64 i -> str_ok s = true -> str_ok m = true -> whole cut ->
  go_value ws (VArr ASliceIface args) = true -> short ws ws' (PRpcRequest i s m args w) ->
  match through args with
  | Some a => transfer ws ws' cut idRpcRequest (PRpcRequest i s m args w) = Arrived (PRpcRequest i s m a w)
  | None => transfer ws ws' cut idRpcRequest (PRpcRequest i s m args w) = SenderDown \/ transfer ws ws' cut idRpcRequest (PRpcRequest i s m args w) = ReceiverDown
  end.
Proof.
  intros Hi Hs Hm Hc Hg Sh. unfold through. destruct (supported (VArr ASliceIface args)) eqn:E.
  - pose proof (transfer_rpc ws ws' cut true i s m args w [] Hi Hs Hm eq_refl Hg E Sh Hc) as T. cbn in T. destruct (opt_map CodecSpec.wire args); auto.
  - left. exact (transfer_unsupported ws ws' cut true i s m args w [] Hi Hs Hm eq_refl E).
Qed.
Lemma response_through ws ws' cut i s m res e : in_s 64 i -> str_ok s = true -> str_ok m = true -> str_ok e = true -> whole cut ->
  go_value ws (VArr ASliceIface res) = true -> short ws ws' (PRpcResponse i s m res e) ->
  match through res with
  | Some a => transfer ws ws' cut idRpcResponse (PRpcResponse i s m res e) = Arrived (PRpcResponse i s m a e)
  | None => transfer ws ws' cut idRpcResponse (PRpcResponse i s m res e) = SenderDown \/ transfer ws ws' cut idRpcResponse (PRpcResponse i s m res e) = ReceiverDown
  end.
Proof.
  intros Hi Hs Hm He Hc Hg Sh. unfold through. destruct (supported (VArr ASliceIface res)) eqn:E.
  - pose proof (transfer_rpc ws ws' cut false i s m res false e Hi Hs Hm He Hg E Sh Hc) as T. cbn in T. destruct (opt_map CodecSpec.wire res); auto.
  - left. exact (transfer_unsupported ws ws' cut false i s m res false e Hi Hs Hm He E).
Qed.
Lemma through_same ws l l' : CallSpec.carried ws l -> through l = Some l' -> Forall2 same_value l l'.
Proof.
  intros C. unfold through. destruct (supported _); [|discriminate]. destruct (carried_wire ws l C) as (x & -> & S). now intros [= <-].
Qed.

Lemma returned_values carried link hublink black raddr hostport :
  wired link hublink -> forall ls s i c x, exec (sstep link hublink (fun _ _ => through) black raddr hostport) (sinit carried) ls = Some s ->
  NoDup (map q_index (requests (hist (sd s i)))) -> In (EReturn c x) (hist (sd s i)) ->
  exists q j k args res err, In (ENew c q) (hist (sd s i)) /\ carries (carried j) (q_slot q) true /\
    served carried link s i j k (mkReq (q_index q) (q_slot q) (q_method q) args (q_withres q)) /\ runs k (hist (sd s j)) = [(res, err)] /\
    r_err x = error_seen err /\
    (forall ws, CallSpec.carried ws (q_args q) -> Forall2 CodecSpec.same_value (q_args q) args) /\
    (forall ws, CallSpec.carried ws (if q_withres q then res else []) -> Forall2 CodecSpec.same_value (if q_withres q then res else []) (r_result x)).
Proof.
  intros W ls s i c x H N R. destruct (remote_call_spec _ _ _ _ _ _ _ W _ _ _ _ _ H N R) as (q & j & k & Nq & (Cr & args & res & err & A & S & Rn & B & E) & _).
  exists q, j, k, args, res, err. repeat split; auto; intros ws C; eapply through_same; eauto.
Qed.
