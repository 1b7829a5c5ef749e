(* C72: the bytes carry the packets. *)
From Verif Require Import Lts GoInt GoVal Tables CodecSpec ProtoModel ProtoSpec ProtoProof RecvProof CallProof SysCodec DockModel DockSpec DockProof SysModel SysSpec SysProof ByteModel ByteSpec.
From Verif Require CallSpec HubModel.
From Coq Require Import Arith Bool List ZArith Lia.
Import ListNotations.
Open Scope nat_scope.

Lemma end_eqb_spec a b : reflect (a = b) (end_eqb a b).
Proof.
  destruct a as [i p|h], b as [j q|g]; cbn; try (constructor; discriminate).
  - destruct (Nat.eqb_spec i j), (Nat.eqb_spec p q); cbn; constructor; congruence.
  - destruct (Nat.eqb_spec h g); constructor; congruence.
Qed.
Lemma upde_same {A} (f : endp -> A) e x : upde f e x e = x.
Proof. unfold upde. destruct (end_eqb_spec e e); congruence. Qed.
Lemma upde_other {A} (f : endp -> A) e x a : a <> e -> upde f e x a = f a.
Proof. unfold upde. destruct (end_eqb_spec a e); congruence. Qed.

(* ---- one frame ---- *)
Definition fine (w w' : wsize) (p : proto) : Prop := typed w p = true /\ fits w' p = true /\ CallSpec.short w w' p.
Definition framed (w w' : wsize) (p : proto) (f : bytes) : Prop := fine w w' p /\ marshal w (pack p) = SOk f.
(* what the receiver makes of a message *)
Definition image (p : proto) : option proto :=
  match p with
  | PRpcRequest i s m a w => option_map (fun a => PRpcRequest i s m a w) (through a)
  | PRpcResponse i s m a e => option_map (fun a => PRpcResponse i s m a e) (through a)
  | _ => Some p
  end.
Lemma framed_spec w w' p f : framed w w' p f ->
  (forall t, slice w' (f ++ t) = Z.of_nat (length f)) /\ f <> [] /\ (forall a b, f = a ++ b -> b <> [] -> slice w' a = 0%Z) /\
  match image p with Some p' => unmarshal w' f = SOk (pack p') | None => forall x, unmarshal w' f <> SOk x end.
Proof.
  intros ((T & F & S) & M). pose proof (S _ M) as L. destruct (marshal_shape w _ _ M) as [body ->].
  split; [intros t; apply slice_frame; exact L|]. split; [rewrite frame_header; discriminate|].
  split; [intros a b E Nb; eapply slice_prefix; eauto|].
  assert (G : proto_ok w p = true -> (match p with PRpcRequest _ _ _ _ _ | PRpcResponse _ _ _ _ _ => False | _ => True end) -> unmarshal w' (frame_of body) = SOk (pack p)).
  { intros Ok Nr. destruct (packet_roundtrip w w' p Ok F) as (f' & E & U). rewrite M in E. injection E as <-.
    destruct (U L) as (p' & E & Sm). rewrite E. inversion Sm; subst; try destruct Nr. reflexivity. }
  destruct p as [e| |l|l|n|q|q|i s m a r|i s m a e]; cbn [image]; try (apply G; [exact T|exact I]).
  - cbn in T. apply andb_true_iff in T as [T Ga]. apply andb_true_iff in T as [T Hm]. apply andb_true_iff in T as [Hi Hs]. apply in_sb_iff in Hi.
    unfold through. destruct (supported (VArr ASliceIface a)) eqn:Sp.
    + destruct (rpc_packet w w' true i s m a r [] Hi Hs Hm eq_refl Ga Sp) as (b' & E & U). cbn [rpc] in E. rewrite M in E.
      assert (E' : frame_of body = frame_of b') by congruence. rewrite <- E' in U. specialize (U L). rewrite U. destruct (opt_map CodecSpec.wire a); cbn; [reflexivity|discriminate].
    + exfalso. exact (rpc_unsupported w true i s m a r [] Hi Hs Hm eq_refl Sp _ M).
  - cbn in T. apply andb_true_iff in T as [T He]. apply andb_true_iff in T as [T Ga]. apply andb_true_iff in T as [T Hm]. apply andb_true_iff in T as [Hi Hs]. apply in_sb_iff in Hi.
    unfold through. destruct (supported (VArr ASliceIface a)) eqn:Sp.
    + destruct (rpc_packet w w' false i s m a false e Hi Hs Hm He Ga Sp) as (b' & E & U). cbn [rpc] in E. rewrite M in E.
      assert (E' : frame_of body = frame_of b') by congruence. rewrite <- E' in U. specialize (U L). rewrite U. destruct (opt_map CodecSpec.wire a); cbn; [reflexivity|discriminate].
    + exfalso. exact (rpc_unsupported w false i s m a false e Hi Hs Hm He Sp _ M).
Qed.

(* ---- one direction: the messages on their way ---- *)
Definition held (o : half) : list proto := match holding o with Some p => p :: queue o | None => queue o end.
Definition chan (w w' : wsize) (o : half) (x : inbox) (K : list proto) : Prop :=
  exists Kw Kq frames part, K = Kw ++ Kq /\ Forall2 (framed w w') Kw frames /\ concat frames = (buffer x ++ flight o) ++ part /\
    Forall (fine w w') Kq /\ (ended o = false -> part = [] /\ Kq = held o) /\ (ended o = true -> holding o = None).

Lemma chan_init w w' : chan w w' (mkHalf [] None false []) (mkInbox [] true) [].
Proof. exists [], [], [], []. repeat split; auto; try constructor; try discriminate. Qed.
Ltac six := refine (conj _ (conj _ (conj _ (conj _ (conj _ _))))).
Lemma chan_push w w' o x K p : chan w w' o x K -> fine w w' p -> chan w w' (mkHalf (queue o ++ [p]) (holding o) (ended o) (flight o)) x (K ++ [p]).
Proof.
  intros (Kw & Kq & fr & pt & -> & F & C & G & E & H) Fp. exists Kw, (Kq ++ [p]), fr, pt. cbn. rewrite <- app_assoc. six; auto.
  - apply Forall_app; auto.
  - intros X. destruct (E X) as [-> ->]. split; auto. unfold held. cbn. destruct (holding o); reflexivity.
Qed.
Lemma chan_pop w w' o x K p q : chan w w' o x K -> ended o = false -> holding o = None -> queue o = p :: q -> chan w w' (mkHalf q (Some p) false (flight o)) x K.
Proof.
  intros (Kw & Kq & fr & pt & -> & F & C & G & E & H) En Hn Q. exists Kw, Kq, fr, pt. cbn. six; auto; try discriminate.
  intros _. destruct (E En) as [-> ->]. split; auto. unfold held. cbn. now rewrite Hn.
Qed.
Lemma chan_write w w' o x K p f : chan w w' o x K -> holding o = Some p -> marshal w (pack p) = SOk f -> chan w w' (mkHalf (queue o) None (ended o) (flight o ++ f)) x K.
Proof.
  intros (Kw & Kq & fr & pt & -> & F & C & G & E & H) Hp M. destruct (ended o) eqn:En; [rewrite H in Hp by reflexivity; discriminate|].
  destruct (E eq_refl) as [-> ->]. unfold held in *. rewrite Hp in *. inversion G; subst.
  exists (Kw ++ [p]), (queue o), (fr ++ [f]), []. cbn. rewrite <- app_assoc. six; auto; try discriminate.
  - apply Forall2_app; auto. constructor; [|constructor]. split; auto.
  - rewrite concat_app, C. cbn. now rewrite !app_nil_r, !app_assoc.
Qed.
Lemma chan_fail w w' o x K p f n : chan w w' o x K -> holding o = Some p -> marshal w (pack p) = SOk f -> chan w w' (mkHalf (queue o) None true (flight o ++ firstn n f)) x K.
Proof.
  intros (Kw & Kq & fr & pt & -> & F & C & G & E & H) Hp M. destruct (ended o) eqn:En; [rewrite H in Hp by reflexivity; discriminate|].
  destruct (E eq_refl) as [-> ->]. unfold held in *. rewrite Hp in *. inversion G; subst.
  exists (Kw ++ [p]), (queue o), (fr ++ [f]), (skipn n f). cbn. rewrite <- app_assoc. six; auto; try discriminate.
  - apply Forall2_app; auto. constructor; [|constructor]. split; auto.
  - rewrite concat_app, C. cbn. rewrite !app_nil_r, <- !app_assoc. now rewrite firstn_skipn.
Qed.
Lemma chan_end w w' o x K : chan w w' o x K -> holding o = None -> chan w w' (mkHalf (queue o) None true (flight o)) x K.
Proof. intros (Kw & Kq & fr & pt & -> & F & C & G & E & H) Hn. exists Kw, Kq, fr, pt. cbn. six; auto; discriminate. Qed.
Lemma chan_read w w' o x K n r : chan w w' o x K -> chan w w' (mkHalf (queue o) (holding o) (ended o) (skipn n (flight o))) (mkInbox (buffer x ++ firstn n (flight o)) r) K.
Proof.
  intros (Kw & Kq & fr & pt & -> & F & C & G & E & H). exists Kw, Kq, fr, pt. cbn. six; auto.
  rewrite C, <- !app_assoc. f_equal. now rewrite app_assoc, firstn_skipn.
Qed.
Lemma chan_inbox w w' o x x' K : chan w w' o x K -> buffer x' = buffer x -> chan w w' o x' K.
Proof. intros (Kw & Kq & fr & pt & A & F & C & R) E. exists Kw, Kq, fr, pt. rewrite E. auto. Qed.
(* a complete message in the buffer is the first one on its way *)
Lemma chan_take w w' o x K : chan w w' o x K -> (0 < slice w' (buffer x))%Z ->
  exists p K' f, K = p :: K' /\ framed w w' p f /\ firstn (Z.to_nat (slice w' (buffer x))) (buffer x) = f /\
    forall r, chan w w' o (mkInbox (skipn (Z.to_nat (slice w' (buffer x))) (buffer x)) r) K'.
Proof.
  intros (Kw & Kq & fr & pt & -> & F & C & G & E & H) S. inversion F as [|p f Kw' fr' Fp F']; subst.
  - cbn in C. symmetry in C. apply app_eq_nil in C as [C _]. apply app_eq_nil in C as [C _]. rewrite C in S. cbn in S. lia.
  - destruct (framed_spec _ _ _ _ Fp) as (Sf & Nf & Sp & _). cbn [concat] in C. rewrite <- app_assoc in C.
    destruct (Nat.le_gt_cases (length f) (length (buffer x))) as [Le|Gt].
    + assert (B : buffer x = f ++ skipn (length f) (buffer x)).
      { assert (X : firstn (length f) (f ++ concat fr') = firstn (length f) (buffer x ++ flight o ++ pt)) by now rewrite C.
        rewrite !firstn_app, Nat.sub_diag, firstn_O, app_nil_r, firstn_all in X. replace (length f - length (buffer x)) with 0 in X by lia.
        rewrite firstn_O, app_nil_r in X. rewrite <- (firstn_skipn (length f) (buffer x)) at 1. now rewrite <- X. }
      set (t := skipn (length f) (buffer x)) in *. assert (Sl : slice w' (buffer x) = Z.of_nat (length f)) by (rewrite B; apply Sf).
      rewrite Sl, Nat2Z.id. exists p, (Kw' ++ Kq), f. split; [reflexivity|]. split; [exact Fp|].
      split; [rewrite B, firstn_app, Nat.sub_diag, firstn_O, app_nil_r, firstn_all; reflexivity|].
      intros r. exists Kw', Kq, fr', pt. cbn [buffer]. fold t. six; auto.
      rewrite B, <- !app_assoc in C. apply app_inv_head in C. now rewrite <- !app_assoc.
    + exfalso. assert (X : f = buffer x ++ skipn (length (buffer x)) f).
      { assert (X : firstn (length (buffer x)) (f ++ concat fr') = firstn (length (buffer x)) (buffer x ++ flight o ++ pt)) by now rewrite C.
        rewrite !firstn_app, Nat.sub_diag, firstn_O, app_nil_r, firstn_all in X. replace (length (buffer x) - length f) with 0 in X by lia.
        rewrite firstn_O, app_nil_r in X. rewrite <- (firstn_skipn (length (buffer x)) f) at 1. now rewrite X. }
      rewrite (Sp _ _ X) in S; [lia|]. intros Y. apply (f_equal (@length Z)) in Y. rewrite skipn_length in Y. cbn in Y. lia.
Qed.
Lemma chan_quiet w w' o x K : chan w w' o x K -> queue o = [] -> holding o = None -> ended o = false -> flight o = [] -> (slice w' (buffer x) <= 0)%Z -> K = [].
Proof.
  intros (Kw & Kq & fr & pt & -> & F & C & G & E & H) Q Hn En Fl S. destruct (E En) as [-> ->]. unfold held. rewrite Hn, Q. rewrite Fl, !app_nil_r in *.
  inversion F as [|p f Kw' fr' Fp F']; subst; [reflexivity|]. destruct (framed_spec _ _ _ _ Fp) as (Sf & Nf & _). cbn [concat] in C. rewrite <- C, Sf in S.
  destruct f; [congruence|cbn in S; lia].
Qed.
