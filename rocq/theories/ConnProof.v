(* Lemmas for a connection. *)
From Verif Require Import Lts GoInt GoVal CodecModel ProtoModel ProtoSpec PeerSendModel PeerSendSpec PeerSendProof PeerRecvModel RecvProof ConnModel ConnSpec.
From Coq Require Import Arith Bool.
Open Scope nat_scope.

Ltac pcases' H := apply pstep_inv in H as
  [(t0 & x0 & Hl & Hf & Hq & ->)|[(t0 & x0 & Hl & Hf & Hq & ->)|[(t0 & x0 & Hl & Hf & Hq & ->)|[(x0 & q0 & Hl & Hr & Hq & ->)|
   [(p0 & Hl & Hr & Ho & ->)|[(p0 & Hl & Hr & ->)|(Hl & ->)]]]]]]; try discriminate Hl.

Section Conn.
Local Hint Rewrite (@written_app packer) (@failed_app packer) (@pushed_app packer) (@popped_app packer) : evs.
Variables ws ws' : wsize.
Notation nstep := (nstep ws ws').

Definition fine (x : packer) : Prop := exists p f, x = pack p /\ sent ws ws' p f.
Definition fineo (x : option packer) : Prop := match x with Some p => fine p | None => True end.

(* the packets the sender has in hand are fine, and what it wrote has its frame on the wire *)
Record good (s : conn) : Prop := mkGood {
  g_peer : exists pls, exec pstep new_peer pls = Some (sender s);
  g_down : down s = false;
  g_queue : Forall fineo (queue (sender s));
  g_pend : Forall (fun u => fineo (snd u)) (pending (sender s));
  g_hold : forall p, routine (sender s) = WHolding p -> fine p;
  g_bytes : exists ps frames chunks part, written (log (sender s)) ++ failed (log (sender s)) = map pack ps /\ Forall2 (sent ws ws') ps frames /\
    got s = recv_all (ferry_serializer ws') chunks /\ concat frames = (concat chunks ++ flight s) ++ part /\ (failed (log (sender s)) = [] -> part = []) }.

Lemma good_new : good new_conn.
Proof.
  constructor; cbn; auto; try constructor.
  - exists []. reflexivity.
  - discriminate.
  - exists [], [], [], []. repeat split; constructor.
Qed.

(* a step of the sender that writes nothing *)
Lemma good_silent s l x e : good s -> pstep (sender s) l = Some x -> log x = log (sender s) ++ [e] ->
  (match e with EWrite _ | EFail _ => False | _ => True end) ->
  Forall fineo (queue x) -> Forall (fun u => fineo (snd u)) (pending x) -> (forall p, routine x = WHolding p -> fine p) ->
  good (mkConn x (down s) (flight s ++ []) (reading s) (got s)).
Proof.
  intros [[pls G1] G2 G3 G4 G5 G6] H L He Q1 Q2 Q3. constructor; cbn [sender down flight reading got]; auto.
  - exists (pls ++ [l]). rewrite exec_app, G1. cbn. rewrite H. reflexivity.
  - rewrite L. autorewrite with evs. destruct e; try contradiction; cbn; rewrite ?app_nil_r; exact G6.
Qed.

Lemma recv_snoc cs c : recv_chunk (ferry_serializer ws') c (recv_all (ferry_serializer ws') cs) = recv_all (ferry_serializer ws') (cs ++ [c]).
Proof. unfold recv_all. rewrite fold_left_app. reflexivity. Qed.

Lemma forall_del t (l : list (nat * option packer)) (P : nat * option packer -> Prop) : Forall P l -> Forall P (del_pending t l).
Proof. rewrite !Forall_forall. intros H x Hx. apply filter_In in Hx. now apply H. Qed.
Lemma find_in t (l : list (nat * option packer)) x : find_pending t l = Some x -> In (t, x) l.
Proof.
  induction l as [|[u y] l IH]; cbn; [discriminate|]. destruct (Nat.eqb_spec t u) as [->|]; [intros [= ->]; auto|auto].
Qed.
Lemma map_pack_app a b c : a ++ b = map pack c -> exists x y, a = map pack x /\ b = map pack y /\ c = x ++ y.
Proof. intros H. symmetry in H. apply map_eq_app in H as (x & y & -> & <- & <-). eauto. Qed.

Lemma good_step s l s' : good s -> (forall t x, l = NCheck t (Some x) -> fine x) -> nstep s l = Some s' -> good s'.
Proof.
  intros G F H. pose proof G as [[pls G1] G2 G3 G4 G5 G6].
  pose proof (ok_exec _ _ G1) as [O1 O2 O3 O4 O5 O6].
  unfold ConnModel.nstep in H. rewrite G2 in H.
  destruct l as [t x|t| | | |n|n|]; unfold marshalled, with_sender in H.
  - destruct (pstep (sender s) (LCheck t x)) as [p|] eqn:E; [|discriminate]. injection H as <-.
    pose proof E as E'. pcases' E'; try discriminate; (eapply good_silent; [exact G|exact E|reflexivity|exact I| | | ]); cbn [queue pending routine]; auto.
    apply Forall_app. split; auto. constructor; [|constructor]. cbn. destruct x0 as [y|]; cbn; auto.
    injection Hl as -> ->. eauto.
  - destruct (pstep (sender s) (LPush t)) as [p|] eqn:E; [|discriminate]. injection H as <-.
    pose proof E as E'. pcases' E'; try discriminate; (eapply good_silent; [exact G|exact E|reflexivity|exact I| | | ]); cbn [queue pending routine]; auto.
    + apply Forall_app. split; auto. constructor; [|constructor]. apply find_in in Hf. rewrite Forall_forall in G4. exact (G4 _ Hf).
    + apply forall_del. exact G4.
  - destruct (pstep (sender s) LConnClose) as [p|] eqn:E; [|discriminate]. injection H as <-.
    pose proof E as E'. pcases' E'; try discriminate; (eapply good_silent; [exact G|exact E|reflexivity|exact I| | | ]); cbn [queue pending routine]; auto.
  - destruct (pstep (sender s) LPop) as [p|] eqn:E; [|discriminate]. injection H as <-.
    pose proof E as E'. pcases' E'; try discriminate; (eapply good_silent; [exact G|exact E|reflexivity|exact I| | | ]); cbn [queue pending routine]; auto;
      rewrite Hq in G3; inversion G3; subst; auto. intros p. destruct x0; [|discriminate]. intros [= ->]. assumption.
  - destruct (routine (sender s)) as [|p|] eqn:Er; try discriminate. destruct (G5 p eq_refl) as (q & f & -> & Sf).
    pose proof Sf as (_ & _ & Mf & _). rewrite Mf in H.
    destruct (pstep (sender s) LWrite) as [x|] eqn:E; [|discriminate]. injection H as <-.
    pose proof E as E'. pcases' E'; try discriminate. rewrite Er in Hr. injection Hr as <-.
    constructor; cbn [sender down flight reading got queue pending routine log]; auto; [|discriminate|].
    + exists (pls ++ [LWrite]). rewrite exec_app, G1. cbn [exec]. rewrite E. reflexivity.
    + destruct G6 as (ps & frames & chunks & part & A & B & C & D & P0). destruct O3 as [_ O3]. rewrite O3 in * by congruence.
      rewrite P0 in D by reflexivity. rewrite !app_nil_r in *. autorewrite with evs. cbn. rewrite O3 by congruence. rewrite app_nil_r.
      exists (ps ++ [q]), (frames ++ [f]), chunks, []. repeat split; auto.
      * rewrite A, map_app. reflexivity.
      * apply Forall2_app; auto.
      * rewrite concat_app, D. cbn. rewrite !app_nil_r, app_assoc. reflexivity.
  - destruct (routine (sender s)) as [|p|] eqn:Er; try discriminate. destruct (G5 p eq_refl) as (q & f & -> & Sf).
    pose proof Sf as (_ & _ & Mf & _). rewrite Mf in H.
    destruct (pstep (sender s) LWriteFails) as [x|] eqn:E; [|discriminate]. injection H as <-.
    pose proof E as E'. pcases' E'; try discriminate. rewrite Er in Hr. injection Hr as <-.
    constructor; cbn [sender down flight reading got queue pending routine log]; auto; [|discriminate|].
    + exists (pls ++ [LWriteFails]). rewrite exec_app, G1. cbn [exec]. rewrite E. reflexivity.
    + destruct G6 as (ps & frames & chunks & part & A & B & C & D & P0). destruct O3 as [_ O3]. rewrite O3 in * by congruence.
      rewrite P0 in D by reflexivity. rewrite !app_nil_r in *. autorewrite with evs. cbn. rewrite O3 by congruence.
      exists (ps ++ [q]), (frames ++ [f]), chunks, (skipn n f). split; [rewrite A, app_nil_r, map_app; reflexivity|]. repeat split; auto.
      * apply Forall2_app; auto.
      * rewrite concat_app, D. cbn. rewrite app_nil_r, <- !app_assoc, firstn_skipn. reflexivity.
      * intros X. apply app_eq_nil in X. destruct X. discriminate.
  - destruct (_ && _ && _ && _) eqn:Ec; [|discriminate]. injection H as <-. constructor; cbn; eauto.
    destruct G6 as (ps & frames & chunks & part & A & B & C & D & P0). exists ps, frames, (chunks ++ [firstn n (flight s)]), part.
    repeat split; auto.
    + rewrite C. apply recv_snoc.
    + rewrite concat_app. cbn. rewrite app_nil_r. rewrite D, <- !app_assoc. f_equal. rewrite app_assoc, firstn_skipn. reflexivity.
  - injection H as <-. constructor; cbn; eauto.
Qed.

Lemma good_exec ls s : exec nstep new_conn ls = Some s -> legitimate ws ws' ls -> good s.
Proof.
  intros H L. assert (X : forall ls s0, good s0 -> legitimate ws ws' ls -> exec nstep s0 ls = Some s -> good s).
  { clear ls H L. induction ls as [|l ls IH]; intros s0 G L H; cbn in H; [injection H as <-; exact G|].
    destruct (nstep s0 l) as [s1|] eqn:E; [|discriminate]. eapply IH; [|intros t x K; apply (L t x); right; exact K|exact H].
    eapply good_step; [exact G| |exact E]. intros t x ->. apply (L t x). left. reflexivity. }
  exact (X ls _ good_new L H).
Qed.

Lemma forall2_packet l qs : Forall2 same_proto l qs -> Forall2 same_packet (map pack l) (map pack qs).
Proof. induction 1; constructor; auto. exists x, y. auto. Qed.

(* what arrives *)
Lemma arrives ls s : exec nstep new_conn ls = Some s -> legitimate ws ws' ls ->
  down s = false /\ crashed (got s) = false /\ exists a, prefix a (attempted s) /\ Forall2 same_packet a (delivered (got s)).
Proof.
  intros H L. destruct (good_exec _ _ H L) as [_ Gd _ _ _ (ps & frames & chunks & part & A & B & C & D & _)].
  rewrite <- app_assoc in D. destruct (reassembly ws ws' ps frames chunks _ B D) as (k & qs & pt & R & S & _).
  split; [exact Gd|]. rewrite C, R. cbn. split; [reflexivity|]. exists (map pack (firstn k ps)). split.
  - exists (map pack (skipn k ps)). unfold attempted. rewrite A, <- map_app, firstn_skipn. reflexivity.
  - now apply forall2_packet.
Qed.
(* what was tried is what was queued *)
Lemma attempted_prefix ls s : exec nstep new_conn ls = Some s -> legitimate ws ws' ls -> prefix (map Some (attempted s)) (pushed (log (sender s))).
Proof.
  intros H L. destruct (good_exec _ _ H L) as [[pls G] _ _ _ _ _]. pose proof (ok_exec _ _ G) as [O1 O2 [O3 O3'] _ _ _].
  unfold attempted, prefix. rewrite map_app, O1, O2, <- !app_assoc.
  destruct (routine (sender s)) eqn:E; [rewrite O3' by congruence|rewrite O3' by congruence|];
    [| |destruct (failed (log (sender s))) as [|p l] eqn:Ef]; eexists; rewrite <- ?app_assoc; cbn; reflexivity.
Qed.
Lemma queued_order ls s t : exec nstep new_conn ls = Some s -> legitimate ws ws' ls ->
  exists r, admitted_of t (log (sender s)) = pushed_of t (log (sender s)) ++ r /\ length r <= 1.
Proof. intros H L. destruct (good_exec _ _ H L) as [[pls G] _ _ _ _ _]. exact (sender_order _ _ t G). Qed.
Lemma dropped_full ls s a t x b : exec nstep new_conn ls = Some s -> legitimate ws ws' ls ->
  log (sender s) = a ++ EDrop t x :: b -> length (pushed a) = length (popped a) + 20.
Proof. intros H L. destruct (good_exec _ _ H L) as [[pls G] _ _ _ _ _]. intros E. exact (drop_only_full _ _ _ _ _ _ G E). Qed.

Lemma map_some {A} (l : list A) (m : list (option A)) : map Some l = m -> flat_map (fun x => match x with Some p => [p] | None => [] end) m = l.
Proof. intros <-. induction l; cbn; congruence. Qed.

(* everything arrives *)
Lemma all_arrive ls s : exec nstep new_conn ls = Some s -> legitimate ws ws' ls -> idle s ->
  Forall2 same_packet (packets (pushed (log (sender s)))) (delivered (got s)) /\ buffered (got s) = [] /\
  forall t, pushed_of t (log (sender s)) = admitted_of t (log (sender s)).
Proof.
  intros H L [Q F]. destruct (good_exec _ _ H L) as [[pls G] _ _ _ _ (ps & frames & chunks & part & A & B & C & D & P0)].
  pose proof (ok_exec _ _ G) as [_ _ [_ O3] _ _ _]. destruct (quiet_all _ _ G Q) as [W T]. destruct Q as (_ & _ & Q).
  rewrite O3 in * by congruence. rewrite P0, F, !app_nil_r in *; auto.
  destruct (reassembly ws ws' ps frames chunks [] B ltac:(rewrite app_nil_r; exact D)) as (k & qs & pt & R & S & Kl & Kc & K).
  assert (E : k = length ps /\ pt = []).
  { destruct K as [K|(f & q & N & E & Nq)]; [exact K|]. exfalso.
    assert (X : concat frames = concat (firstn k frames) ++ f ++ concat (skipn (Datatypes.S k) frames)).
    { clear -N. revert k N. induction frames as [|g l IH]; intros [|k] N; cbn in *; try discriminate; [injection N as ->; reflexivity|].
      rewrite (IH _ N), <- app_assoc. reflexivity. }
    rewrite D, Kc, E, <- !app_assoc in X. apply app_inv_head in X. rewrite <- (app_nil_r pt) in X at 1. apply app_inv_head in X.
    destruct q; [auto|discriminate]. }
  destruct E as [-> ->]. rewrite C, R. cbn. split; [|auto]. unfold packets. rewrite (map_some _ _ W), A. rewrite firstn_all in S. now apply forall2_packet.
Qed.

(* something can be done until everything has arrived *)
Lemma progress ls s : exec nstep new_conn ls = Some s -> legitimate ws ws' ls -> open (sender s) = true -> failed (log (sender s)) = [] -> reading s = true ->
  ~ In None (pushed (log (sender s))) ->
  idle s \/ exists l s', nstep s l = Some s' /\ inner l.
Proof.
  intros H L Op Fa Rd Nm. pose proof (good_exec _ _ H L) as G. destruct (arrives _ _ H L) as (_ & Cr & _).
  destruct G as [[pls G1] G2 G3 G4 G5 _]. pose proof (ok_exec _ _ G1) as [O1 O2 O3 O4 O5 O6].
  destruct (flight s) as [|b fl] eqn:Ef.
  2:{ right. exists (NRead 1). eexists. split; [|cbn; lia]. unfold ConnModel.nstep. rewrite Rd, Cr, Ef. cbn. reflexivity. }
  destruct (routine (sender s)) as [|p|] eqn:Er.
  - destruct (queue (sender s)) as [|x q] eqn:Eq.
    + destruct (pending (sender s)) as [|[t x] pn] eqn:Ep; [left; unfold idle, quiet; auto|].
      right. exists (NPush t). eexists. split; [|exact I]. unfold ConnModel.nstep. rewrite G2. unfold with_sender, pstep. rewrite Ep, Eq. cbn. rewrite Nat.eqb_refl. reflexivity.
    + right. exists NPop. eexists. split; [|exact I]. unfold ConnModel.nstep. rewrite G2. unfold with_sender, pstep. rewrite Er, Eq. reflexivity.
  - right. exists NWrite. destruct (G5 p eq_refl) as (q & f & -> & (_ & _ & M & _)). eexists. split; [|exact I].
    unfold ConnModel.nstep. rewrite G2. unfold marshalled, with_sender, pstep. rewrite Er, M, Op. reflexivity.
  - exfalso. rewrite Fa in O2. apply Nm. rewrite O1, O2. rewrite !in_app_iff. cbn. auto.
Qed.

Lemma delivers ls s : exec nstep new_conn ls = Some s -> legitimate ws ws' ls ->
  down s = false /\ crashed (got s) = false /\ exists k, Forall2 same_packet (firstn k (packets (pushed (log (sender s))))) (delivered (got s)).
Proof.
  intros H L. destruct (arrives _ _ H L) as (A & B & a & [r Ea] & F). split; [exact A|]. split; [exact B|]. exists (length a).
  destruct (attempted_prefix _ _ H L) as [q E]. unfold packets. rewrite E, flat_map_app. rewrite (map_some _ _ eq_refl), Ea, <- app_assoc, firstn_app, firstn_all, Nat.sub_diag.
  cbn. rewrite app_nil_r. exact F.
Qed.

(* steps left *)
Fixpoint total (l : list nat) : nat := match l with [] => 0 | x :: r => x + total r end.
Definition flen (p : packer) : nat := match marshal ws p with SOk f => length f | _ => 0 end.
Definition cost (x : option packer) : nat := match x with None => 1 | Some p => 2 + flen p end.
Definition measure (s : conn) : nat :=
  total (map (fun u => S (cost (snd u))) (pending (sender s))) + total (map cost (queue (sender s))) +
  match routine (sender s) with WHolding p => 1 + flen p | _ => 0 end + length (flight s).
Lemma sum_del t (l : list (nat * option packer)) x : find_pending t l = Some x ->
  total (map (fun u => S (cost (snd u))) (del_pending t l)) + S (cost x) <= total (map (fun u => S (cost (snd u))) l).
Proof.
  assert (Y : forall l, total (map (fun u => S (cost (snd u))) (del_pending t l)) <= total (map (fun u => S (cost (snd u))) l)).
  { induction l0 as [|[v z] l0 IH]; cbn; [lia|]. unfold del_pending in IH. destruct (t =? v); cbn; cbn in IH; lia. }
  induction l as [|[u y] l IH]; cbn; [discriminate|]. destruct (Nat.eqb_spec t u) as [->|].
  - intros [= ->]. specialize (Y l). unfold del_pending in *. cbn. lia.
  - intros E. specialize (IH E). unfold del_pending in *. cbn. lia.
Qed.
Lemma sum_app a b : total (a ++ b) = total a + total b.
Proof. induction a; cbn in *; lia. Qed.
Lemma measure_step s l s' : good s -> inner l -> nstep s l = Some s' -> measure s' < measure s.
Proof.
  intros G I H. destruct G as [_ G2 _ _ G5 _]. unfold ConnModel.nstep in H. rewrite G2 in H. unfold measure.
  destruct l as [t x|t| | | |n|n|]; cbn in I; try contradiction; unfold marshalled, with_sender in H.
  - destruct (pstep (sender s) (LPush t)) as [p|] eqn:E; [|discriminate]. injection H as <-. pcases' E. injection Hl as ->. cbn.
    rewrite map_app, sum_app, app_nil_r. pose proof (sum_del _ _ _ Hf). cbn. lia.
  - destruct (pstep (sender s) LPop) as [p|] eqn:E; [|discriminate]. injection H as <-. pcases' E. cbn. rewrite Hr, Hq, app_nil_r. cbn. destruct x0; cbn; lia.
  - destruct (routine (sender s)) as [|p|] eqn:Er; try discriminate. destruct (G5 p eq_refl) as (q & f & -> & (_ & _ & M & _)). rewrite M in H.
    destruct (pstep (sender s) LWrite) as [x|] eqn:E; [|discriminate]. injection H as <-. pcases' E. cbn. rewrite app_length. unfold flen. rewrite M. lia.
  - destruct (_ && _ && _ && _) eqn:Ec; [|discriminate]. injection H as <-. cbn. apply andb_true_iff in Ec as [_ Ec]. apply Nat.leb_le in Ec. rewrite skipn_length. lia.
Qed.
Lemma settles ls s : exec nstep new_conn ls = Some s -> legitimate ws ws' ls ->
  exists n, forall ls' s', exec nstep s ls' = Some s' -> Forall inner ls' -> length ls' <= n.
Proof.
  intros H L. pose proof (good_exec _ _ H L) as G. exists (measure s). intros ls'. clear H L ls. revert s G.
  induction ls' as [|l ls' IH]; intros s G s' H F; cbn in *; [lia|]. destruct (nstep s l) as [s1|] eqn:E; [|discriminate]. inversion F; subst.
  pose proof (measure_step _ _ _ G H2 E). assert (G' : good s1). { eapply good_step; [exact G| |exact E]. intros t x ->. cbn in H2. contradiction. }
  specialize (IH _ G' _ H H3). lia.
Qed.
End Conn.

Lemma read_error_ends ws ws' s ls s' : exec (nstep ws ws') s (NReadError :: ls) = Some s' -> got s' = got s.
Proof.
  cbn [exec nstep]. set (s1 := mkConn _ _ _ _ _). intros E.
  enough (reading s' = false /\ got s' = got s1) by (destruct H; assumption).
  refine (exec_inv (nstep ws ws') (fun x => reading x = false /\ got x = got s1) _ _ _ _ _ E); [|split; reflexivity].
  clear E. intros y l y' (R & G) E. unfold nstep, with_sender, marshalled in E. rewrite R in E. cbn [andb] in E.
  destruct l; try discriminate; try (destruct (down y); [discriminate|]).
  all: repeat match type of E with context [match ?x with _ => _ end] => destruct x; try discriminate end; injection E as <-; cbn; split; assumption || reflexivity.
Qed.
Lemma unencodable_ends ws ws' s p : down s = false -> routine (sender s) = WHolding p -> (forall f, marshal ws p <> SOk f) ->
  exists s1, nstep ws ws' s NWrite = Some s1 /\ down s1 = true /\
    forall ls s', exec (nstep ws ws') s1 ls = Some s' -> down s' = true /\ sender s' = sender s.
Proof.
  intros D R M. exists (mkConn (sender s) true (flight s) (reading s) (got s)). split; [|split; [reflexivity|]].
  - cbn. rewrite D. unfold marshalled. rewrite R. destruct (marshal ws p) as [f| | |] eqn:X; [destruct (M f eq_refl)|reflexivity..].
  - intros ls s' E. refine (exec_inv (nstep ws ws') (fun x => down x = true /\ sender x = sender s) _ _ _ _ _ E); [|split; reflexivity].
    clear E. intros y l y' (Dn & S) E. unfold nstep in E. rewrite Dn in E.
    destruct l; try discriminate; [match type of E with context [if ?b then _ else _] => destruct b; [|discriminate] end|]; injection E as <-; cbn; split; assumption || reflexivity.
Qed.
