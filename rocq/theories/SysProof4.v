(* Requests that get through are answered. *)
From Verif Require Import Lts GoVal Tables DockModel DockSpec DockProof DockProof2 DockProof3 DockProof4 DockProof7 DockProof8 DockProof10 SysModel SysSpec SysProof SysProof2.
From Verif Require HubModel HubSpec.
From Coq Require Import Arith Bool List ZArith Lia.
Import ListNotations.
Open Scope nat_scope.

Lemma Forall2_in_l {A B} (R : A -> B -> Prop) a b x : Forall2 R a b -> In x a -> exists y, In y b /\ R x y.
Proof. induction 1; intros []; subst; cbn; eauto. destruct (IHForall2 H1) as (z & Z & R'). eauto. Qed.

Section Sys.
Context {V : Type}.
Variables (carried : nat -> list (name * bool)) (link : nat -> nat -> wend) (hublink : nat -> option (nat * nat)).
Variable carry : nat -> nat -> list V -> option (list V).
Variables (black : list Z) (raddr : nat -> name) (hostport : name -> Z -> name).
Hypothesis W : wired link hublink.
Notation step := (sstep link hublink carry black raddr hostport).
Notation sys := (SysModel.sys V).
Notation ok := (ok carried link hublink carry black raddr hostport).

Lemma dock_moves (s : sys) i l ps s' : dock_step link carry i l ps s = Some s' ->
  exists d es, dstep (sd s i) l = Some d /\ hist d = hist (sd s i) ++ es /\ sd s' = updp (sd s) i d /\ forall q, got_on q es = match l with LRecv p k => if p =? q then [k] else [] | _ => [] end.
Proof.
  unfold dock_step. destruct (dstep (sd s i) l) as [d|] eqn:E; [|discriminate]. intros [= <-].
  destruct (dstep_got _ _ _ E) as (es & He & G). exists d, es. repeat split; auto.
  destruct (post_docks link carry i ps (new_events (hist (sd s i)) (hist d)) (set_dock i d s)) as [-> _]. reflexivity.
Qed.
Lemma hub_stays (s : sys) l s' : hub_step hublink black raddr hostport l s = Some s' -> sd s' = sd s.
Proof.
  unfold hub_step. destruct (HubModel.hstep black raddr (sh s) l) as [h|] eqn:E; [|discriminate]. intros [= <-].
  match goal with |- context[fold_left _ ?es ?x] => destruct (hub_posts_rest hublink hostport es x) as (-> & _) end. reflexivity.
Qed.
(* a step of the system as seen by dock i *)
Lemma moves (s : sys) l s' i : step s l = Some s' -> exists es, hist (sd s' i) = hist (sd s i) ++ es /\
  forall p k, In k (got_on p es) -> l = SDeliver i p /\ (exists r, wire s i p = k :: r).
Proof.
  assert (Z : forall d : dock V, exists es, hist d = hist d ++ es /\ forall p k, In k (got_on p es) -> l = SDeliver i p /\ exists r, wire s i p = k :: r)
    by (intros d; exists []; rewrite app_nil_r; split; auto; intros ? ? []).
  intros H. destruct l; cbn [sstep] in H.
  - assert (X : dock_step link carry i0 l ps s = Some s' /\ match l with LRecv _ _ => False | _ => True end) by (destruct l; try discriminate; auto).
    destruct X as [X N]. destruct (dock_moves _ _ _ _ _ X) as (d & es & _ & He & -> & G). unfold updp. destruct (Nat.eqb_spec i i0) as [->|]; [|apply Z].
    exists es. split; auto. intros p k. rewrite G. destruct l; try (intros []). destruct N.
  - destruct (wire s i0 p) as [|k r] eqn:Ew; [discriminate|]. destruct (dock_moves _ _ _ _ _ H) as (d & es & _ & He & -> & G). cbn in *.
    unfold updp. destruct (Nat.eqb_spec i i0) as [->|]; [|apply Z].
    exists es. split; auto. intros p1 k1. rewrite G. destruct (Nat.eqb_spec p p1) as [<-|]; [|intros []]. intros [<-|[]]. eauto.
  - injection H as <-. apply Z.
  - assert (X : hub_step hublink black raddr hostport l s = Some s') by (destruct l; try discriminate; auto). rewrite (hub_stays _ _ _ X). apply Z.
  - destruct (hwire s h) as [|k r]; [discriminate|]. rewrite (hub_stays _ _ _ H). apply Z.
  - injection H as <-. apply Z.
Qed.

(* when a packet is received it is on the wire, and the dock's history is what comes before it *)
Lemma received ls s i a p k b : exec step (sinit carried) ls = Some s -> hist (sd s i) = a ++ ERecv p k :: b ->
  exists ls1 ls2 s1 r, ls = ls1 ++ ls2 /\ exec step (sinit carried) ls1 = Some s1 /\ wire s1 i p = k :: r /\ exists es, a = hist (sd s1 i) ++ es.
Proof.
  intros E H. destruct (origin step (fun s : sys => hist (sd s i))) with (ls := ls) (s := sinit carried : sys) (s' := s) (a := a) (e := ERecv p k) (b := b)
    as (ls1 & l & ls2 & s1 & s2 & es1 & es2 & -> & E1 & Es & _ & F & G); auto.
  - intros x l x' Hx. destruct (moves _ _ _ i Hx) as (es & He & _). eauto.
  - cbn. lia.
  - destruct (moves _ _ _ i Es) as (es & He & M). rewrite He in G. apply app_inv_head in G. subst es.
    destruct (M p k) as [_ [r Hr]].
    { unfold got_on. rewrite flat_map_app. apply in_or_app. right. cbn. rewrite Nat.eqb_refl. now left. }
    exists ls1, (l :: ls2), s1, r. repeat split; auto. exists es1. auto.
Qed.

Lemma accepted_in fs (h : list (event V)) p q : ~ cleared h -> In (ERecv p (KRequest q)) h -> In (q_slot q) fs -> In (p, q) (accepted fs h).
Proof.
  intros C H F. assert (Ef : existsb (zlist_eqb (q_slot q)) fs = true).
  { apply existsb_exists. exists (q_slot q). split; auto. destruct (zlist_eqb_spec (q_slot q) (q_slot q)); congruence. }
  induction h as [|e h IH]; cbn; [destruct H|]. assert (C' : ~ cleared h) by (intros X; apply C; right; exact X).
  destruct H as [->|H]; [rewrite Ef; now left|]. specialize (IH C' H). destruct e; auto.
  - destruct k; auto. destruct (existsb (zlist_eqb (q_slot q0)) fs); [now right|auto].
  - exfalso. apply C. now left.
Qed.

Lemma committed_returns ls s i c p j p' : exec step (sinit carried) ls = Some s -> lossless ls ->
  (forall l, carry i j l <> None) -> (forall l, carry j i l <> None) -> NoDup (map q_index (requests (hist (sd s i)))) ->
  In (ECommit c p true) (hist (sd s i)) -> link i p = ToDock j p' -> ~ cleared (hist (sd s j)) ->
  state (sd s i) = Alive -> state (sd s j) = Alive -> wire s j p' = [] -> wire s i p = [] ->
  (forall k res err, dstep (sd s j) (SExec k res err) = None) -> (forall k acc, dstep (sd s j) (SSend k acc) = None) ->
  (forall b, dstep (sd s i) (BStep b) = None) -> (forall acc, dstep (sd s i) (CStep c acc) = None) ->
  (forall q k, ~ In (ESend q k false) (hist (sd s j))) -> returns c (hist (sd s i)) <> [].
Proof.
  intros H Ll C1 C2 N Hc Lk Cl Ai Aj W1 W2 Q1 Q2 Q3 Q4 Nd.
  pose proof (reach_ok _ _ _ _ _ _ _ W _ _ H) as O.
  destruct (docks_run _ _ _ _ _ _ _ _ O i) as [li Li]. destruct (docks_run _ _ _ _ _ _ _ _ O j) as [lj Lj].
  (* the request arrives *)
  destruct (in_split _ _ Hc) as (a & b & Ea). destruct (commit_spec _ _ _ _ _ _ _ _ Li Ea) as (q & b' & Nq & -> & _).
  assert (Hs : In (ESend p (KRequest q) true) (hist (sd s i))) by (rewrite Ea; apply in_or_app; right; right; now left).
  assert (Lk' := Lk). apply W in Lk'.
  pose proof (complete _ _ _ _ _ _ _ W _ _ _ _ _ _ H Ll Lk' C1) as F. rewrite W1, app_nil_r in F.
  apply sent_in in Hs. destruct (Forall2_in_l _ _ _ _ F Hs) as (k & Hk & A). apply got_in in Hk.
  inversion A; subst; [|other].
  (* it is served *)
  destruct (request_source _ _ _ _ _ _ _ W _ _ _ _ O Hk) as (i' & p1 & c' & q0 & E1 & E2 & _ & _ & _ & A2 & sl & Hsl & Hin).
  inversion A2; subst; [|other]. cbn in Hin.
  assert (Cr : carries (carried j) s0 true).
  { destruct (in_split _ _ Hsl) as (y & z & Ez). destruct (announce_event _ _ _ _ _ _ sl _ _ Lj Ez (or_introl eq_refl)) as [An1 An2].
    apply An1; auto. intros X. apply An2 in X as ->. destruct Hin. }
  assert (Acc : In (p', mkReq i0 s0 m a' w) (accepted (map fst (carried j)) (hist (sd s j)))).
  { apply accepted_in; auto. cbn. destruct Cr as (x & y & -> & _). rewrite map_app. apply in_or_app. right. now left. }
  apply In_nth_error in Acc as [k Acc].
  assert (Lt : k < length (accepted (map fst (carried j)) (hist (sd s j)))) by (apply nth_error_Some; congruence).
  assert (Rp : replies k (hist (sd s j)) <> 0).
  { intros R. destruct (reply_progress _ _ _ _ Lj Aj Lt R) as [[_ X]|(res & err & _ & X)].
    - destruct (X [] None) as [d' X']. rewrite Q1 in X'. discriminate.
    - destruct (X true) as [d' X']. rewrite Q2 in X'. discriminate. }
  (* the answer arrives *)
  assert (exists acc, In (EReplied k acc) (hist (sd s j))) as [acc Hr].
  { clear - Rp. unfold replies in Rp. destruct (filter _ _) as [|e l] eqn:E; [destruct Rp; reflexivity|].
    assert (X : In e (e :: l)) by now left. rewrite <- E in X. apply filter_In in X as [X Y]. destruct e; try discriminate.
    apply Nat.eqb_eq in Y. subst. eauto. }
  destruct (in_split _ _ Hr) as (u & v & Ej).
  destruct (reply_spec _ _ _ _ _ _ _ Lj Ej) as (p2 & q2 & res & err & r2 & b2 & Acc2 & _ & -> & Ans).
  assert (Acc3 : nth_error (accepted (map fst (carried j)) (hist (sd s j))) k = Some (p2, q2)).
  { rewrite Ej, accepted_app. rewrite nth_error_app1; auto. apply nth_error_Some. congruence. }
  rewrite Acc in Acc3. injection Acc3 as <- <-.
  destruct acc; [|exfalso; apply (Nd p' (KResponse r2)); rewrite Ej; apply in_or_app; right; right; now left].
  assert (Hs2 : In (ESend p' (KResponse r2) true) (hist (sd s j))) by (rewrite Ej; apply in_or_app; right; right; now left).
  pose proof (complete _ _ _ _ _ _ _ W _ _ _ _ _ _ H Ll Lk C2) as F2. rewrite W2, app_nil_r in F2.
  apply sent_in in Hs2. destruct (Forall2_in_l _ _ _ _ F2 Hs2) as (k2 & Hk2 & A3). apply got_in in Hk2.
  inversion A3; subst; [|other]. destruct Ans as (I1 & _). cbn in I1. subst.
  (* and the call returns *)
  destruct (in_split _ _ Hk2) as (x & y & Ex).
  destruct (received _ _ _ _ _ _ _ H Ex) as (ls1 & ls2 & s1' & rr & -> & E3 & Wr & es & ->).
  assert (O1 := reach_ok _ _ _ _ _ _ _ W _ _ E3).
  assert (Fl : In (KResponse (mkResp i0 s1 m0 r' e)) (flow s1' i p)) by (apply in_or_app; right; rewrite Wr; now left).
  pose proof (came_flow _ _ _ _ _ _ _ _ _ _ _ O1 Fl) as C. rewrite Lk in C. destruct C as (k0 & Hs3 & A4).
  assert (exists r0, k0 = KResponse r0 /\ p_index r0 = i0) as (r0 & -> & Ir0) by (inversion A4; subst; eauto).
  destruct (docks_run _ _ _ _ _ _ _ _ O1 j) as [lj1 Lj1]. destruct (in_split _ _ Hs3) as (u1 & v1 & Ej1).
  destruct (response_event _ _ _ _ _ _ _ _ Lj1 Ej1) as (u2 & k3 & ->).
  assert (Ej2 : hist (sd s1' j) = u2 ++ EReplied k3 true :: ESend p' (KResponse r0) true :: v1) by (rewrite Ej1, <- app_assoc; reflexivity).
  destruct (reply_spec _ _ _ _ _ _ _ Lj1 Ej2) as (p3 & q3 & res3 & err3 & r3 & b3 & Acc4 & _ & Eb & Ans3). injection Eb as <- <- _.
  assert (Rq : In (ERecv p' (KRequest q3)) (hist (sd s1' j))).
  { rewrite Ej2. apply in_or_app. left. eapply accepted_recv, nth_error_In, Acc4. }
  destruct (request_source _ _ _ _ _ _ _ W _ _ _ _ O1 Rq) as (i4 & p4 & c4 & q4 & _ & E4 & N4 & _ & _ & A5 & _).
  rewrite Lk' in E4. injection E4 as <- <-. destruct Ans3 as (I3 & _).
  assert (I4 : q_index q4 = i0). { inversion A5; subst; [|other]. cbn in *. congruence. }
  assert (N4' : In (ENew c4 q4) (hist (sd s i))) by (rewrite Ex; apply in_or_app; left; apply in_or_app; now left).
  assert (Nq' : In (ENew c (mkReq i0 s0 m a0 w)) (hist (sd s i))) by (rewrite Ea; apply in_or_app; now left).
  destruct (call_unique _ _ _ _ _ _ _ Li N N4' Nq') as [-> ->]; [cbn; congruence|].
  eapply (answered_returns _ _ _ _ _ _ _ c _ Li Ai N Ex); eauto. apply in_or_app; now left.
Qed.
End Sys.
