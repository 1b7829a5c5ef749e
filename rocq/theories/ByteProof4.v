(* Down to the bytes: what the send queues hold. *)
From Verif Require Import Lts GoInt GoVal Tables ProtoModel ProtoSpec DockModel DockSpec DockProof DockProof2 SysModel SysProof SysProof SysProof4 ByteModel ByteSpec.
From Verif Require HubModel HubProof3 PeerSendModel.
From Coq Require Import Arith Bool List ZArith Lia.
Import ListNotations.
Open Scope nat_scope.

Definition qlen (b : bsys) (e : endp) : nat := length (queue (out b e)).
Definition bounded (b : bsys) : Prop := forall e, qlen b e <= 20.
(* from b to b' queues only grow, and one that some packet was lost at is full *)
Definition grows (b b' : bsys) : Prop := (bounded b -> bounded b') /\ (forall e, qlen b e <= qlen b' e) /\ (dropped b = false -> dropped b' = true -> exists e, 20 <= qlen b' e).
Lemma grows_refl b : grows b b.
Proof. repeat split; auto. congruence. Qed.
Lemma grows_trans a b c : grows a b -> grows b c -> grows a c.
Proof.
  intros (A1 & A2 & A3) (B1 & B2 & B3). split; [auto|]. split; [intros e; specialize (A2 e); specialize (B2 e); lia|].
  intros D1 D2. destruct (dropped b) eqn:Db; [|auto]. destruct (A3 D1 eq_refl) as [e E]. exists e. specialize (B2 e). lia.
Qed.
Lemma end_eqb_spec a b : reflect (a = b) (end_eqb a b).
Proof.
  destruct a as [i p|h], b as [j q|g]; cbn; try (constructor; discriminate).
  - destruct (Nat.eqb_spec i j), (Nat.eqb_spec p q); constructor; congruence.
  - destruct (Nat.eqb_spec h g); constructor; congruence.
Qed.
Lemma push_grows e p b : room e b = true -> grows b (push e p b).
Proof.
  unfold room. intros R. apply Nat.ltb_lt in R. change PeerSendModel.cSendChanSize with 20 in R. unfold grows, bounded, qlen. cbn. unfold upde. split; [|split; [|congruence]].
  - intros B a. destruct (end_eqb_spec a e) as [->|N]; [cbn; rewrite app_length; cbn; lia|apply B].
  - intros a. destruct (end_eqb_spec a e) as [->|N]; [cbn; rewrite app_length; lia|lia].
Qed.
Lemma full e b : room e b = false -> 20 <= qlen b e.
Proof. unfold room. intros R. apply Nat.ltb_ge in R. exact R. Qed.
Lemma send_grows e p b : grows b (send e p b).
Proof.
  unfold send. destruct (room e b) eqn:R; [now apply push_grows|]. apply full in R. split; [intros B a; apply B|]. split; [intros a; unfold qlen; cbn; lia|].
  intros _ _. exists e. exact R.
Qed.
Lemma sends_grow A (f : A -> endp) (g : A -> proto) : forall ps b, grows b (fold_left (fun b p => send (f p) (g p) b) ps b).
Proof. induction ps as [|p ps IH]; intros b; cbn; [apply grows_refl|]. eapply grows_trans; [apply send_grows|apply IH]. Qed.
Lemma docks_sent e p b : bd (send e p b) = bd b /\ bh (send e p b) = bh b.
Proof. unfold send. destruct (room e b); auto. Qed.
Lemma none_stays i ps : forall es, fold_left (dock_event i ps) es None = None.
Proof. induction es; auto. Qed.
Lemma dock_events_grow i ps : forall es b b', fold_left (dock_event i ps) es (Some b) = Some b' ->
  grows b b' /\ bd b' = bd b /\ forall p k, In (ESend p k false) es -> 20 <= qlen b' (DockEnd i p).
Proof.
  induction es as [|x es IH]; intros b b' E; cbn [fold_left] in E; [injection E as <-; split; [apply grows_refl|]; split; auto; intros p k []|].
  assert (D0 : forall c, grows b c -> bd c = bd b -> (forall p k, x = ESend p k false -> 20 <= qlen b (DockEnd i p)) -> fold_left (dock_event i ps) es (Some c) = Some b' ->
    grows b b' /\ bd b' = bd b /\ forall p k, In (ESend p k false) (x :: es) -> 20 <= qlen b' (DockEnd i p)).
  { intros c G Eb F E'. destruct (IH _ _ E') as (G' & Eb' & F'). split; [eapply grows_trans; eauto|]. split; [congruence|]. intros p k [X|X]; [|eauto].
    specialize (F _ _ X). destruct G as (_ & G & _). destruct G' as (_ & G' & _). specialize (G (DockEnd i p)). specialize (G' (DockEnd i p)). lia. }
  destruct x; cbn [dock_event] in E; try (apply (D0 b); [apply grows_refl|reflexivity|discriminate|exact E]).
  - destruct accepted; destruct (room (DockEnd i p) b) eqn:R; try (rewrite none_stays in E; discriminate).
    + apply (D0 _ (push_grows _ (proto_of k) _ R) eq_refl); [discriminate|exact E].
    + apply (D0 b (grows_refl _) eq_refl); [|exact E]. intros p0 k0 [= <- <-]. apply full, R.
  - apply (D0 _ (sends_grow nat (DockEnd i) (fun _ => PQueryRequest f) ps b)); [|discriminate|exact E].
    clear. revert b. induction ps as [|p ps IH]; intros b; cbn; [reflexivity|]. rewrite IH. apply docks_sent.
Qed.
Section Steps.
Variables (link : nat -> nat -> wend) (hublink : nat -> option (nat * nat)) (black : list Z) (raddr : nat -> name) (hostport : name -> Z -> name) (wsz : option nat -> wsize).
Lemma hub_events_grow : forall es b, grows b (fold_left (hub_event hostport) es b) /\ bd (fold_left (hub_event hostport) es b) = bd b.
Proof.
  induction es as [|x es IH]; intros b; cbn; [split; [apply grows_refl|reflexivity]|].
  assert (G : grows b (hub_event hostport b x) /\ bd (hub_event hostport b x) = bd b) by (destruct x; cbn; try (split; [apply grows_refl|reflexivity]); (split; [apply send_grows|apply docks_sent])).
  destruct G as [G D]. destruct (IH (hub_event hostport b x)) as [G' D']. split; [eapply grows_trans; eauto|congruence].
Qed.
(* [b0]: with the receive buffer or the stream already moved on *)
Definition same_queues (b b0 : bsys) : Prop := (forall e, qlen b0 e <= qlen b e) /\ dropped b0 = dropped b /\ bd b0 = bd b.
Definition result (b b' : bsys) : Prop :=
  (bounded b -> bounded b') /\ (dropped b = false -> dropped b' = true -> exists e, 20 <= qlen b' e) /\
  forall i es p k, hist (bd b' i) = hist (bd b i) ++ es -> In (ESend p k false) es -> 20 <= qlen b' (DockEnd i p).
Lemma same_result b b0 : same_queues b b0 -> result b b0.
Proof.
  intros (A & D & E). split; [intros B e; specialize (A e); specialize (B e); lia|]. split; [congruence|].
  intros i es p k H X. rewrite E in H. rewrite <- (app_nil_r (hist (bd b i))) in H at 1. apply app_inv_head in H. subst es. destruct X.
Qed.
Lemma events_of (d : dock gval) l d' : dstep d l = Some d' -> exists es, hist d' = hist d ++ es.
Proof. intros H. destruct (dstep_got _ _ _ H) as (es & E & _). eauto. Qed.
Lemma new_is {A} (h es : list A) : new_events h (h ++ es) = es.
Proof. unfold new_events. rewrite skipn_app, skipn_all, Nat.sub_diag. reflexivity. Qed.
Lemma dock_result i l ps b b0 b' : same_queues b b0 -> dock_does i l ps b0 = Some b' -> result b b'.
Proof.
  intros (A & D & E) H. unfold dock_does in H. destruct (dstep (bd b0 i) l) as [d|] eqn:Ed; [|discriminate]. destruct (events_of _ _ _ Ed) as (es & Es). rewrite Es, new_is in H.
  destruct (dock_events_grow _ _ _ _ _ H) as ((G1 & G2 & G3) & Eb & F). cbn in Eb. split.
  - intros B. apply G1. intros e. specialize (A e). specialize (B e). unfold qlen in *. cbn. lia.
  - split; [intros X Y; apply G3; auto; cbn; congruence|]. intros j es' p k Hh X. rewrite Eb in Hh. unfold updp in Hh. destruct (Nat.eqb_spec j i) as [->|N].
    + rewrite Es, E in Hh. apply app_inv_head in Hh. subst es'. eapply F; eauto.
    + rewrite E in Hh. rewrite <- (app_nil_r (hist (bd b j))) in Hh at 1. apply app_inv_head in Hh. subst es'. destruct X.
Qed.
Lemma hub_result l b b0 b' : same_queues b b0 -> hub_does black raddr hostport l b0 = Some b' -> result b b'.
Proof.
  intros (A & D & E) H. unfold hub_does in H. destruct (HubModel.hstep black raddr (bh b0) l) as [h|]; [|discriminate]. injection H as <-.
  destruct (hub_events_grow (new_events (HubModel.hist (bh b0)) (HubModel.hist h)) (with_hub h b0)) as ((G1 & G2 & G3) & Eb). split.
  - intros B. apply G1. intros e. specialize (A e). specialize (B e). unfold qlen in *. cbn. lia.
  - split; [intros X Y; apply G3; auto; cbn; congruence|]. intros i es p k Hh X. rewrite Eb in Hh. cbn in Hh. rewrite E in Hh.
    rewrite <- (app_nil_r (hist (bd b i))) in Hh at 1. apply app_inv_head in Hh. subst es. destruct X.
Qed.
Lemma out_same e o b : length (queue o) <= qlen b e -> same_queues b (with_out e o b).
Proof. intros L. split; [|split; reflexivity]. intros a. unfold qlen at 1. cbn. unfold upde. destruct (end_eqb_spec a e) as [->|N]; [exact L|unfold qlen; lia]. Qed.
Lemma refl_same b : same_queues b b.
Proof. split; [auto|split; reflexivity]. Qed.
Lemma lost_same o b : same_queues b (lose_process o b).
Proof. split; [auto|split; reflexivity]. Qed.
Lemma bstep_result b l b' : bstep link hublink black raddr hostport wsz b l = Some b' -> result b b'.
Proof.
  intros H. destruct l as [i l ps|l|e|e|e n|e|e n|e|e]; cbn [bstep] in H.
  - destruct l; try discriminate; (destruct (gone b (Some i)); [discriminate|]); (eapply dock_result; [apply refl_same|exact H]).
  - destruct l; try discriminate; (destruct (gone b None); [discriminate|]); (eapply hub_result; [apply refl_same|exact H]).
  - destruct (_ || _); [discriminate|]. destruct (holding (out b e)); [discriminate|]. destruct (queue (out b e)) as [|p q] eqn:Q; [discriminate|]. injection H as <-.
    apply same_result, out_same. unfold qlen. rewrite Q. cbn. lia.
  - destruct (gone b (proc e)); [discriminate|]. unfold marshalled in H. destruct (holding (out b e)); [|discriminate].
    destruct (marshal _ _); injection H as <-; apply same_result; [apply out_same; unfold qlen; cbn; lia|apply lost_same..].
  - destruct (gone b (proc e)); [discriminate|]. unfold marshalled in H. destruct (holding (out b e)); [|discriminate].
    destruct (marshal _ _); injection H as <-; apply same_result; [apply out_same; unfold qlen; cbn; lia|apply lost_same..].
  - destruct (holding (out b e)); [discriminate|]. injection H as <-. apply same_result, out_same. unfold qlen. cbn. lia.
  - destruct (other link hublink e) as [e'|]; [|discriminate]. cbv zeta in H. destruct (_ || _); [discriminate|]. injection H as <-. apply same_result.
    destruct (out_same e' (mkHalf (queue (out b e')) (holding (out b e')) (ended (out b e')) (skipn n (flight (out b e')))) b) as (A & _); [unfold qlen; cbn; lia|].
    split; [exact A|split; reflexivity].
  - cbv zeta in H. destruct (_ || _); [discriminate|].
    assert (S0 : forall x, same_queues b (with_inb e x b)) by (intros x; split; [intros a; unfold qlen; cbn; lia|split; reflexivity]).
    destruct (unmarshal _ _) as [m| | |]; [|injection H as <-; apply same_result, lost_same..].
    destruct e as [i p|h].
    + destruct (dock_packet (p_p m)) as [k|]; [eapply dock_result; [apply S0|exact H]|injection H as <-; apply same_result, S0].
    + eapply hub_result; [apply S0|exact H].
  - injection H as <-. apply same_result. split; [intros a; unfold qlen; cbn; lia|split; reflexivity].
Qed.
Theorem queues_hold carried ls b : exec (bstep link hublink black raddr hostport wsz) (binit carried) ls = Some b ->
  (forall e, length (queue (out b e)) <= 20) /\
  forall l b', bstep link hublink black raddr hostport wsz b l = Some b' ->
    (forall i es p k, hist (bd b' i) = hist (bd b i) ++ es -> In (ESend p k false) es -> length (queue (out b' (DockEnd i p))) = 20) /\
    (dropped b = false -> dropped b' = true -> exists e, length (queue (out b' e)) = 20).
Proof.
  intros E. assert (B : bounded b).
  { assert (G : forall ls b0, bounded b0 -> exec (bstep link hublink black raddr hostport wsz) b0 ls = Some b -> bounded b).
    { clear. induction ls as [|l ls IH]; intros b0 B E; cbn in E; [injection E as <-; exact B|]. destruct (bstep _ _ _ _ _ _ b0 l) as [b1|] eqn:S1; [|discriminate]. eapply IH; [|exact E]. apply (bstep_result _ _ _ S1), B. }
    eapply G; [|exact E]. intros e. cbn. lia. }
  split; [exact B|]. intros l b' S1. destruct (bstep_result _ _ _ S1) as (R1 & R2 & R3). specialize (R1 B). split.
  - intros i es p k H X. specialize (R3 _ _ _ _ H X). specialize (R1 (DockEnd i p)). unfold qlen in *. lia.
  - intros D D'. destruct (R2 D D') as [e L]. exists e. specialize (R1 e). unfold qlen in *. lia.
Qed.
End Steps.
