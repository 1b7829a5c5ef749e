(* C76: what one step does to the messages and bytes under way to one peer. *)
From Verif Require Import Lts GoInt GoVal Tables CodecSpec ProtoModel ProtoSpec SysCodec DockModel DockSpec DockProof DockProof2 SysModel SysSpec SysProof.
From Verif Require Import WorldModel WorldSpec WorldProof ByteModel ByteSpec ByteProof ByteProof2 ByteProof3 FleetModel FleetSpec FleetProof.
From Verif Require CallSpec HubModel.
From Coq Require Import Arith Bool List ZArith Lia.
Import ListNotations.
Open Scope nat_scope.

Section Track.
Variables (E : nat -> nat -> wend) (black : list Z) (raddr : nat -> name) (wz : option nat -> wsize).
Hypothesis W : wired E hub_end.
Notation other := (other E hub_end).
Notation bstep := (bstep E hub_end black raddr hostport wz).
Notation legits := (legits E hub_end wz).
Variables e e' : endp.
Hypothesis O : other e = Some e'.

Lemma legits_from b b' : grows b b' -> legits b' -> legits b.
Proof. exact (legits_grows E hub_end black hostport wz b b'). Qed.
(* the messages under way to e *)
Definition under (b : bsys) (K : list proto) : Prop := chan (wz (proc e')) (wz (proc e)) (out b e') (inb b e) K.
Definition more (b b' : bsys) : Prop := forall K, under b K -> exists x, under b' (K ++ x).
Lemma more_refl b : more b b.
Proof. intros K H. exists []. now rewrite app_nil_r. Qed.
Lemma more_trans x y z : more x y -> more y z -> more x z.
Proof. intros A B K H. destruct (A K H) as [u H1]. destruct (B _ H1) as [v H2]. exists (u ++ v). now rewrite app_assoc. Qed.
Lemma more_same b b' : out b' e' = out b e' -> inb b' e = inb b e -> more b b'.
Proof. intros A B K H. exists []. unfold under. now rewrite app_nil_r, A, B. Qed.
Lemma push_more x p b : legitimate other wz (x, p) -> more b (push x p b).
Proof.
  intros [T L] K H. unfold under in *. cbn. destruct (end_eqb_spec e' x) as [->|N].
  - exists [p]. rewrite upde_same. apply chan_push; auto. destruct (L e O). split; [exact T|]. now split.
  - exists []. rewrite upde_other by auto. now rewrite app_nil_r.
Qed.
Lemma send_more x p b : legits (send x p b) -> more b (send x p b).
Proof.
  unfold send, ByteProof2.legits. destruct (room x b); intros L; [|now apply more_same].
  cbn in L. apply Forall_app in L as [_ L]. inversion L; subst. now apply push_more.
Qed.
Lemma sends_more i f ps : forall b, legits (fold_left (fun b p => send (DockEnd i p) (PQueryRequest f) b) ps b) ->
  more b (fold_left (fun b p => send (DockEnd i p) (PQueryRequest f) b) ps b).
Proof.
  induction ps as [|p ps IH]; intros b L; cbn [fold_left] in *; [apply more_refl|]. eapply more_trans; [|apply IH; exact L].
  apply send_more. eapply legits_from; [apply sends_grow|exact L].
Qed.
Lemma events_more i ps es : forall b b', fold_left (dock_event i ps) es (Some b) = Some b' -> legits b' -> more b b'.
Proof.
  induction es as [|ev es IH]; intros b b' H L; cbn [fold_left] in H; [injection H as <-; apply more_refl|].
  destruct (dock_event i ps (Some b) ev) as [b1|] eqn:X; [|rewrite fold_none in H; [discriminate|reflexivity]].
  eapply more_trans; [|eapply IH; eauto]. assert (L1 : legits b1) by (eapply legits_from; [eapply events_grow; eauto|exact L]).
  assert (Z : Some b = Some b1 -> more b b1) by (intros [= <-]; apply more_refl).
  destruct ev; cbn [dock_event] in X; auto.
  - destruct accepted, (room (DockEnd i p) b); try discriminate; auto. assert (Y : b1 = push (DockEnd i p) (proto_of k) b) by congruence. subst b1.
    unfold ByteProof2.legits in L1. cbn in L1. apply Forall_app in L1 as [_ L1]. inversion L1; subst. now apply push_more.
  - assert (Y : b1 = fold_left (fun b p => send (DockEnd i p) (PQueryRequest f) b) ps b) by congruence. subst b1. now apply sends_more.
Qed.
Lemma dock_more i l ps b b' : dock_does i l ps b = Some b' -> legits b' -> more b b'.
Proof.
  unfold dock_does. destruct (dstep (bd b i) l) as [d|]; [|discriminate]. intros H L. eapply more_trans; [|eapply events_more; eauto]. now apply more_same.
Qed.
Lemma hub_more l b b' : hub_does black raddr hostport l b = Some b' -> legits b' -> more b b'.
Proof.
  unfold hub_does. destruct (HubModel.hstep black raddr (bh b) l) as [h|]; [|discriminate]. intros H. 
  assert (Y : b' = fold_left (hub_event hostport) (new_events (HubModel.hist (bh b)) (HubModel.hist h)) (with_hub h b)) by congruence. subst b'. clear H.
  intros L. eapply more_trans; [apply (more_same b (with_hub h b)); reflexivity|]. revert L. generalize (with_hub h b). generalize (new_events (HubModel.hist (bh b)) (HubModel.hist h)).
  induction l0 as [|ev es IH]; intros b0 L; cbn [fold_left] in *; [apply more_refl|]. eapply more_trans; [|apply IH; exact L].
  assert (L1 : legits (hub_event hostport b0 ev)) by (eapply legits_from; [apply hub_grow|exact L]).
  destruct ev; cbn [hub_event] in *; try apply more_refl; now apply send_more.
Qed.
Lemma out_more x o b : (x = e' -> forall K, under b K -> chan (wz (proc e')) (wz (proc e)) o (inb b e) K) -> more b (with_out x o b).
Proof.
  intros H K U. exists []. rewrite app_nil_r. unfold under. cbn. destruct (end_eqb_spec e' x) as [->|N]; [rewrite upde_same; auto|now rewrite upde_other].
Qed.
(* a step other than taking a message *)
Lemma step_more b l b' : bstep b l = Some b' -> legits b' -> l <> BTake e -> more b b'.
Proof.
  intros H L N. destruct l as [i l ps|l|x|x|x n|x|x n|x|x]; cbn [ByteModel.bstep] in H.
  - assert (X : dock_does i l ps b = Some b') by (destruct l; try discriminate H; (destruct (gone b (Some i)); [discriminate H|exact H])). eapply dock_more; eauto.
  - assert (X : hub_does black raddr hostport l b = Some b') by (destruct l; try discriminate H; (destruct (gone b None); [discriminate H|exact H])). eapply hub_more; eauto.
  - destruct (gone b (proc x) || ended (out b x)) eqn:G; [discriminate|]. apply orb_false_iff in G as [_ G].
    destruct (holding (out b x)) eqn:Hn; [discriminate|]. destruct (queue (out b x)) as [|p q] eqn:Q; [discriminate|]. injection H as <-. apply out_more. intros -> K U. eapply chan_pop; eauto.
  - destruct (gone b (proc x)); [discriminate|]. unfold marshalled in H. destruct (holding (out b x)) as [p|] eqn:Hn; [|discriminate].
    destruct (marshal (wz (proc x)) (pack p)) as [f| | |] eqn:Em; injection H as <-; try (now apply more_same). apply out_more. intros -> K U. eapply chan_write; eauto.
  - destruct (gone b (proc x)); [discriminate|]. unfold marshalled in H. destruct (holding (out b x)) as [p|] eqn:Hn; [|discriminate].
    destruct (marshal (wz (proc x)) (pack p)) as [f| | |] eqn:Em; injection H as <-; try (now apply more_same). apply out_more. intros -> K U. eapply chan_fail; eauto.
  - destruct (holding (out b x)) eqn:Hn; [discriminate|]. injection H as <-. apply out_more. intros -> K U. eapply chan_end; eauto.
  - destruct (other x) as [x'|] eqn:Ox; [|discriminate]. destruct (_ || _) eqn:G; [discriminate|]. injection H as <-. intros K U. exists []. rewrite app_nil_r. unfold under in *. cbn.
    destruct (end_eqb_spec e x) as [->|Ne].
    + assert (x' = e') by congruence. subst x'. rewrite !upde_same. now apply chan_read.
    + rewrite !upde_other; auto. intros <-. apply (other_sym _ _ W) in Ox, O. congruence.
  - assert (Ne : e <> x) by congruence. destruct (_ || _); [discriminate|]. destruct (unmarshal _ _) as [m| | |]; [|injection H as <-; now apply more_same..].
    set (b1 := with_inb x _ b) in H. assert (M1 : more b b1) by (apply more_same; auto; cbn; now rewrite upde_other).
    eapply more_trans; [exact M1|]. destruct x as [i p|h]; [|eapply hub_more; eauto]. destruct (dock_packet _); [eapply dock_more; eauto|]. injection H as <-. apply more_refl.
  - injection H as <-. intros K U. exists []. rewrite app_nil_r. unfold under in *. cbn. destruct (end_eqb_spec e x) as [->|Ne]; [rewrite upde_same; eapply chan_inbox; eauto|now rewrite upde_other].
Qed.
(* taking one *)
Lemma step_taken b b' K : bstep b (BTake e) = Some b' -> legits b' -> gone b' (proc e) = false -> under b K ->
  exists p K' x, K = p :: K' /\ under b' (K' ++ x) /\ (seen whole e p <> [] -> exists y, took wz e b = [y] /\ taking e y /\ match y with SDeliver i p => e = DockEnd i p | SHubDeliver h => e = HubEnd h | _ => False end).
Proof.
  intros H L G U. cbn [ByteModel.bstep] in H.
  destruct (gone b (proc e) || negb (reading (inb b e)) || negb (free e b) || (slice (wz (proc e)) (buffer (inb b e)) <=? 0)%Z) eqn:X; [discriminate|].
  apply orb_false_iff in X as [_ X]. apply Z.leb_gt in X. destruct (chan_take _ _ _ _ _ U X) as (p & K' & f & -> & Fp & Ef & Ck).
  unfold took. rewrite Ef in H |- *. destruct (framed_spec _ _ _ _ Fp) as (_ & _ & _ & Um).
  assert (Up : forall o, gone (lose_process o b) o = true) by (intros [o|]; cbn; rewrite ?Nat.eqb_refl; reflexivity).
  destruct (image p) as [p'|] eqn:Ei.
  2:{ exfalso. destruct (unmarshal (wz (proc e)) f) eqn:Eu; [exact (Um _ eq_refl)|..]; injection H as <-; rewrite Up in G; discriminate. }
  rewrite Um in H |- *. cbn [p_p pack] in H |- *. set (b1 := with_inb e _ b) in H.
  assert (U1 : under b1 K') by (unfold under, b1; cbn; rewrite upde_same; apply Ck).
  assert (Ia : arrival whole p = Some p') by (apply image_arrival; auto; unfold whole; intros l x ->; reflexivity).
  assert (M : forall x, match x with DockEnd i p => match dock_packet p' with Some k => dock_does i (LRecv p k) [] b1 | None => Some b1 end
                        | HubEnd h => hub_does black raddr hostport (HubModel.LRecv h (hub_packet p')) b1 end = Some b' -> more b1 b').
  { intros [i q|h] X0; [|eapply hub_more; eauto]. destruct (dock_packet p'); [eapply dock_more; eauto|]. injection X0 as <-. apply more_refl. }
  destruct (M _ H _ U1) as [x Ux]. exists p, K', x. split; [reflexivity|]. split; [exact Ux|].
  generalize e. intros [i q|h] Se; cbn [seen] in Se.
  - rewrite Ia in Se. destruct (dock_packet p'); [|congruence]. exists (SDeliver i q). repeat split.
  - exists (SHubDeliver h). repeat split.
Qed.

(* the bytes under way to e, and what its buffer holds *)
Definition stream (b : bsys) : bytes := buffer (inb b e) ++ flight (out b e').
Definition flows (b b' : bsys) : Prop := exists t u, stream b' = stream b ++ t /\ buffer (inb b' e) = buffer (inb b e) ++ u.
Lemma flows_refl b : flows b b.
Proof. exists [], []. now rewrite !app_nil_r. Qed.
Lemma flows_trans x y z : flows x y -> flows y z -> flows x z.
Proof. intros (a & b & A & B) (c & d & C & D). exists (a ++ c), (b ++ d). rewrite C, D, A, B, !app_assoc. auto. Qed.
Lemma flows_same b b' : flight (out b' e') = flight (out b e') -> buffer (inb b' e) = buffer (inb b e) -> flows b b'.
Proof. intros A B. exists [], []. unfold stream. now rewrite !app_nil_r, A, B. Qed.
(* what a step that is not the send routine's own leaves to it *)
Definition keeps (b b' : bsys) : Prop :=
  holding (out b' e') = holding (out b e') /\ flight (out b' e') = flight (out b e') /\ inb b' = inb b /\ exists q, queue (out b' e') = queue (out b e') ++ q.
Lemma keeps_refl b : keeps b b.
Proof. repeat split; auto. exists []. now rewrite app_nil_r. Qed.
Lemma keeps_trans x y z : keeps x y -> keeps y z -> keeps x z.
Proof. intros (A & B & I & u & C) (A' & B' & I' & v & C'). repeat split; try congruence. exists (u ++ v). rewrite C', C. now rewrite app_assoc. Qed.
Lemma push_keeps x p b : keeps b (push x p b).
Proof.
  unfold keeps. cbn. destruct (end_eqb_spec e' x) as [->|N]; [rewrite upde_same|rewrite upde_other by auto]; cbn; repeat split; eauto. exists []. now rewrite app_nil_r.
Qed.
Lemma send_keeps x p b : keeps b (send x p b).
Proof. unfold send. destruct (room x b); [apply push_keeps|]. repeat split; cbn; auto. exists []. now rewrite app_nil_r. Qed.
Lemma sends_keep i f ps : forall b, keeps b (fold_left (fun b p => send (DockEnd i p) (PQueryRequest f) b) ps b).
Proof. induction ps as [|p ps IH]; intros b; cbn [fold_left]; [apply keeps_refl|]. eapply keeps_trans; [apply send_keeps|apply IH]. Qed.
Lemma events_keep i ps es : forall b b', fold_left (dock_event i ps) es (Some b) = Some b' -> keeps b b'.
Proof.
  induction es as [|ev es IH]; intros b b' H; cbn [fold_left] in H; [injection H as <-; apply keeps_refl|].
  destruct (dock_event i ps (Some b) ev) as [b1|] eqn:X; [|rewrite fold_none in H; [discriminate|reflexivity]].
  eapply keeps_trans; [|eapply IH; eauto]. assert (Z : Some b = Some b1 -> keeps b b1) by (intros [= <-]; apply keeps_refl).
  destruct ev; cbn [dock_event] in X; auto.
  - destruct accepted, (room (DockEnd i p) b); try discriminate; auto. assert (Y : b1 = push (DockEnd i p) (proto_of k) b) by congruence. subst b1. apply push_keeps.
  - assert (Y : b1 = fold_left (fun b p => send (DockEnd i p) (PQueryRequest f) b) ps b) by congruence. subst b1. apply sends_keep.
Qed.
Lemma dock_keeps i l ps b b' : dock_does i l ps b = Some b' -> keeps b b'.
Proof.
  unfold dock_does. destruct (dstep (bd b i) l) as [d|]; [|discriminate]. intros H. eapply keeps_trans; [|eapply events_keep; eauto]. repeat split; auto. exists []. now rewrite app_nil_r.
Qed.
Lemma hub_keeps l b b' : hub_does black raddr hostport l b = Some b' -> keeps b b'.
Proof.
  unfold hub_does. destruct (HubModel.hstep black raddr (bh b) l) as [h|]; [|discriminate]. intros H.
  assert (Y : b' = fold_left (hub_event hostport) (new_events (HubModel.hist (bh b)) (HubModel.hist h)) (with_hub h b)) by congruence. subst b'. clear H.
  assert (K0 : keeps b (with_hub h b)) by (repeat split; auto; exists []; now rewrite app_nil_r). eapply keeps_trans; [exact K0|]. clear K0.
  generalize (with_hub h b). generalize (new_events (HubModel.hist (bh b)) (HubModel.hist h)).
  induction l0 as [|ev es IH]; intros b0; cbn [fold_left]; [apply keeps_refl|]. eapply keeps_trans; [|apply IH].
  destruct ev; cbn [hub_event]; try apply keeps_refl; apply send_keeps.
Qed.
Lemma keeps_flows b b' : keeps b b' -> flows b b'.
Proof. intros (_ & B & I & _). apply flows_same; auto. now rewrite I. Qed.
Lemma step_flows b l b' : bstep b l = Some b' -> l <> BTake e -> flows b b'.
Proof.
  assert (Ot : forall x o, (x = e' -> flight o = flight (out b e')) -> flows b (with_out x o b)).
  { intros x o H. apply flows_same; auto. cbn. destruct (end_eqb_spec e' x) as [->|N]; [rewrite upde_same; auto|now rewrite upde_other]. }
  intros H N. destruct l as [i l ps|l|x|x|x n|x|x n|x|x]; cbn [ByteModel.bstep] in H.
  - assert (X : dock_does i l ps b = Some b') by (destruct l; try discriminate H; (destruct (gone b (Some i)); [discriminate H|exact H])). apply keeps_flows. eapply dock_keeps; eauto.
  - assert (X : hub_does black raddr hostport l b = Some b') by (destruct l; try discriminate H; (destruct (gone b None); [discriminate H|exact H])). apply keeps_flows. eapply hub_keeps; eauto.
  - destruct (_ || _); [discriminate|]. destruct (holding (out b x)) eqn:Hn; [discriminate|]. destruct (queue (out b x)) as [|p q] eqn:Q; [discriminate|]. injection H as <-. apply Ot. intros ->. reflexivity.
  - destruct (gone b (proc x)); [discriminate|]. unfold marshalled in H. destruct (holding (out b x)) as [p|] eqn:Hn; [|discriminate].
    destruct (marshal (wz (proc x)) (pack p)) as [f| | |] eqn:Em; injection H as <-; try (now apply flows_same).
    destruct (end_eqb_spec e' x) as [<-|Ne]; [|apply Ot; congruence]. exists f, []. unfold stream. cbn. rewrite upde_same. cbn. now rewrite app_nil_r, app_assoc.
  - destruct (gone b (proc x)); [discriminate|]. unfold marshalled in H. destruct (holding (out b x)) as [p|] eqn:Hn; [|discriminate].
    destruct (marshal (wz (proc x)) (pack p)) as [f| | |] eqn:Em; injection H as <-; try (now apply flows_same).
    destruct (end_eqb_spec e' x) as [<-|Ne]; [|apply Ot; congruence]. exists (firstn n f), []. unfold stream. cbn. rewrite upde_same. cbn. now rewrite app_nil_r, app_assoc.
  - destruct (holding (out b x)) eqn:Hn; [discriminate|]. injection H as <-. apply Ot. intros ->. reflexivity.
  - destruct (other x) as [x'|] eqn:Ox; [|discriminate]. destruct (_ || _) eqn:G; [discriminate|]. injection H as <-.
    destruct (end_eqb_spec e x) as [<-|Ne].
    + assert (x' = e') by congruence. subst x'. exists [], (firstn n (flight (out b e'))). unfold stream. cbn. rewrite !upde_same. cbn. rewrite app_nil_r, <- app_assoc, firstn_skipn. auto.
    + apply flows_same; cbn; rewrite !upde_other; auto. intros <-. apply (other_sym _ _ W) in Ox, O. congruence.
  - assert (Ne : e <> x) by congruence. destruct (_ || _); [discriminate|]. destruct (unmarshal _ _) as [m| | |]; [|injection H as <-; now apply flows_same..].
    set (b1 := with_inb x _ b) in H. assert (M1 : flows b b1) by (apply flows_same; auto; cbn; now rewrite upde_other).
    eapply flows_trans; [exact M1|]. destruct x as [i p|h]; [|apply keeps_flows; eapply hub_keeps; eauto]. destruct (dock_packet _); [apply keeps_flows; eapply dock_keeps; eauto|]. injection H as <-. apply flows_refl.
  - injection H as <-. apply flows_same; auto. cbn. destruct (end_eqb_spec e x) as [->|Ne]; [rewrite upde_same; auto|now rewrite upde_other].
Qed.
(* the message the send routine holds or takes next, until it takes a step *)
Lemma step_keeps b l b' : bstep b l = Some b' -> ended (out b' e') = false -> l <> BPop e' -> l <> BWrite e' ->
  holding (out b' e') = holding (out b e') /\ exists q, queue (out b' e') = queue (out b e') ++ q.
Proof.
  assert (Z : forall b', keeps b b' -> holding (out b' e') = holding (out b e') /\ exists q, queue (out b' e') = queue (out b e') ++ q) by (intros b0 (A & _ & _ & B); auto).
  assert (Same : forall b', out b' e' = out b e' -> holding (out b' e') = holding (out b e') /\ exists q, queue (out b' e') = queue (out b e') ++ q) by (intros b0 ->; split; auto; exists []; now rewrite app_nil_r).
  intros H En N1 N2. destruct l as [i l ps|l|x|x|x n|x|x n|x|x]; cbn [ByteModel.bstep] in H.
  - assert (X : dock_does i l ps b = Some b') by (destruct l; try discriminate H; (destruct (gone b (Some i)); [discriminate H|exact H])). apply Z. eapply dock_keeps; eauto.
  - assert (X : hub_does black raddr hostport l b = Some b') by (destruct l; try discriminate H; (destruct (gone b None); [discriminate H|exact H])). apply Z. eapply hub_keeps; eauto.
  - destruct (_ || _); [discriminate|]. destruct (holding (out b x)); [discriminate|]. destruct (queue (out b x)) as [|p q] eqn:Q; [discriminate|]. injection H as <-. apply Same. cbn. apply upde_other. congruence.
  - destruct (gone b (proc x)); [discriminate|]. unfold marshalled in H. destruct (holding (out b x)) as [p|]; [|discriminate].
    destruct (marshal (wz (proc x)) (pack p)) as [f| | |]; injection H as <-; apply Same; auto. cbn. apply upde_other. congruence.
  - destruct (gone b (proc x)); [discriminate|]. unfold marshalled in H. destruct (holding (out b x)) as [p|] eqn:Hn; [|discriminate].
    destruct (marshal (wz (proc x)) (pack p)) as [f| | |] eqn:Em; injection H as <-; try (now apply Same). cbn in En |- *.
    destruct (end_eqb_spec e' x) as [<-|Ne]; [rewrite upde_same in En; discriminate|]. rewrite upde_other by auto. now apply Same.
  - destruct (holding (out b x)) eqn:Hn; [discriminate|]. injection H as <-. cbn in En |- *.
    destruct (end_eqb_spec e' x) as [<-|Ne]; [rewrite upde_same in En; discriminate|]. rewrite upde_other by auto. now apply Same.
  - destruct (other x) as [x'|] eqn:Ox; [|discriminate]. destruct (_ || _) eqn:G; [discriminate|]. injection H as <-. cbn.
    destruct (end_eqb_spec e' x') as [<-|Ne]; [rewrite upde_same; cbn; split; auto; exists []; now rewrite app_nil_r|rewrite upde_other by auto; now apply Same].
  - destruct (_ || _); [discriminate|]. destruct (unmarshal _ _) as [m| | |]; [|injection H as <-; now apply Same..].
    set (b1 := with_inb x _ b) in H. assert (M1 : out b1 e' = out b e') by reflexivity.
    rewrite <- M1. assert (Z1 : forall b', keeps b1 b' -> holding (out b' e') = holding (out b1 e') /\ exists q, queue (out b' e') = queue (out b1 e') ++ q) by (intros b0 (A & _ & _ & B); auto).
    destruct x as [i p|h]; [|apply Z1; eapply hub_keeps; eauto]. destruct (dock_packet _); [apply Z1; eapply dock_keeps; eauto|]. injection H as <-. apply Z1, keeps_refl.
  - injection H as <-. now apply Same.
Qed.
End Track.
