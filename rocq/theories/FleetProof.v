(* C73: every run of a network down to the bytes is a run of a network of packets. *)
From Verif Require Import Lts GoInt GoVal Tables CodecSpec ProtoModel ProtoSpec SysCodec DockModel DockSpec DockProof DockProof2 SysModel SysSpec SysProof.
From Verif Require Import WorldModel WorldSpec WorldProof WorldProof2 WorldProof7 ByteModel ByteSpec ByteProof ByteProof2 ByteProof3 FleetModel FleetSpec.
From Verif Require CallSpec HubModel SysProof2 SysProof3 WorldProof3.
From Coq Require Import Arith Bool List ZArith Lia.
Import ListNotations.
Open Scope nat_scope.

(* ---- ends a step leaves alone ---- *)
Lemma push_else e p b x : x <> e -> out (push e p b) x = out b x.
Proof. intros N. cbn. now rewrite upde_other. Qed.
Lemma send_else e p b x : (x <> e -> out (send e p b) x = out b x) /\ inb (send e p b) = inb b.
Proof. unfold send. destruct (room e b); split; auto using push_else. Qed.
Lemma sends_else i f x ps : forall b, (forall p, In p ps -> x <> DockEnd i p) ->
  let b' := fold_left (fun b p => send (DockEnd i p) (PQueryRequest f) b) ps b in out b' x = out b x /\ inb b' = inb b.
Proof.
  induction ps as [|p ps IH]; intros b H; cbn; auto. destruct (IH (send (DockEnd i p) (PQueryRequest f) b)) as [A B]; [intros q Q; apply H; now right|].
  destruct (send_else (DockEnd i p) (PQueryRequest f) b x) as [C D]. cbn in *. rewrite A, B, D, C by (apply H; now left). auto.
Qed.
Lemma events_else i ps x es : forall b b', fold_left (dock_event i ps) es (Some b) = Some b' ->
  (forall p k acc, In (ESend p k acc) es -> x <> DockEnd i p) -> (forall p, In p ps -> x <> DockEnd i p) -> out b' x = out b x /\ inb b' = inb b.
Proof.
  induction es as [|e es IH]; intros b b' H A B; cbn [fold_left] in H; [injection H as <-; auto|].
  destruct (dock_event i ps (Some b) e) as [b1|] eqn:E; [|rewrite fold_none in H; [discriminate|reflexivity]].
  destruct (IH _ _ H) as [C D]; auto; [intros; eapply A; right; eauto|].
  assert (X : out b1 x = out b x /\ inb b1 = inb b).
  { assert (Z : Some b = Some b1 -> out b1 x = out b x /\ inb b1 = inb b) by (intros [= <-]; auto).
    destruct e; cbn [dock_event] in E; auto.
    - destruct accepted, (room (DockEnd i p) b); try discriminate; auto. assert (Y : b1 = push (DockEnd i p) (proto_of k) b) by congruence. subst b1.
      split; [|reflexivity]. apply push_else. eapply A. now left.
    - assert (Y : b1 = fold_left (fun b p => send (DockEnd i p) (PQueryRequest f) b) ps b) by congruence. subst b1. now apply sends_else. }
  destruct X as [X Y]. now rewrite C, D, X, Y.
Qed.
Lemma hub_events_else es : forall b, let b' := fold_left (hub_event hostport) es b in (forall i p, out b' (DockEnd i p) = out b (DockEnd i p)) /\ inb b' = inb b.
Proof.
  induction es as [|e es IH]; intros b; cbn [fold_left]; auto. destruct (IH (hub_event hostport b e)) as [A B]. cbn zeta in *.
  assert (X : (forall i p, out (hub_event hostport b e) (DockEnd i p) = out b (DockEnd i p)) /\ inb (hub_event hostport b e) = inb b).
  { destruct e; cbn [hub_event]; auto; (split; [intros i' p'; apply (proj1 (send_else _ _ _ _)); discriminate|]); match goal with |- inb (send ?e ?m ?b) = _ => apply (proj2 (send_else e m b (HubEnd 0))) end. }
  destruct X as [X Y]. split; [intros i p; now rewrite A, X|now rewrite B, Y].
Qed.

(* the ends of connections not made yet are as new *)
Definition blank (E : nat -> nat -> wend) (b : bsys) : Prop :=
  forall i p, E i p = Nowhere -> out b (DockEnd i p) = mkHalf [] None false [] /\ inb b (DockEnd i p) = mkInbox [] true.
Lemma dock_blank E i l ps b b' : blank E b -> knows (fun p => E i p <> Nowhere) (bd b i) -> (forall p k, l = LRecv p k -> E i p <> Nowhere) ->
  (forall p, l = LConnected p -> E i p <> Nowhere) -> (forall p, In p ps -> E i p <> Nowhere) -> dock_does i l ps b = Some b' -> blank E b'.
Proof.
  intros B K HR HC HP H. unfold dock_does in H. destruct (dstep (bd b i) l) as [d|] eqn:Ed; [|discriminate].
  apply dstep_tr in Ed as [_ T]. destruct (knows_step _ _ _ _ K T HR HC) as (_ & es & He & Hs). rewrite He, new_app in H.
  intros j p N. destruct (events_else i ps (DockEnd j p) es _ _ H) as [X Y].
  - intros q k acc I [= -> ->]. eapply Hs; eauto.
  - intros q I [= -> ->]. eapply HP; eauto.
  - rewrite X, Y. apply B, N.
Qed.
Lemma hub_blank E black raddr l b b' : blank E b -> hub_does black raddr hostport l b = Some b' -> blank E b'.
Proof.
  intros B H. unfold hub_does in H. destruct (HubModel.hstep black raddr (bh b) l) as [h|]; [|discriminate]. assert (X : b' = fold_left (hub_event hostport) (new_events (HubModel.hist (bh b)) (HubModel.hist h)) (with_hub h b)) by congruence.
  subst b'. intros i p N. destruct (hub_events_else (new_events (HubModel.hist (bh b)) (HubModel.hist h)) (with_hub h b)) as [X Y]. cbn zeta in *. rewrite X, Y. apply B, N.
Qed.
Lemma out_blank E e o b : blank E b -> (forall i p, e = DockEnd i p -> E i p <> Nowhere) -> blank E (with_out e o b).
Proof. intros B H i p N. destruct (B i p N) as [X Y]. cbn. split; auto. rewrite upde_other; auto. intros <-. eapply H; eauto. Qed.
Lemma inb_blank E e x b : blank E b -> (forall i p, e = DockEnd i p -> E i p <> Nowhere) -> blank E (with_inb e x b).
Proof. intros B H i p N. destruct (B i p N) as [X Y]. cbn. split; auto. rewrite upde_other; auto. intros <-. eapply H; eauto. Qed.
Lemma gone_blank E o b : blank E b -> blank E (lose_process o b).
Proof. intros B i p N. apply B, N. Qed.
Lemma blank_more E E' b : extends E' E -> blank E b -> blank E' b.
Proof. intros X B i p N. apply B. destruct (E i p) eqn:Y; auto; rewrite X in N; congruence. Qed.

Section Sim.
Variables (carried : nat -> list (name * bool)) (black : list Z) (raddr : nat -> name) (wz : option nat -> wsize).
Variable c : list gval -> option (list gval).
Hypothesis Hc : forall l x, through l = Some x -> c l = Some x.
Notation carry := (fun _ _ : nat => c).
Notation fstep := (fstep black raddr wz).
Notation wstep := (wstep carry black raddr).
Notation bstep E := (bstep E hub_end black raddr hostport wz).
Notation sstep E := (sstep E hub_end carry black raddr hostport).
Notation sim E := (ByteProof2.sim E hub_end wz c).
Notation legits E := (ByteProof2.legits E hub_end wz).
Notation run ls w := (exec wstep (winit carried) ls = Some w).
Implicit Types (n : fleet) (w : world gval).

Lemma other_more E E' e d : extends E' E -> other E hub_end e = Some d -> other E' hub_end e = Some d.
Proof. intros X. destruct e as [i p|h]; cbn; auto. destruct (E i p) eqn:Y; try discriminate; rewrite X by congruence; now rewrite Y. Qed.
Lemma legits_less E E' b : extends E' E -> legits E' b -> legits E b.
Proof.
  intros X L. unfold ByteProof2.legits in *. rewrite Forall_forall in *. intros x Hx. destruct (L x Hx) as [T F]. split; auto.
  intros e O. apply F. eapply other_more; eauto.
Qed.

Record fsim n w : Prop := mkFsim {
  fs_sim : sim (ends w) (fb n) (ws w);
  fs_ends : fends n = ends w; fs_peers : fpeers n = peers w; fs_back : fbacklog n = backlog w; fs_lis : flisteners n = listeners w;
  fs_blank : blank (ends w) (fb n) }.

(* steps of docks *)
Lemma dock_both E i l ps b s b' : wired E hub_end -> sim E b s -> bstep E b (BDock i l ps) = Some b' -> legits E b' ->
  exists s', sstep E s (SDock i l ps) = Some s' /\ sim E b' s' /\ dock_does i l ps b = Some b' /\ gone b (Some i) = false /\ grows b b'.
Proof.
  intros W M H L. cbn [ByteModel.bstep] in H.
  assert (X : dock_does i l ps b = Some b' /\ sstep E s (SDock i l ps) = dock_step E carry i l ps s /\ gone b (Some i) = false).
  { destruct l; try discriminate H; (destruct (gone b (Some i)); [discriminate H|]); auto. }
  destruct X as (X & Y & Z). destruct (dock_sim carried E hub_end black raddr hostport wz c W _ _ _ _ _ _ M X L) as (s' & F & M').
  exists s'. rewrite Y. pose proof (dock_does_grows _ _ _ _ _ X). auto.
Qed.
Lemma knows_dock E b s i : open_ended E s -> sim E b s -> knows (fun p => E i p <> Nowhere) (bd b i).
Proof. intros [K _] M. rewrite <- (m_docks _ _ _ _ _ _ M). apply K. Qed.

(* steps of the receive routine *)
Definition wl (l : slab gval) : wlab gval :=
  match l with SDeliver i p => WDeliver i p | SLose i p k => WLose i p k | SHubDeliver h => WHubDeliver h | SHubLose h k => WHubLose h k
  | SDock i l _ => WDock i l | SHub l => WHub l end.
Lemma lift_taking e ls : forall w s', exec (sstep (ends w)) (ws w) ls = Some s' -> Forall (taking e) ls ->
  (forall i p, e = DockEnd i p -> existsb (Nat.eqb p) (backlog w i) = false) -> exec wstep w (map wl ls) = Some (with_sys s' w).
Proof.
  induction ls as [|l ls IH]; intros w s' H F B; cbn [exec map] in *; [injection H as <-; now destruct w|].
  destruct (sstep (ends w) (ws w) l) as [s1|] eqn:E; [|discriminate]. inversion F as [|x xs T F']; subst.
  assert (X : wstep w (wl l) = Some (with_sys s1 w)).
  { destruct l; try (exfalso; exact T); cbn [wl taking] in *; unfold WorldModel.wstep; try (rewrite B by exact T); rewrite E; reflexivity. }
  rewrite X. apply (IH (with_sys s1 w)); auto.
Qed.
Lemma wl_lossless ls : lossless ls -> nothing_lost (map wl ls).
Proof. intros H l I. apply in_map_iff in I as (k & <- & I). specialize (H k I). destruct k; auto. Qed.

(* a new connection *)
Lemma sim_join i j w b s : winv w -> open_ended (ends w) s -> blank (ends w) b -> sim (ends w) b s -> sim (ends (join i j w)) b s.
Proof.
  intros I O B [D H F A]. destruct (join_ends carried carry raddr i j w I) as (N1 & N2 & Z & E1 & E2 & E3). destruct (join_inv carried carry raddr i j w I) as (X & _).
  assert (C := fun a p => join_cases carried carry raddr i j w a p I). cbv zeta in C. set (q := updp (peers w) i (S (peers w i)) j) in *. set (p0 := peers w i) in *.
  assert (Nw : forall a p, ends w a p = Nowhere -> SysModel.wire s a p = []).
  { intros a p N. destruct O as [_ O]. destruct (SysModel.wire s a p) eqn:Y; auto. exfalso. apply (O a p); congruence. }
  assert (Nf : forall a p b' r, ends w a p = Nowhere -> ends w b' r = Nowhere -> flow wz c b s (DockEnd a p) (DockEnd b' r)).
  { intros a p b' r Na Nb. exists []. destruct (B a p Na) as [_ ->]. destruct (B b' r Nb) as [-> _]. split; [apply chan_init|]. cbn. rewrite (Nw _ _ Na). split; auto. constructor. }
  constructor; auto.
  - intros e e' Oe. destruct e as [a p|h]; [|apply F; exact Oe].
    destruct (C a p) as [[-> ->]|[[-> ->]|[A1 A2]]].
    + cbn [other] in Oe. rewrite E1 in Oe. injection Oe as <-. now apply Nf.
    + cbn [other] in Oe. rewrite E2 in Oe. injection Oe as <-. now apply Nf.
    + apply F. cbn [other] in *. rewrite <- (E3 a p A1 A2). exact Oe.
  - intros e Oe. apply A. destruct (other (ends w) hub_end e) as [d|] eqn:Y; auto. rewrite (other_more _ _ _ _ X Y) in Oe. discriminate.
Qed.

(* the port the hub gave to a dock is taken by no other *)
Lemma port_ok ls w n i p m : run ls w -> fsim n w -> handlers (sd (ws w) i) p = BListen m -> gone (fb n) (Some i) = false -> fport_free raddr n i m = true -> port_free raddr w i m = true.
Proof.
  intros R [M E1 E2 E3 E4 B] Hh Hg Pf. unfold port_free, fport_free in *. rewrite forallb_forall in *. intros [j m'] Hx. rewrite <- E4 in Hx. specialize (Pf _ Hx). cbn [fst snd] in *.
  apply negb_true_iff in Pf. apply negb_true_iff.
  destruct (zlist_eqb_spec (machine raddr j) (machine raddr i)) as [Em|]; [|reflexivity]. destruct (Z.eqb_spec m' m) as [E|]; [subst m'|reflexivity]. cbn [andb] in *.
  destruct (listens w j m) eqn:Ls; [|reflexivity]. exfalso.
  assert (j = i) as ->.
  { rewrite E4 in Hx. destruct (told_port _ _ _ _ _ _ _ _ R Hx) as [t X].
    destruct (run_sys _ _ _ _ _ _ R) as (Wi & ls' & R' & _). specialize (R' _ (extends_refl _)).
    destruct (docks_run _ _ _ _ _ _ _ _ (WorldProof3.run_ok _ _ _ _ _ _ R) i) as [li Li]. assert (Y := told_inv _ _ _ Li p). rewrite Hh in Y.
    apply (from_hub _ _ _ _ _ _ _ _ _ R) in Y; [|exact Logic.I].
    destruct (hub_runs _ _ _ _ _ _ _ _ (WorldProof3.run_ok _ _ _ _ _ _ R)) as [lh Lh].
    assert (Z : In (HubModel.EReply i m) (HubModel.hist (sh (ws w)))).
    { apply in_flat_map in Y as (e & He & Y). destruct e; try destruct Y; (destruct (Nat.eqb_spec p0 i) as [->|]; [|destruct Y]; destruct Y as [Y|[]]; try discriminate). injection Y as ->. exact He. }
    destruct (reply_alloc _ _ _ _ _ _ Lh Z) as [t' Z']. unfold machine in *. rewrite <- Em in Z'. eapply alloc_unique; eauto. }
  unfold flistens in Pf. rewrite Hg in Pf. cbn in Pf. rewrite andb_true_r in Pf. unfold listens in *. cbn [outline listeners ws sd] in Pf. rewrite (m_docks _ _ _ _ _ _ M) in Ls. rewrite E4 in Pf. congruence.
Qed.

(* the steps of packets behind a step, when no packet has been dropped: at most one *)
Definition above n (l : flab) : list (wlab gval) :=
  match l with
  | FDock i l => [WDock i l] | FHub l => [WHub l] | FRoutine (BTake e) => map wl (took wz e (fb n)) | FRoutine _ => []
  | FDial i ok => [WDial i ok] | FListen i p ok => [WListen i p ok] | FConnect i p j m => [WConnect i p j m] | FFail i p => [WFail i p] | FAccept j q => [WAccept j q]
  end.
Ltac finish A := destruct A as (Ae & Am & Ab & A1 & A2 & A3 & A4 & Al & Ai & Ag); rewrite Ai in Ae, Al;
  match type of Ae with exec _ _ ?l = Some ?v => exists l, v end;
  split; [exact Ae|]; split; [constructor; cbn [around fb fends fpeers fbacklog flisteners outline ends peers backlog listeners]; congruence || auto|];
  split; [intros _; exact Al|]; split; [try discriminate; try (intros ? [= <- ->]; now left)|split; [exact Ag|intros _; reflexivity]].
Lemma fstep_sim ls0 n w l n' : run ls0 w -> fsim n w -> fstep n l = Some n' -> legits (fends n') (fb n') ->
  exists ls w', exec wstep w ls = Some w' /\ fsim n' w' /\ (dropped (fb n) = false -> nothing_lost ls) /\ (forall j, l = FDial j true -> In (WDial j true) ls) /\ grows (fb n) (fb n') /\ (dropped (fb n) = false -> ls = above n l).
Proof.
  intros R S H L. assert (Wi : winv w) by (apply (run_sys _ _ _ _ _ _ R)). assert (S' := S). destruct S' as [M E1 E2 E3 E4 B].
  assert (W := wi_wired _ Wi). assert (O := wi_open _ Wi).
  assert (K0 : forall i, ends w i 0 <> Nowhere) by (intros i; rewrite hub_known; [discriminate|exact Wi]).
  assert (Qp : forall i, query_peers (outline n) i = query_peers w i).
  { intros i. unfold query_peers. cbn [outline ws sd]. now rewrite (m_docks _ _ _ _ _ _ M). }
  assert (Qk : forall i p, In p (query_peers w i) -> ends w i p <> Nowhere).
  { intros i p. unfold query_peers. destruct (sockets _) as [|[] ?]; intros X; repeat destruct X as [<-|X]; auto; destruct X. }
  assert (Hh : forall i p, handlers (sd (ws w) i) p = handlers (bd (fb n) i) p) by (intros; now rewrite (m_docks _ _ _ _ _ _ M)).
  assert (Fon : forall w1 o, fon w1 o = Some n' -> exists b', o = Some b' /\ n' = around b' w1).
  { intros w1 [b'|]; [|discriminate]. intros [= <-]. eauto. }
  (* one step of a dock, connections as they are *)
  assert (Dock : forall i dl ps b' w1 wl0, bstep (ends w) (fb n) (BDock i dl ps) = Some b' -> legits (ends w) b' ->
    (forall p, dl = LConnected p -> ends w i p <> Nowhere) -> (forall p, In p ps -> ends w i p <> Nowhere) ->
    ends w1 = ends w -> (forall s', sstep (ends w) (ws w) (SDock i dl ps) = Some s' -> wstep w wl0 = Some (with_sys s' w1)) ->
    (match wl0 with WLose _ _ _ | WHubLose _ _ => False | _ => True end) ->
    exists ls w', exec wstep w ls = Some w' /\ sim (ends w') b' (ws w') /\ blank (ends w') b' /\ ends w' = ends w1 /\ peers w' = peers w1 /\ backlog w' = backlog w1 /\ listeners w' = listeners w1 /\
      nothing_lost ls /\ ls = [wl0] /\ grows (fb n) b').
  { intros i dl ps b' w1 wl0 Hb Lb C1 C2 Ee Hw Nl. destruct (dock_both _ _ _ _ _ _ _ W M Hb Lb) as (s' & X & M' & Dd & _ & G).
    exists [wl0], (with_sys s' w1). cbn [exec]. rewrite (Hw _ X). cbn [with_sys ends ws peers backlog listeners]. rewrite Ee.
    split; [reflexivity|]. split; [exact M'|]. split; [|repeat split; auto; try apply G; try (now left); intros k [<-|[]]; exact Nl].
    eapply dock_blank; [exact B|eapply knows_dock; eauto| |exact C1|exact C2|exact Dd].
    intros p k ->. cbn in X. discriminate. }
  destruct l as [i l|l|l|i ok|i p ok|i p j m|i p|j q].

  - assert (X : fon (outline n) (bstep (fends n) (fb n) (BDock i l (query_peers (outline n) i))) = Some n' /\ match l with LConnected _ | LRecv _ _ | LDial _ | HNet _ _ => False | _ => True end)
      by (destruct l; try discriminate H; auto).
    destruct X as [X N]. apply Fon in X as (b' & Hb & ->). rewrite E1, Qp in Hb. cbn [around fb fends outline ends] in L. rewrite E1 in L.
    destruct (Dock i l (query_peers w i) b' w (WDock i l) Hb L) as (ls & w' & A); auto; [intros p ->; destruct N|..].
    + intros s' Hs. assert (Y : wstep w (WDock i l) = on w (sstep (ends w) (ws w) (SDock i l (query_peers w i)))) by (destruct l; try destruct N; reflexivity). rewrite Y, Hs. reflexivity.
    + finish A.
  - apply Fon in H as (b' & Hb & ->). rewrite E1 in Hb. cbn [around fb fends outline ends] in L. rewrite E1 in L.
    assert (X : hub_does black raddr hostport l (fb n) = Some b' /\ sstep (ends w) (ws w) (SHub l) = hub_step hub_end black raddr hostport l (ws w)).
    { cbn [ByteModel.bstep] in Hb. destruct l; try discriminate Hb; (destruct (gone (fb n) None); [discriminate Hb|]); split; auto. }
    destruct X as [X Y]. destruct (hub_sim carried (ends w) hub_end black raddr hostport wz c W _ _ _ _ M X L) as (s' & Es & M').
    exists [WHub l], (with_sys s' w). split; [cbn [exec]; unfold WorldModel.wstep; rewrite Y, Es; reflexivity|].
    split; [constructor; cbn [around fb fends fpeers fbacklog flisteners outline ends peers backlog listeners with_sys ws]; auto; eapply hub_blank; eauto|].
    split; [intros _ k [<-|[]]; exact I|]. split; [discriminate|]. split; [eapply hub_does_grows; eauto|reflexivity].
  - cbn [FleetModel.fstep] in H. destruct (site l) as [e|] eqn:Es; [|discriminate]. destruct (there n e) eqn:Et; [|discriminate].
    apply Fon in H as (b' & Hb & ->). rewrite E1 in Hb. cbn [around fb fends outline ends] in L. rewrite E1 in L.
    assert (G : grows (fb n) b') by (eapply step_grows; eauto).
    assert (Te : forall i p, e = DockEnd i p -> ends w i p <> Nowhere /\ existsb (Nat.eqb p) (backlog w i) = false).
    { intros i p ->. cbn in Et. rewrite E1, E3 in Et. destruct (ends w i p); try discriminate; (split; [discriminate|]); now apply negb_true_iff. }
    assert (Te' : forall i p, e = DockEnd i p -> ends w i p <> Nowhere) by (intros i p X; apply (Te i p X)).
    assert (Same : sim (ends w) b' (ws w) -> blank (ends w) b' -> exists ls w', exec wstep w ls = Some w' /\ fsim (around b' (outline n)) w' /\ (dropped (fb n) = false -> nothing_lost ls) /\
      (forall j, FRoutine l = FDial j true -> In (WDial j true) ls) /\ grows (fb n) (fb (around b' (outline n))) /\
      (dropped (fb n) = false -> ls = match l with BTake _ => ls | _ => [] end)).
    { intros M' B'. exists [], w. split; [reflexivity|]. split; [constructor; auto|]. split; [intros _ k []|]. split; [discriminate|split; [exact G|destruct l; reflexivity]]. }
    destruct l as [i l ps|l|e0|e0|e0 k|e0|e0 k|e0|e0]; cbn [site] in Es; try discriminate; injection Es as ->; cbn [ByteModel.bstep] in Hb.
    + destruct (gone (fb n) (proc e) || ended (out (fb n) e)) eqn:Eg; [discriminate|]. apply orb_false_iff in Eg as [_ Eg].
      destruct (holding (out (fb n) e)) eqn:Hn; [discriminate|]. destruct (queue (out (fb n) e)) as [|p q] eqn:Q; [discriminate|]. injection Hb as <-.
      apply Same; [|now apply out_blank]. apply sim_out; auto. intros d K Od C. eapply chan_pop; eauto.
    + destruct (gone (fb n) (proc e)); [discriminate|]. unfold marshalled in Hb. destruct (holding (out (fb n) e)) as [p|] eqn:Hn; [|discriminate].
      destruct (marshal (wz (proc e)) (pack p)) as [f| | |] eqn:Em; injection Hb as <-; (apply Same; [|first [now apply out_blank|now apply gone_blank]]); try (now apply sim_gone).
      apply sim_out; auto. intros d K Od C. eapply chan_write; eauto.
    + destruct (gone (fb n) (proc e)); [discriminate|]. unfold marshalled in Hb. destruct (holding (out (fb n) e)) as [p|] eqn:Hn; [|discriminate].
      destruct (marshal (wz (proc e)) (pack p)) as [f| | |] eqn:Em; injection Hb as <-; (apply Same; [|first [now apply out_blank|now apply gone_blank]]); try (now apply sim_gone).
      apply sim_out; auto. intros d K Od C. eapply chan_fail; eauto.
    + destruct (holding (out (fb n) e)) eqn:Hn; [discriminate|]. injection Hb as <-. apply Same; [|now apply out_blank]. apply sim_out; auto. intros d K Od C. eapply chan_end; eauto.
    + destruct (other (ends w) hub_end e) as [e'|] eqn:Oe; [|discriminate]. destruct (_ || _) eqn:Eg; [discriminate|]. injection Hb as <-. apply Same; [now apply sim_read|].
      apply inb_blank; auto. apply out_blank; auto. intros i p ->. apply (other_sym _ _ W) in Oe. intros X. cbn in Oe. rewrite X in Oe. discriminate.
    + destruct (take_steps carried (ends w) hub_end black raddr hostport wz c Hc W e _ _ _ M Hb L) as (ls & s' & X & M' & Nl & F & Tk).
      exists (map wl ls), (with_sys s' w). split; [eapply lift_taking; eauto; intros i p Y; apply (Te i p Y)|].
      split; [|split; [intros D; apply wl_lossless; auto|split; [discriminate|split; [exact G|intros D; cbn [above]; now rewrite (Tk D)]]]].
      constructor; cbn [around fb fends fpeers fbacklog flisteners outline ends peers backlog listeners with_sys ws]; auto.
      cbn [ByteModel.bstep] in Hb. destruct (_ || _); [discriminate|]. destruct (unmarshal _ _) as [m| | |]; try (injection Hb as <-; now apply gone_blank).
      destruct e as [i p|h].
      * destruct (dock_packet (p_p m)) as [k|]; [|injection Hb as <-; now apply inb_blank].
        apply (dock_blank _ _ _ _ _ _ (inb_blank _ _ _ _ B Te')) in Hb; [exact Hb|eapply (knows_dock _ (fb n)); eauto| |discriminate|intros ? []].
        intros p' k' [= <- _]. eapply Te'; eauto.
      * eapply hub_blank; [|exact Hb]. apply inb_blank; auto.
    + injection Hb as <-. apply Same; [|now apply inb_blank]. now apply sim_stop.
  - cbn [FleetModel.fstep] in H. apply Fon in H as (b' & Hb & ->). rewrite E1 in Hb. cbn [around fb fends outline ends] in L. rewrite E1 in L. destruct ok; cbn [exec] in Hb.
    + destruct (bstep (ends w) (fb n) (BDock i (LDial true) [])) as [b1|] eqn:X1; [|discriminate].
      destruct (bstep (ends w) b1 (BDock i (LConnected 0) [])) as [b2|] eqn:X2; [|discriminate]. injection Hb as ->.
      pose proof (step_grows _ _ _ _ _ _ _ _ _ X2) as G2. assert (L1 : legits (ends w) b1) by (eapply legits_grows; eauto).
      destruct (dock_both _ _ _ _ _ _ _ W M X1 L1) as (s1 & Y1 & M1 & D1 & _ & G1). destruct (dock_both _ _ _ _ _ _ _ W M1 X2 L) as (s2 & Y2 & M2 & D2 & _ & _).
      assert (O1 : open_ended (ends w) s1) by (eapply (sys_keep carried carry black raddr); eauto; split; [discriminate|intros ? []]).
      exists [WDial i true], (with_sys s2 w). split; [cbn [exec]; unfold WorldModel.wstep; cbn [exec]; rewrite Y1, Y2; reflexivity|].
      split; [|split; [intros _ k [<-|[]]; exact I|split; [intros j [= <-]; now left|split; [eapply grows_trans; eauto|reflexivity]]]].
      constructor; cbn [around fb fends fpeers fbacklog flisteners outline ends peers backlog listeners with_sys ws]; auto.
      assert (B1 : blank (ends w) b1) by (apply (dock_blank _ _ _ _ _ _ B) in D1; [exact D1|exact (knows_dock _ _ _ _ O M)|discriminate|discriminate|intros ? []]).
      apply (dock_blank _ _ _ _ _ _ B1) in D2; [exact D2|exact (knows_dock _ _ _ _ O1 M1)|discriminate|intros p [= <-]; auto|intros ? []].
    + destruct (bstep (ends w) (fb n) (BDock i (LDial false) [])) as [b1|] eqn:X1; [|discriminate]. injection Hb as ->.
      destruct (Dock i (LDial false) [] b' w (WDial i false) X1 L) as (ls & w' & A); auto; try discriminate; try solve [intros ? [] | exact I]; [|finish A].
      intros s' Hs. unfold WorldModel.wstep. cbn [exec]. rewrite Hs. reflexivity.
  - cbn [FleetModel.fstep] in H. destruct (handlers (bd (fb n) i) p) as [| | | | | | |m| | | | |] eqn:Eh; try discriminate.
    destruct (ok && negb (fport_free raddr n i m)) eqn:Ep; [discriminate|]. apply Fon in H as (b' & Hb & ->). rewrite E1 in Hb.
    assert (L' : legits (ends w) b') by (destruct ok; cbn [around fb fends outline ends] in L; now rewrite E1 in L).
    assert (Gi : gone (fb n) (Some i) = false) by (cbn [ByteModel.bstep] in Hb; destruct (gone (fb n) (Some i)); [discriminate Hb|reflexivity]).
    destruct (Dock i (HNet p ok) [] b' (if ok then mkWorld (ws w) (ends w) (peers w) (backlog w) (listeners w ++ [(i, m)]) else w) (WListen i p ok) Hb L') as (ls & w' & A);
      auto; try discriminate; try solve [intros ? [] | exact I]; [destruct ok; reflexivity| |].
    + intros s' Hs. cbn [WorldModel.wstep]. rewrite Hh, Eh.
      assert (Y : ok && negb (port_free raddr w i m) = false).
      { destruct ok; auto. cbn [andb] in *. apply negb_false_iff in Ep. rewrite (port_ok ls0 w n i p m R S); auto. now rewrite Hh. }
      rewrite Y, Hs. reflexivity.
    + destruct ok; cbn [ends peers backlog listeners] in A; finish A.
  - cbn [FleetModel.fstep] in H. destruct (handlers (bd (fb n) i) p) as [| | | | | | | | | | |a|] eqn:Eh; try discriminate.
    destruct (zlist_eqb a (hostport (machine raddr j) m) && flistens n j m) eqn:Ea; [|discriminate]. apply Fon in H as (b' & Hb & ->). rewrite E1 in Hb. cbn [exec] in Hb.
    destruct (bstep (ends w) (fb n) (BDock i (HNet p true) [])) as [b1|] eqn:X1; [|discriminate].
    destruct (bstep (ends w) b1 (BDock i (LConnected (fpeers n i)) [])) as [b2|] eqn:X2; [|discriminate]. injection Hb as ->.
    assert (Ej : join i j (outline n) = with_sys (ws (outline n)) (join i j w)) by (unfold join; cbn [outline ends peers backlog listeners ws]; rewrite E1, E2, E3, E4; reflexivity).
    rewrite Ej in *. cbn [around fb fends with_sys ends] in L.
    destruct (join_inv carried carry raddr i j w Wi) as (X & W' & _ & _). destruct (join_ends carried carry raddr i j w Wi) as (_ & _ & _ & J1 & _).
    assert (L2 : legits (ends w) b') by (eapply legits_less; eauto).
    pose proof (step_grows _ _ _ _ _ _ _ _ _ X2) as G2. assert (L1 : legits (ends w) b1) by (eapply legits_grows; eauto).
    destruct (dock_both _ _ _ _ _ _ _ W M X1 L1) as (s1 & Y1 & M1 & D1 & _ & G1). destruct (dock_both _ _ _ _ _ _ _ W M1 X2 L2) as (s2 & Y2 & M2 & D2 & _ & _).
    assert (Hs : wstep w (WConnect i p j m) = Some (with_sys s2 (join i j w))).
    { cbn [WorldModel.wstep]. rewrite Hh, Eh. assert (Y : listens w j m = true).
      { apply andb_true_iff in Ea as [_ Ea]. unfold flistens in Ea. apply andb_true_iff in Ea as [Ea _]. unfold listens in *. cbn [outline listeners ws sd] in Ea. rewrite (m_docks _ _ _ _ _ _ M). now rewrite <- E4. }
      apply andb_true_iff in Ea as [Ea _]. rewrite Ea, Y. cbn [andb exec]. rewrite Y1, <- E2, Y2. reflexivity. }
    assert (O1 : open_ended (ends w) s1) by (eapply (sys_keep carried carry black raddr); eauto; split; [discriminate|intros ? []]).
    assert (B1 : blank (ends w) b1) by (apply (dock_blank _ _ _ _ _ _ B) in D1; [exact D1|exact (knows_dock _ _ _ _ O M)|discriminate|discriminate|intros ? []]).
    assert (K1 : forall a, knows (fun r => ends (join i j w) a r <> Nowhere) (bd b1 a)).
    { intros a0. eapply knows_mono; [|eapply knows_dock; [exact O1|exact M1]]. intros r N. cbn beta in N |- *. rewrite X; auto. }
    assert (B2 : blank (ends (join i j w)) b').
    { apply (dock_blank _ _ _ _ _ _ (blank_more _ _ _ X B1)) in D2; [exact D2|apply K1|discriminate| |intros ? []]. intros r [= <-]. rewrite E2, J1. discriminate. }
    assert (Y3 : sstep (ends (join i j w)) s1 (SDock i (LConnected (fpeers n i)) []) = Some s2).
    { revert Y2. cbn [SysModel.sstep]. unfold dock_step. destruct (dstep (sd s1 i) (LConnected (fpeers n i))) as [d|] eqn:Ed; [|discriminate].
      assert (Hd : hist d = hist (sd s1 i)) by (apply dstep_tr in Ed as [_ T]; inversion T; reflexivity). rewrite Hd. unfold new_events. rewrite skipn_all. auto. }
    assert (X3 : bstep (ends (join i j w)) b1 (BDock i (LConnected (fpeers n i)) []) = Some b') by exact X2.
    destruct (dock_both _ _ _ _ _ _ _ W' (sim_join i j w b1 s1 Wi O1 B1 M1) X3 L) as (s3 & Y4 & M3 & _). rewrite Y3 in Y4. injection Y4 as <-.
    exists [WConnect i p j m], (with_sys s2 (join i j w)). split; [cbn [exec]; rewrite Hs; reflexivity|].
    split; [|split; [intros _ k [<-|[]]; exact I|split; [discriminate|split; [eapply grows_trans; eauto|reflexivity]]]].
    constructor; cbn [around fb fends fpeers fbacklog flisteners with_sys ends peers backlog listeners ws]; auto.
  - cbn [FleetModel.fstep] in H. destruct (handlers (bd (fb n) i) p) as [| | | | | | | | | | |a|] eqn:Eh; try discriminate. apply Fon in H as (b' & Hb & ->). rewrite E1 in Hb.
    cbn [around fb fends outline ends] in L. rewrite E1 in L.
    destruct (Dock i (HNet p false) [] b' w (WFail i p) Hb L) as (ls & w' & A); auto; try discriminate; try solve [intros ? [] | exact I]; [|finish A].
    intros s' Hs. cbn [WorldModel.wstep]. rewrite Hh, Eh, Hs. reflexivity.
  - cbn [FleetModel.fstep] in H. destruct (existsb (Nat.eqb q) (fbacklog n j)) eqn:Eb; [|discriminate]. apply Fon in H as (b' & Hb & ->). rewrite E1 in Hb.
    cbn [around fb fends outline ends] in L. rewrite E1 in L.
    destruct (Dock j (LConnected q) [] b' (mkWorld (ws w) (ends w) (peers w) (updp (backlog w) j (filter (fun x => negb (x =? q)) (backlog w j))) (listeners w)) (WAccept j q) Hb L) as (ls & w' & A); auto; try solve [intros ? [] | exact I].
    + intros p [= <-]. apply (wi_back _ Wi). rewrite <- E3. apply existsb_exists in Eb as (x & Xx & Y). apply Nat.eqb_eq in Y. subst. exact Xx.
    + intros s' Hs. cbn [WorldModel.wstep]. rewrite <- E3, Eb, Hs. reflexivity.
    + cbn [ends peers backlog listeners] in A. rewrite <- ?E3 in A. finish A.
Qed.

(* runs *)
Definition numbered (w : world gval) : Prop := forall i p, ends w i p <> Nowhere -> p < peers w i.
Lemma join_numbered i j w : numbered w -> numbered (join i j w) /\ extends (ends (join i j w)) (ends w).
Proof.
  intros N. set (p0 := peers w i). set (q := updp (peers w) i (Datatypes.S p0) j).
  assert (Q : peers w j <= q /\ (j = i -> q = Datatypes.S p0)) by (unfold q, p0, updp; destruct (Nat.eqb_spec j i) as [->|]; lia).
  assert (X : forall a p, ends (join i j w) a p = if (a =? j) && (p =? q) then ToDock i p0 else if (a =? i) && (p =? p0) then ToDock j q else ends w a p).
  { intros a p. cbn. fold p0. fold q. unfold updp. destruct (Nat.eqb_spec a j) as [->|]; cbn [andb]; [destruct (Nat.eqb_spec p q); cbn; auto; destruct (Nat.eqb_spec j i) as [<-|]; cbn; auto|].
    destruct (Nat.eqb_spec a i) as [->|]; cbn; auto. }
  assert (Y : forall a, peers (join i j w) a = if a =? j then Datatypes.S q else if a =? i then Datatypes.S p0 else peers w a).
  { intros a. cbn. fold p0. fold q. unfold updp. destruct (Nat.eqb_spec a j); auto. }
  split.
  - intros a p. rewrite X, Y. destruct (Nat.eqb_spec a j) as [->|]; cbn [andb].
    + destruct (Nat.eqb_spec p q); [lia|]. destruct (Nat.eqb_spec j i) as [->|]; cbn [andb]; [destruct (Nat.eqb_spec p p0); [lia|]|]; intros Z; apply N in Z; lia.
    + destruct (Nat.eqb_spec a i) as [->|]; cbn [andb]; [destruct (Nat.eqb_spec p p0); [lia|]|]; intros Z; apply N in Z; unfold p0; lia.
  - intros a p Z. rewrite X. apply N in Z. destruct (Nat.eqb_spec a j) as [->|]; cbn [andb]; [destruct (Nat.eqb_spec p q); [lia|]|]; auto.
    + destruct (Nat.eqb_spec j i) as [->|]; cbn [andb]; auto. destruct (Nat.eqb_spec p p0); [unfold p0 in *; lia|auto].
    + destruct (Nat.eqb_spec a i) as [->|]; cbn [andb]; auto. destruct (Nat.eqb_spec p p0); [unfold p0 in *; lia|auto].
Qed.
Lemma fstep_extends n l n' : numbered (outline n) -> fstep n l = Some n' -> numbered (outline n') /\ extends (fends n') (fends n) /\ grows (fb n) (fb n').
Proof.
  intros N H.
  assert (Fon : forall w1 o, fon w1 o = Some n' -> exists b', o = Some b' /\ n' = around b' w1).
  { intros w1 [b'|]; [|discriminate]. intros [= <-]. eauto. }
  assert (G : forall ls b b', exec (bstep (fends n)) b ls = Some b' -> grows b b') by (intros; eapply run_grows; eauto).
  assert (G1 : forall l b b', bstep (fends n) b l = Some b' -> grows b b') by (intros; eapply step_grows; eauto).
  assert (Same : forall b' w1, ends w1 = fends n -> peers w1 = fpeers n -> grows (fb n) b' -> numbered (outline (around b' w1)) /\ extends (fends (around b' w1)) (fends n) /\ grows (fb n) (fb (around b' w1))).
  { intros b' w1 A B C. split; [|split; [cbn; rewrite A; apply extends_refl|exact C]]. unfold numbered. cbn. rewrite A, B. exact N. }
  destruct l as [i l|l|l|i ok|i p ok|i p j m|i p|j q].
  - assert (X : fon (outline n) (bstep (fends n) (fb n) (BDock i l (query_peers (outline n) i))) = Some n') by (destruct l; try discriminate H; auto).
    apply Fon in X as (b' & Hb & ->). apply Same; auto. eapply G1; eauto.
  - apply Fon in H as (b' & Hb & ->). apply Same; auto. eapply G1; eauto.
  - cbn [FleetModel.fstep] in H. destruct (site l); [|discriminate]. destruct (there n e); [|discriminate]. apply Fon in H as (b' & Hb & ->). apply Same; auto. eapply G1; eauto.
  - cbn [FleetModel.fstep] in H. apply Fon in H as (b' & Hb & ->). apply Same; auto. eapply G; eauto.
  - cbn [FleetModel.fstep] in H. destruct (handlers _ p); try discriminate. destruct (_ && _); [discriminate|]. apply Fon in H as (b' & Hb & ->). destruct ok; (apply Same; auto; eapply G1; eauto).
  - cbn [FleetModel.fstep] in H. destruct (handlers _ p); try discriminate. destruct (_ && _); [|discriminate]. apply Fon in H as (b' & Hb & ->).
    destruct (join_numbered i j _ N) as [A B]. split; [exact A|]. split; [exact B|]. eapply G; eauto.
  - cbn [FleetModel.fstep] in H. destruct (handlers _ p); try discriminate. apply Fon in H as (b' & Hb & ->). apply Same; auto. eapply G1; eauto.
  - cbn [FleetModel.fstep] in H. destruct (existsb _ _); [|discriminate]. apply Fon in H as (b' & Hb & ->). apply Same; auto. eapply G1; eauto.
Qed.
Lemma frun_extends ls : forall n n', numbered (outline n) -> exec fstep n ls = Some n' -> extends (fends n') (fends n) /\ grows (fb n) (fb n').
Proof.
  induction ls as [|l ls IH]; intros n n' N H; cbn in H; [injection H as <-; split; [apply extends_refl|apply grows_refl]|].
  destruct (fstep n l) as [n1|] eqn:E; [|discriminate]. destruct (fstep_extends _ _ _ N E) as (N1 & X1 & G1). destruct (IH _ _ N1 H) as [X G].
  split; [|eapply grows_trans; eauto]. intros i p Z. rewrite X by (rewrite X1; auto). apply X1, Z.
Qed.
Lemma fsim_init : fsim (finit carried) (winit carried).
Proof. constructor; try reflexivity; [apply sim_init|]. intros i p _. split; reflexivity. Qed.
Lemma frun_sim ls : forall ls0 n w n', run ls0 w -> fsim n w -> numbered (outline n) -> exec fstep n ls = Some n' -> legits (fends n') (fb n') ->
  exists ls' w', exec wstep w ls' = Some w' /\ fsim n' w' /\ (dropped (fb n') = false -> nothing_lost ls') /\ (forall j, In (FDial j true) ls -> In (WDial j true) ls').
Proof.
  induction ls as [|l ls IH]; intros ls0 n w n' R M N H L; cbn in H.
  - injection H as <-. exists [], w. split; [reflexivity|]. split; auto. split; [intros _ k []|intros j []].
  - destruct (fstep n l) as [n1|] eqn:E; [|discriminate]. destruct (fstep_extends _ _ _ N E) as (N1 & X1 & G1). destruct (frun_extends _ _ _ N1 H) as [X2 G2].
    assert (L1 : legits (fends n1) (fb n1)) by (eapply legits_less; [exact X2|]; eapply legits_grows; eauto).
    destruct (fstep_sim _ _ _ _ _ R M E L1) as (l1 & w1 & Y1 & M1 & D1 & J1 & _ & _).
    assert (R1 : run (ls0 ++ l1) w1) by (rewrite exec_app, R; exact Y1).
    destruct (IH _ _ _ _ R1 M1 N1 H L) as (l2 & w2 & Y2 & M2 & D2 & J2). exists (l1 ++ l2), w2. split; [now rewrite exec_app, Y1|]. split; auto. split.
    + intros D k Hk. apply in_app_or in Hk as [Hk|Hk]; [|exact (D2 D k Hk)]. refine (D1 _ k Hk).
      destruct (dropped (fb n)) eqn:Db; auto. apply G1 in Db. apply G2 in Db. congruence.
    + intros j [->|Hj]; apply in_or_app; auto.
Qed.
Lemma finit_numbered : numbered (outline (finit carried)).
Proof. intros i [|p]; cbn; [lia|congruence]. Qed.
Theorem fleet_sim ls n : exec fstep (finit carried) ls = Some n -> Forall (legitimate (across n) wz) (handed (fb n)) ->
  exists ls' w, run ls' w /\ fsim n w /\ (dropped (fb n) = false -> nothing_lost ls') /\ (forall j, In (FDial j true) ls -> In (WDial j true) ls').
Proof. intros H L. exact (frun_sim ls [] _ _ _ eq_refl fsim_init finit_numbered H L). Qed.
End Sim.
