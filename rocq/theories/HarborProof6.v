(* A hub that has ended. *)
From Verif Require Import Lts GoInt GoVal Tables CodecSpec ProtoModel DockModel DockSpec DockProof DockProof2 DockProof3 DockProof4 DockProof5 DockProof7 DockProof8 SysModel SysSpec SysProof SysCodec FullProof WorldModel WorldSpec WorldProof7 ByteModel ByteSpec ByteProof FleetModel FleetSpec FleetProof2 HarborModel HarborSpec HarborProof HarborProof2 HarborProof3 HarborProof5.
From Verif Require ChanModel HubModel WorldProof DialProof ByteProof2.
From Coq Require Import Arith Bool List ZArith Lia.
Import ListNotations.
Open Scope nat_scope.

Section Harbor.
Context {O : Type}.
Variables (carried : nat -> list (name * bool)) (black : list Z) (raddr : nat -> name) (wz : option nat -> wsize).
Variable code : name -> nat.
Variable T : nat -> name -> ChanModel.target O gval.
Variable o0 : nat -> name -> O.
Notation fstep := (fstep black raddr wz).
Notation hstep := (hstep black raddr wz code T).
Notation hinit := (hinit carried o0).
Implicit Types s : harbor O.

(* what is handed to Send does not go on the wire at once *)
Definition keeps (b b' : bsys) : Prop := (forall e, flight (out b' e) = flight (out b e)) /\ inb b' = inb b.
Lemma keeps_refl b : keeps b b.
Proof. split; auto. Qed.
Lemma keeps_trans a b c : keeps a b -> keeps b c -> keeps a c.
Proof. intros [A1 A2] [B1 B2]. split; [intros e; now rewrite B1|congruence]. Qed.
Lemma push_keeps e p b : keeps b (push e p b).
Proof. split; auto. intros e'. cbn. unfold upde. destruct (end_eqb_spec e' e) as [->|]; reflexivity. Qed.
Lemma send_keeps e p b : keeps b (send e p b).
Proof. unfold send. destruct (room e b); [apply push_keeps|split; auto]. Qed.
Lemma event_keeps i ps b x b' : dock_event i ps (Some b) x = Some b' -> keeps b b'.
Proof.
  destruct x; cbn [dock_event]; try (intros [= <-]; apply keeps_refl).
  - destruct accepted, (room (DockEnd i p) b); try discriminate; intros [= <-]; [apply push_keeps|apply keeps_refl].
  - intros [= <-]. revert b. induction ps as [|p ps IH]; intros b; cbn; [apply keeps_refl|]. eapply keeps_trans; [apply send_keeps|apply IH].
Qed.
Lemma does_keeps i l ps b b' : dock_does i l ps b = Some b' -> keeps b b'.
Proof.
  unfold dock_does. destruct (dstep (bd b i) l) as [d|]; [|discriminate]. intros H. assert (K : keeps b (with_dock i d b)) by (split; auto). eapply keeps_trans; [exact K|]. revert H. clear K.
  generalize (with_dock i d b) (new_events (hist (bd b i)) (hist d)). clear b d. intros b es. revert b. induction es as [|x es IH]; intros b H; cbn in H; [injection H as <-; apply keeps_refl|].
  destruct (dock_event i ps (Some b) x) as [b1|] eqn:E; cbn in E, H; rewrite E in H; [|rewrite ByteProof2.fold_none in H by reflexivity; discriminate]. eapply keeps_trans; [eapply event_keeps; exact E|apply IH, H].
Qed.

(* a step that is not the hub's *)
Definition hubless (l : blab) : Prop := match l with BHub _ => False | _ => forall h, site l <> Some (HubEnd h) end.
Lemma hub_silent E b l b' h : bstep E hub_end black raddr hostport wz b l = Some b' -> gone b None = true \/ hubless l ->
  flight (out b (HubEnd h)) = [] -> flight (out b' (HubEnd h)) = [].
Proof.
  intros H G F. assert (K : forall b1, keeps b b1 -> flight (out b1 (HubEnd h)) = []) by (intros b1 [K _]; now rewrite K).
  assert (Put : forall e o, (e = HubEnd h -> flight o = []) -> flight (out (with_out e o b) (HubEnd h)) = []).
  { intros e o P. cbn. unfold upde. destruct (end_eqb_spec (HubEnd h) e) as [<-|]; auto. }
  assert (Mine : forall e, gone b (proc e) = false -> site l = Some e -> e <> HubEnd h).
  { intros e Ge S ->. destruct G as [G|G]; [cbn in Ge; congruence|]. destruct l; try discriminate S; now apply (G h). }
  destruct l as [i l ps|l|e|e|e n|e|e n|e|e]; cbn [bstep] in H.
  - assert (X : dock_does i l ps b = Some b') by (destruct l; try discriminate; destruct (gone b (Some i)); try discriminate; exact H). apply K, (does_keeps _ _ _ _ _ X).
  - exfalso. destruct G as [G|[]]. rewrite G in H. destruct l; discriminate.
  - destruct (gone b (proc e)) eqn:Ge; [discriminate|]. destruct (ended (out b e)); [discriminate|]. cbn [orb] in H. destruct (holding (out b e)), (queue (out b e)); try discriminate. injection H as <-. apply Put. intros ->. exact F.
  - destruct (gone b (proc e)) eqn:Ge; [discriminate|]. unfold marshalled in H. destruct (holding (out b e)); [|discriminate]. destruct (marshal _ _); injection H as <-; try exact F. apply Put. intros X. now elim (Mine e Ge eq_refl).
  - destruct (gone b (proc e)) eqn:Ge; [discriminate|]. unfold marshalled in H. destruct (holding (out b e)); [|discriminate]. destruct (marshal _ _); injection H as <-; try exact F. apply Put. intros X. now elim (Mine e Ge eq_refl).
  - destruct (holding (out b e)); [discriminate|]. injection H as <-. apply Put. intros ->. exact F.
  - destruct (other E hub_end e) as [e'|]; [|discriminate]. destruct (_ || _); [discriminate|]. injection H as <-. cbn [out with_inb]. apply Put. intros ->. cbn. rewrite F. apply skipn_nil.
  - destruct (gone b (proc e)) eqn:Ge; [discriminate|]. cbn [orb] in H. destruct (_ || _); [discriminate|]. destruct (unmarshal _ _) as [m| | |]; try (injection H as <-; exact F). destruct e as [i p|h'].
    + destruct (dock_packet (p_p m)); [|injection H as <-; exact F]. destruct (does_keeps _ _ _ _ _ H) as [K1 _]. rewrite K1. exact F.
    + exfalso. destruct G as [G|G]; [cbn in Ge; congruence|]. now apply (G h').
  - injection H as <-. exact F.
Qed.
Lemma dock_silent E b l b' i h : bstep E hub_end black raddr hostport wz b l = Some b' -> gone b None = true \/ hubless l ->
  other E hub_end (DockEnd i 0) = Some (HubEnd h) -> flight (out b (HubEnd h)) = [] -> buffer (inb b (DockEnd i 0)) = [] ->
  buffer (inb b' (DockEnd i 0)) = [] /\ l <> BTake (DockEnd i 0).
Proof.
  intros H G Ot F B. assert (K : forall b1, keeps b b1 -> buffer (inb b1 (DockEnd i 0)) = []) by (intros b1 [_ K]; now rewrite K).
  assert (Put : forall e x b1, inb b1 = inb b -> (e = DockEnd i 0 -> buffer x = []) -> buffer (inb (with_inb e x b1) (DockEnd i 0)) = []).
  { intros e x b1 Eb P. cbn. unfold upde. destruct (end_eqb_spec (DockEnd i 0) e) as [<-|]; auto. now rewrite Eb. }
  destruct l as [j l ps|l|e|e|e n|e|e n|e|e]; cbn [bstep] in H; (split; [|try discriminate]).
  - assert (X : dock_does j l ps b = Some b') by (destruct l; try discriminate; destruct (gone b (Some j)); try discriminate; exact H). apply K, (does_keeps _ _ _ _ _ X).
  - exfalso. destruct G as [G|[]]. rewrite G in H. destruct l; discriminate.
  - destruct (_ || _); [discriminate|]. destruct (holding (out b e)), (queue (out b e)); try discriminate. injection H as <-. exact B.
  - destruct (gone b (proc e)); [discriminate|]. unfold marshalled in H. destruct (holding (out b e)); [|discriminate]. destruct (marshal _ _); injection H as <-; exact B.
  - destruct (gone b (proc e)); [discriminate|]. unfold marshalled in H. destruct (holding (out b e)); [|discriminate]. destruct (marshal _ _); injection H as <-; exact B.
  - destruct (holding (out b e)); [discriminate|]. injection H as <-. exact B.
  - destruct (other E hub_end e) as [e'|] eqn:Oe; [|discriminate]. destruct (_ || _); [discriminate|]. injection H as <-. apply Put; [reflexivity|]. intros ->. rewrite Oe in Ot. injection Ot as ->. cbn. rewrite B, F. now destruct n.
  - destruct (gone b (proc e)) eqn:Ge; [discriminate|]. cbn [orb] in H. destruct (_ || _) eqn:Or; [discriminate|].
    assert (Ne : e <> DockEnd i 0) by (intros ->; rewrite B in Or; cbn in Or; rewrite orb_true_r in Or; discriminate).
    destruct (unmarshal _ _) as [m| | |]; try (injection H as <-; exact B). destruct e as [j p|h'].
    + destruct (dock_packet (p_p m)); [|injection H as <-; apply Put; auto; now intros]. destruct (does_keeps _ _ _ _ _ H) as [_ K2]. rewrite K2. apply Put; auto. now intros.
    + exfalso. destruct G as [G|G]; [cbn in Ge; congruence|]. now apply (G h').
  - intros [= ->]. destruct (_ || _) eqn:Or; [discriminate|]. rewrite B in Or. cbn in Or. rewrite orb_true_r in Or. discriminate.
  - injection H as <-. apply Put; auto. intros ->. exact B.
Qed.
(* only a message makes a dock dial *)
Lemma dock_dials (d d' : dock gval) l p a : dstep d l = Some d' -> handlers d' p = ADial a -> handlers d p = ADial a \/ l = LRecv p (KAddress a).
Proof.
  intros H X. apply dstep_tr in H as [_ H]. inversion H; subst; cbn in X; auto;
  match type of X with updp _ ?p' _ p = _ => destruct (Nat.eq_dec p p') as [->|Np]; [rewrite updp_same in X; try discriminate|rewrite updp_other in X by auto; now left] | _ => idtac end; auto.
  all: try (injection X as ->; auto).
Qed.
Lemma docks_dial dls : forall (d d' : dock gval) p a, exec dstep d dls = Some d' -> handlers d' p = ADial a -> handlers d p = ADial a \/ In (LRecv p (KAddress a)) dls.
Proof.
  induction dls as [|l dls IH]; intros d d' p a H X; [injection H as <-; auto|]. cbn [exec] in H. destruct (dstep d l) as [d1|] eqn:E; [|discriminate].
  destruct (IH _ _ _ _ H X) as [Y|Y]; [|right; now right]. destruct (dock_dials _ _ _ _ _ E Y) as [Z| ->]; [now left|right; now left].
Qed.
Lemma bytes_recv E b l b' i : bstep E hub_end black raddr hostport wz b l = Some b' ->
  exists dls, exec dstep (bd b i) dls = Some (bd b' i) /\ forall p k, In (LRecv p k) dls -> l = BTake (DockEnd i p).
Proof.
  intros H. destruct (bytes_acts _ _ _ _ _ _ _ i H) as [Z|(_ & _ & X)]; [exists []; rewrite Z; split; [reflexivity|intros ? ? []]|].
  destruct l; try destruct X.
  - destruct (bytes_dock _ _ _ _ _ _ _ i0 H) as (dls & Ed & ->). rewrite Nat.eqb_refl in Ed. eexists. split; [exact Ed|]. intros p k [->|[]]. discriminate H.
  - destruct e as [j p|h]; [subst j|destruct X]. cbn [bstep] in H. destruct (_ || _); [discriminate|].
    destruct (unmarshal _ _) as [m| | |]; try (injection H as <-; exists []; split; [reflexivity|intros ? ? []]). destruct (dock_packet (p_p m)) as [k|]; [|injection H as <-; exists []; split; [reflexivity|intros ? ? []]].
    destruct (does_dock _ _ _ _ _ H) as (d & Ed & ->). exists [LRecv p k]. split; [cbn [exec]; cbn [bd with_inb] in Ed; rewrite Ed; unfold updp; now rewrite Nat.eqb_refl|]. intros ? ? [[= <- <-]|[]]. reflexivity.
Qed.
Lemma fleet_recv n l n' i : fstep n l = Some n' ->
  exists dls, exec dstep (bd (fb n) i) dls = Some (bd (fb n') i) /\ forall p k, In (LRecv p k) dls -> l = FRoutine (BTake (DockEnd i p)).
Proof.
  assert (One : forall w (o : option bsys) n', fon w o = Some n' -> exists b, o = Some b /\ fb n' = b) by (intros w [b|] x E; [injection E as <-; exists b; auto|discriminate]).
  assert (Some' : forall E w l x n' (R : Prop), (forall p, x = BTake (DockEnd i p) -> l = FRoutine (BTake (DockEnd i p))) -> fon w (bstep E hub_end black raddr hostport wz (fb n) x) = Some n' ->
     exists dls, exec dstep (bd (fb n) i) dls = Some (bd (fb n') i) /\ forall p k, In (LRecv p k) dls -> l = FRoutine (BTake (DockEnd i p))).
  { intros E w y x z R P H. destruct (One _ _ _ H) as (b' & Eb & ->). destruct (bytes_recv _ _ _ _ i Eb) as (dls & Ed & N). exists dls. split; auto. intros p k I. apply P, (N _ _ I). }
  intros H. destruct l as [j l|l|l|j ok|j p ok|j p j' m|j p|j q]; cbn [FleetModel.fstep] in H.
  - refine (Some' (fends n) (outline n) _ (BDock j l (query_peers (outline n) j)) _ True _ _); [intros; discriminate|]. destruct l; try discriminate; exact H.
  - refine (Some' _ _ _ _ _ True _ H). intros; discriminate.
  - destruct (site l) as [e|] eqn:Es; [|discriminate]. destruct (there n e); [|discriminate]. refine (Some' _ _ _ _ _ True _ H). now intros p ->.
  - destruct (One _ _ _ H) as (b' & Eb & ->). cbn [exec] in Eb. destruct (bstep _ _ _ _ _ _ (fb n) (BDock j (LDial ok) [])) as [b1|] eqn:E1; [|discriminate].
    destruct (bytes_recv _ _ _ _ i E1) as (d1 & Ed1 & N1). destruct ok; cbn [exec] in Eb.
    + destruct (bstep _ _ _ _ _ _ b1 (BDock j (LConnected 0) [])) as [b2|] eqn:E2; [|discriminate]. injection Eb as <-. destruct (bytes_recv _ _ _ _ i E2) as (d2 & Ed2 & N2).
      exists (d1 ++ d2). split; [rewrite exec_app, Ed1; exact Ed2|]. intros p k I. apply in_app_iff in I as [I|I]; [discriminate (N1 _ _ I)|discriminate (N2 _ _ I)].
    + injection Eb as <-. exists d1. split; auto. intros p k I. discriminate (N1 _ _ I).
  - destruct (handlers (bd (fb n) j) p); try discriminate. destruct (_ && _); [discriminate|]. refine (Some' _ _ _ _ _ True _ H). intros; discriminate.
  - destruct (handlers (bd (fb n) j) p); try discriminate. destruct (_ && _); [|discriminate]. destruct (One _ _ _ H) as (b' & Eb & ->). cbn [exec] in Eb. destruct (bstep _ _ _ _ _ _ (fb n) (BDock j (HNet p true) [])) as [b1|] eqn:E1; [|discriminate].
    destruct (bytes_recv _ _ _ _ i E1) as (d1 & Ed1 & N1). destruct (bstep _ _ _ _ _ _ b1 _) as [b2|] eqn:E2; [|discriminate]. injection Eb as <-. destruct (bytes_recv _ _ _ _ i E2) as (d2 & Ed2 & N2).
    exists (d1 ++ d2). split; [rewrite exec_app, Ed1; exact Ed2|]. intros x k I. apply in_app_iff in I as [I|I]; [discriminate (N1 _ _ I)|discriminate (N2 _ _ I)].
  - destruct (handlers (bd (fb n) j) p); try discriminate. refine (Some' _ _ _ _ _ True _ H). intros; discriminate.
  - destruct (existsb _ _); [|discriminate]. refine (Some' _ _ _ _ _ True _ H). intros; discriminate.
Qed.

(* nothing of the hub is under way *)
Definition hush (b : bsys) : Prop := forall i, flight (out b (HubEnd i)) = [] /\ buffer (inb b (DockEnd i 0)) = [].
Lemma dock_hub j l ps b b' : dock_does j l ps b = Some b' -> bh b' = bh b.
Proof.
  unfold dock_does. destruct (dstep (bd b j) l) as [d|]; [|discriminate]. generalize (new_events (hist (bd b j)) (hist d)). intros es.
  assert (G : forall es b0 b1, fold_left (dock_event j ps) es (Some b0) = Some b1 -> bh b1 = bh b0).
  { clear. induction es as [|e es IH]; intros b0 b1 H; [injection H as <-; reflexivity|]. cbn [fold_left] in H.
    destruct (dock_event j ps (Some b0) e) as [b2|] eqn:E; [|exfalso; clear - H; induction es; [discriminate|auto]].
    rewrite (IH _ _ H). clear - E. cbn [dock_event] in E.
    assert (Q : forall f ps b, bh (fold_left (fun b p => send (DockEnd j p) (PQueryRequest f) b) ps b) = bh b).
    { intros f. induction ps0 as [|p r IH]; intros b; cbn [fold_left]; auto. rewrite IH. unfold send. destruct (room _ _); reflexivity. }
    destruct e; try (injection E as <-; try reflexivity; auto).
    destruct accepted; destruct (room _ _); try discriminate; injection E as <-; reflexivity. }
  intros H. rewrite (G _ _ _ H). reflexivity.
Qed.
Lemma bytes_hub E b l b' : bstep E hub_end black raddr hostport wz b l = Some b' -> gone b None = true \/ hubless l -> bh b' = bh b.
Proof.
  intros H G. destruct l as [j l ps|l|e|e|e n|e|e n|e|e]; cbn [bstep] in H.
  - eapply dock_hub. destruct l; try discriminate; destruct (gone b (Some j)); try discriminate; exact H.
  - exfalso. destruct G as [G|[]]. rewrite G in H. destruct l; discriminate.
  - destruct (_ || _); [discriminate|]. destruct (holding (out b e)), (queue (out b e)); try discriminate. injection H as <-. reflexivity.
  - destruct (gone b (proc e)); [discriminate|]. unfold marshalled in H. destruct (holding (out b e)); [|discriminate]. destruct (marshal _ _); injection H as <-; reflexivity.
  - destruct (gone b (proc e)); [discriminate|]. unfold marshalled in H. destruct (holding (out b e)); [|discriminate]. destruct (marshal _ _); injection H as <-; reflexivity.
  - destruct (holding (out b e)); [discriminate|]. injection H as <-. reflexivity.
  - destruct (other E hub_end e); [|discriminate]. destruct (_ || _); [discriminate|]. injection H as <-. reflexivity.
  - destruct (gone b (proc e)) eqn:Ge; [discriminate|]. cbn [orb] in H. destruct (_ || _); [discriminate|]. destruct (unmarshal _ _) as [m| | |]; try (injection H as <-; reflexivity). destruct e as [j p|h].
    + destruct (dock_packet (p_p m)) as [k|]; [|injection H as <-; reflexivity]. rewrite (dock_hub _ _ _ _ _ H). reflexivity.
    + exfalso. destruct G as [G|G]; [cbn in Ge; congruence|]. now apply (G h).
  - injection H as <-. reflexivity.
Qed.
(* the steps of the fleet, one or two at the byte level *)
Lemma fleet_bytes n l n' : fstep n l = Some n' -> gone (fb n) None = true \/ actor l <> None ->
  exists ls, exec (bstep (fends n) hub_end black raddr hostport wz) (fb n) ls = Some (fb n') /\ (gone (fb n) None = true \/ Forall hubless ls) /\
    (forall e, l = FRoutine (BTake e) -> ls = [BTake e]) /\ (fends n' = fends n \/ exists i p j m a, l = FConnect i p j m /\ handlers (bd (fb n) i) p = ADial a).
Proof.
  assert (One : forall w (o : option bsys) n', fon w o = Some n' -> exists b, o = Some b /\ fb n' = b /\ fends n' = ends w) by (intros w [b|] x E; [injection E as <-; exists b; auto|discriminate]).
  assert (Hd : forall i l ps, hubless (BDock i l ps)) by (intros i x ps h; discriminate).
  intros H A. destruct l as [i l|l|l|i ok|i p ok|i p j' m|i p|i q]; cbn [FleetModel.fstep] in H.
  - assert (X : fon (outline n) (bstep (fends n) hub_end black raddr hostport wz (fb n) (BDock i l (query_peers (outline n) i))) = Some n') by (destruct l; try discriminate; exact H).
    destruct (One _ _ _ X) as (b & Eb & -> & Fe). exists [BDock i l (query_peers (outline n) i)]. cbn [exec]. rewrite Eb. repeat split; auto; try discriminate; right; repeat constructor; discriminate.
  - destruct (One _ _ _ H) as (b & Eb & -> & Fe). exists [BHub l]. cbn [exec]. rewrite Eb. repeat split; auto; try discriminate. destruct A as [A|A]; [now left|now elim A].
  - destruct (site l) as [e|] eqn:Es; [|discriminate]. destruct (there n e); [|discriminate]. destruct (One _ _ _ H) as (b & Eb & -> & Fe). exists [l]. cbn [exec]. rewrite Eb. split; auto. split; [|split; [intros ? [= ->]; reflexivity|now left]].
    destruct A as [A|A]; auto. right. repeat constructor. unfold hubless. cbn [actor] in A. rewrite Es in A. destruct l; try discriminate Es; intros h X; rewrite X in Es; injection Es as <-; now apply A.
  - destruct (One _ _ _ H) as (b & Eb & -> & Fe). eexists. split; [exact Eb|]. split; [right; destruct ok; repeat constructor; discriminate|]. split; [discriminate|]. now left.
  - destruct (handlers (bd (fb n) i) p); try discriminate. destruct (_ && _); [discriminate|]. destruct (One _ _ _ H) as (b & Eb & -> & Fe). eexists [_]. cbn [exec]. rewrite Eb. repeat split; auto; try discriminate; first [right; repeat constructor; discriminate|left; rewrite Fe; now destruct ok].
  - destruct (handlers (bd (fb n) i) p) eqn:Eh; try discriminate. destruct (_ && _); [|discriminate]. destruct (One _ _ _ H) as (b & Eb & -> & Fe). eexists. split; [exact Eb|]. split; [right; repeat constructor; discriminate|]. split; [discriminate|]. right. do 5 eexists. eauto.
  - destruct (handlers (bd (fb n) i) p); try discriminate. destruct (One _ _ _ H) as (b & Eb & -> & Fe). eexists [_]. cbn [exec]. rewrite Eb. repeat split; auto; try discriminate; right; repeat constructor; discriminate.
  - destruct (existsb _ _); [|discriminate]. destruct (One _ _ _ H) as (b & Eb & -> & Fe). eexists [_]. cbn [exec]. rewrite Eb. repeat split; auto; try discriminate; right; repeat constructor; discriminate.
Qed.
Lemma bytes_quiet E ls b b' : exec (bstep E hub_end black raddr hostport wz) b ls = Some b' -> gone b None = true \/ Forall hubless ls ->
  bh b' = bh b /\ ((forall i, E i 0 = ToHub i) -> hush b -> hush b' /\ forall i, ~ In (BTake (DockEnd i 0)) ls).
Proof.
  revert b. induction ls as [|l ls IH]; intros b H G; [injection H as <-; split; auto|]. cbn [exec] in H. destruct (bstep E hub_end black raddr hostport wz b l) as [b1|] eqn:X; [|discriminate].
  assert (G0 : gone b None = true \/ hubless l) by (destruct G as [G|G]; [now left|right; now inversion G]).
  assert (G1 : gone b1 None = true \/ Forall hubless ls) by (destruct G as [G|G]; [left; eapply bytes_gone; eauto|right; now inversion G]).
  destruct (IH _ H G1) as [A B]. split; [rewrite A; eapply bytes_hub; eauto|]. intros Eh Q.
  assert (D : forall i, buffer (inb b1 (DockEnd i 0)) = [] /\ l <> BTake (DockEnd i 0)).
  { intros i. destruct (Q i) as [Q1 Q2]. apply (dock_silent _ _ _ _ _ i X G0); auto. cbn [other]. now rewrite Eh. }
  destruct (B Eh) as [B1 B2]; [intros i; split; [eapply hub_silent; eauto; apply Q|apply D]|]. split; auto. intros i [->|I]; [now apply (proj2 (D i))|now apply (B2 i)].
Qed.
(* the hub that has ended does nothing *)
Lemma hub_step s l s' : hub_over s -> hstep s l = Some s' -> hub_over s' /\ bh (fb (hf s')) = bh (fb (hf s)) /\
  match fleet_label s l with Some x => fstep (hf s) x = Some (hf s') /\ (gone (fb (hf s)) None = true \/ actor x <> None) | None => hf s' = hf s end.
Proof.
  intros Ov H. destruct (hstep_inv _ _ _ _ _ _ _ _ H) as (Fs & _ & _ & _ & _ & Al).
  assert (A : forall x, fleet_label s l = Some x -> gone (fb (hf s)) None = true \/ actor x <> None).
  { intros x Ex. destruct Ov as [Ov|Ov]; [now left|right]. destruct l; cbn [fleet_label] in Ex; try discriminate.
    - injection Ex as ->. unfold allowed in Al. apply andb_prop in Al as [_ Al]. intros E. rewrite E, Ov in Al. discriminate.
    - destruct (nth_error _ _); [|discriminate]. destruct (ChanModel.responses _ _) as [|[]]; [discriminate|]. injection Ex as <-. discriminate.
    - injection Ex as <-. discriminate. }
  destruct (fleet_label s l) as [x|] eqn:Ex; cbn [optstep] in Fs.
  - specialize (A _ eq_refl). destruct (fleet_bytes _ _ _ Fs A) as (ls & El & Hl & _). split; [|split; [apply (proj1 (bytes_quiet _ _ _ _ El Hl))|auto]].
    destruct Ov as [Ov|Ov]; [left|right; eapply dead_stays; eauto]. apply (proj1 (fleet_acts _ _ _ _ _ _ 0 Fs)), Ov.
  - split; [|rewrite Fs; auto]. destruct Ov as [Ov|Ov]; [left; now rewrite Fs|right; eapply dead_stays; eauto].
Qed.
Lemma hub_stays s ls s' : hub_over s -> exec hstep s ls = Some s' -> hub_over s' /\ bh (fb (hf s')) = bh (fb (hf s)) /\ forall i, ~ In (HFleet (FDial i true)) ls.
Proof.
  revert s. induction ls as [|l ls IH]; intros s Ov H; [injection H as <-; auto|]. cbn [exec] in H. destruct (hstep s l) as [s1|] eqn:E; [|discriminate].
  destruct (hub_step _ _ _ Ov E) as (A1 & A2 & _). destruct (IH _ A1 H) as (B1 & B2 & B3). split; auto. split; [congruence|]. intros i [->|I]; [|now apply (B3 i)].
  cbn [HarborModel.hstep] in E. unfold allowed in E. destruct Ov as [Ov|Ov]; rewrite Ov in E; rewrite ?andb_false_r in E; discriminate.
Qed.
(* a network cut off from the hub stays so *)
Lemma cut_step ls s l s' : exec hstep hinit ls = Some s -> hstep s l = Some s' -> Forall (legitimate (across (hf s')) wz) (handed (fb (hf s'))) -> cut_off s ->
  cut_off s' /\ fends (hf s') = fends (hf s).
Proof.
  intros H1 H L [Ov Q]. assert (H2 : exec hstep hinit (ls ++ [l]) = Some s') by (rewrite exec_app, H1; cbn [exec]; now rewrite H).
  destruct (hub_step _ _ _ Ov H) as (Ov' & _ & X). destruct (fleet_label s l) as [x|]; [|rewrite X; split; auto; split; auto; now rewrite X]. destruct X as [Fs A].
  assert (H1' : exec hstep s [l] = Some s') by (cbn [exec]; now rewrite H). destruct (earlier _ _ _ _ _ _ _ _ _ _ _ H1 H1') as [Ex L1]. specialize (L1 L).
  destruct (fleet_runs _ _ _ _ _ _ _ _ _ H1) as (la & Ea & _). destruct (fleet_to_network _ _ _ _ _ _ Ea L1) as (wa & w1 & R1 & _ & _ & Ee & _). destruct (WorldProof.run_sys _ _ _ _ _ _ R1) as (W1 & _).
  assert (Eh : forall i, fends (hf s) i 0 = ToHub i) by (intros i; rewrite <- Ee; apply WorldProof.hub_known, W1).
  destruct (fleet_bytes _ _ _ Fs A) as (bl & Eb & Hl & Tk & Fe). destruct (bytes_quiet _ _ _ _ Eb Hl) as [_ B]. destruct (B Eh) as [B1 B2]; [intros i; destruct (Q i) as (? & ? & _); auto|].
  split; [|destruct Fe as [Fe|(i & p & j & m & a & _ & Hd)]; [exact Fe|exfalso; destruct (Q i) as (_ & _ & N); now apply (N p a)]].
  split; auto. intros i. destruct (B1 i) as [Q1 Q2]. split; [exact Q1|]. split; [exact Q2|]. intros p a Hd. destruct (fleet_recv _ _ _ i Fs) as (dls & Ed & Nr).
  destruct (docks_dial _ _ _ _ _ Ed Hd) as [Y|Y]; [destruct (Q i) as (_ & _ & N); now apply (N p a)|]. specialize (Nr _ _ Y). specialize (Tk _ Nr).
  destruct (dock_runs _ _ _ _ _ _ _ _ _ i H2) as [ld Hr]. pose proof (told_inv _ _ _ Hr p) as To. rewrite Hd in To.
  destruct (fleet_runs _ _ _ _ _ _ _ _ _ H2) as (lb & Eb2 & _). destruct (fleet_to_network _ _ _ _ _ _ Eb2 L) as (wb & w2 & R2 & Ed2 & _). rewrite <- Ed2 in To.
  pose proof (DialProof.address_peer _ _ _ _ _ _ _ _ _ R2 To) as ->. apply (B2 i). rewrite Tk. now left.
Qed.
Lemma cut_stays ls1 s1 ls2 s2 : exec hstep hinit ls1 = Some s1 -> exec hstep s1 ls2 = Some s2 -> Forall (legitimate (across (hf s2)) wz) (handed (fb (hf s2))) -> cut_off s1 ->
  cut_off s2 /\ fends (hf s2) = fends (hf s1).
Proof.
  intros H1. revert s2. induction ls2 as [|l ls IH] using rev_ind; intros s2 H2 L C; [injection H2 as <-; auto|]. apply exec_split in H2 as (s & H2 & H3).
  assert (H : exec hstep hinit (ls1 ++ ls) = Some s) by (rewrite exec_app, H1; exact H2). destruct (earlier _ _ _ _ _ _ _ _ _ _ _ H H3) as [_ Ls]. destruct (IH _ H2 (Ls L) C) as [A B].
  cbn [exec] in H3. destruct (hstep s l) as [s'|] eqn:E; [|discriminate]. injection H3 as <-. destruct (cut_step _ _ _ _ H E L A) as [A' B']. split; auto. congruence.
Qed.
(* calls of features that no connected dock carries *)
Lemma cut_hangs ls1 s1 ls2 s2 i c q : exec hstep hinit ls1 = Some s1 -> exec hstep s1 ls2 = Some s2 -> Forall (legitimate (across (hf s2)) wz) (handed (fb (hf s2))) -> cut_off s1 ->
  NoDup (map q_index (requests (hist (bd (fb (hf s2)) i)))) -> In (ENew c q) (hist (bd (fb (hf s2)) i)) ->
  (forall j p r, fends (hf s1) j p = ToDock i r -> ~ carries (carried j) (q_slot q) true) -> forall x, ~ In (EReturn c x) (hist (bd (fb (hf s2)) i)).
Proof.
  intros H1 H2 L C N Nq No x R. assert (H : exec hstep hinit (ls1 ++ ls2) = Some s2) by (rewrite exec_app, H1; exact H2). destruct (cut_stays _ _ _ _ H1 H2 L C) as [_ Fe].
  destruct (remote_call _ _ _ _ _ _ _ _ _ _ _ _ H L N R) as (q0 & j & k & r & Nq0 & (Ca & args & res & err & _ & (p & r' & Lk & _) & _) & _).
  destruct (dock_runs _ _ _ _ _ _ _ _ _ i H) as [ld Hd]. rewrite <- (new_unique _ _ _ _ _ _ Hd Nq Nq0) in Ca. rewrite Fe in Lk. now apply (No j p r').
Qed.
End Harbor.
