(* C76: every call returns; and what holds at the end of a run held before. *)
From Verif Require Import Lts GoInt GoVal Tables CodecSpec ProtoModel ProtoSpec SysCodec DockModel DockSpec DockProof SysModel SysSpec SysProof.
From Verif Require Import WorldModel WorldSpec WorldProof LiveSpec LiveProof5 LiveProof6 ByteModel ByteSpec ByteProof ByteProof2 ByteProof3 FleetModel FleetSpec FleetProof FleetProof2 FleetLiveSpec FleetLiveProof4.
From Verif Require CallSpec HubModel DockProof4 WorldProof3.
From Coq Require Import Arith Bool List ZArith Lia.
Import ListNotations.
Open Scope nat_scope.

Lemma fendless_run carried black raddr wz R FL : fendless carried black raddr wz R FL -> forall n, exists ls, exec (fstep black raddr wz) (finit carried) ls = Some (R n).
Proof.
  intros En. induction n as [|n [ls IH]]; [exists []; rewrite (fe_start _ _ _ _ _ _ En); reflexivity|].
  pose proof (fe_step _ _ _ _ _ _ En n) as X. destruct (FL n) as [l|]; [|exists ls; rewrite X; exact IH]. exists (ls ++ [l]). rewrite exec_app, IH. cbn [exec]. rewrite X. reflexivity.
Qed.
Theorem fleet_fair_call carried black raddr wz R FL :
  fendless carried black raddr wz R FL -> ffair black raddr wz R FL -> fundisturbed R -> flegitimate wz R -> franges_end R ->
  forall n i c q j n', In (ENew c q) (hist (bd (fb (R n)) i)) -> FL n' = Some (FDial j true) -> carries (carried j) (q_slot q) true ->
  exists m x j' k, n <= m /\ returns c (hist (bd (fb (R m)) i)) = [x] /\ executed carried (fends (R m)) (fun _ _ => through) (parts (fb (R m))) i q j' k x.
Proof.
  intros En Fa Un Lg Re n i c q j n' Nq Dj Cf.
  set (r := wrun carried black raddr wz R FL). set (lab := wlab_at wz R FL).
  assert (Sm : forall m, fsim wz whole (R m) (r m)) by (intros m; exact (sim_at carried black raddr wz R FL En Un Lg m)).
  assert (X : forall m i, sd (ws (r m)) i = bd (fb (R m)) i) by (intros m; apply (fsim_parts _ _ _ _ (Sm m))).
  rewrite <- (X n) in Nq. assert (Lb : lab n' = Some (WDial j true)) by (unfold lab, wlab_at; rewrite Dj; reflexivity).
  destruct (@fair_call gval carried (fun _ _ => whole) black raddr r lab) with (n := n) (i := i) (c := c) (q := q) (j := j) (n' := n') as (m & x & j' & k & Le & Rx & _); auto.
  - apply wrun_endless; assumption.
  - apply wrun_fair; assumption.
  - apply wrun_undisturbed; assumption.
  - apply wrun_ranges; assumption.
  - unfold whole. intros _ _ l. destruct (through l); discriminate.
  - rewrite X in Rx. assert (Ret : In (EReturn c x) (hist (bd (fb (R m)) i))).
    { assert (Z : In x (returns c (hist (bd (fb (R m)) i)))) by (rewrite Rx; now left). unfold returns in Z. apply in_flat_map in Z as (e & Ie & Z). destruct e; try destruct Z.
      destruct (Nat.eqb_spec c0 c) as [->|]; [|destruct Z]. destruct Z as [->|[]]. exact Ie. }
    destruct (fendless_run _ _ _ _ _ _ En m) as [ls E].
    destruct (fleet_returned carried black raddr wz ls (R m) i c x E (Lg m) (h_ids _ (proj2 (proj2 (Un m))) i) Ret) as (q1 & j1 & k1 & N1 & E1 & _).
    assert (q1 = q) as ->; [|exists m, x, j1, k1; auto].
    assert (We := wrun_endless carried black raddr wz R FL En Un Lg). assert (Wu := wrun_undisturbed carried black raddr wz R FL En Un Lg).
    assert (Nm : In (ENew c q) (hist (sd (ws (r m)) i))) by (eapply LiveProof.event_stays; [exact We|exact Wu|exact Le|exact Nq]).
    destruct (LiveProof.drun _ _ _ _ _ _ We Wu m i) as [li Li]. destruct (DockProof4.inv_inv _ _ _ Li) as ([_ I2] & _). fold r in I2. rewrite <- (X m) in N1.
    apply I2 in N1. apply I2 in Nm. congruence.
Qed.

(* ---- routines and processes that have ended stay so ---- *)
Definition lasts (b b' : bsys) : Prop :=
  (forall o, gone b o = true -> gone b' o = true) /\ forall e, (ended (out b e) = true -> ended (out b' e) = true) /\ (reading (inb b e) = false -> reading (inb b' e) = false).
Lemma lasts_refl b : lasts b b. Proof. split; auto. Qed.
Lemma lasts_trans x y z : lasts x y -> lasts y z -> lasts x z.
Proof. intros [A B] [C D]. split; auto. intros e. destruct (B e), (D e). auto. Qed.
Lemma lasts_out e o b : (ended (out b e) = true -> ended o = true) -> lasts b (with_out e o b).
Proof. intros H. split; auto. intros x. split; auto. cbn. destruct (end_eqb_spec x e) as [->|N]; [rewrite upde_same; auto|now rewrite upde_other]. Qed.
Lemma lasts_inb e y b : (reading (inb b e) = false -> reading y = false) -> lasts b (with_inb e y b).
Proof. intros H. split; auto. intros x. split; auto. cbn. destruct (end_eqb_spec x e) as [->|N]; [rewrite upde_same; auto|now rewrite upde_other]. Qed.
Lemma lasts_lose o b : lasts b (lose_process o b).
Proof. split; [|auto]. intros x H. unfold lose_process. cbn [gone]. unfold updo. destruct x, o; auto; rewrite ?H; try (destruct (_ =? _)); auto. Qed.
Lemma lasts_push e p b : lasts b (push e p b).
Proof. split; auto. intros x. split; auto. cbn. destruct (end_eqb_spec x e) as [->|N]; [rewrite upde_same; auto|now rewrite upde_other]. Qed.
Lemma lasts_send e p b : lasts b (send e p b).
Proof. unfold send. destruct (room e b); [apply lasts_push|split; auto]. Qed.
Lemma lasts_sends i f ps : forall b, lasts b (fold_left (fun b p => send (DockEnd i p) (PQueryRequest f) b) ps b).
Proof. induction ps as [|p ps IH]; intros b; cbn [fold_left]; [apply lasts_refl|]. eapply lasts_trans; [apply lasts_send|apply IH]. Qed.
Lemma lasts_events i ps es : forall b b', fold_left (dock_event i ps) es (Some b) = Some b' -> lasts b b'.
Proof.
  induction es as [|ev es IH]; intros b b' H; cbn [fold_left] in H; [injection H as <-; apply lasts_refl|].
  destruct (dock_event i ps (Some b) ev) as [b1|] eqn:X; [|rewrite fold_none in H; [discriminate|reflexivity]].
  eapply lasts_trans; [|eapply IH; eauto]. assert (Z : Some b = Some b1 -> lasts b b1) by (intros [= <-]; apply lasts_refl).
  destruct ev; cbn [dock_event] in X; auto.
  - destruct accepted, (room (DockEnd i p) b); try discriminate; auto. assert (Y : b1 = push (DockEnd i p) (proto_of k) b) by congruence. subst b1. apply lasts_push.
  - assert (Y : b1 = fold_left (fun b p => send (DockEnd i p) (PQueryRequest f) b) ps b) by congruence. subst b1. apply lasts_sends.
Qed.
Lemma lasts_dock i l ps b b' : dock_does i l ps b = Some b' -> lasts b b'.
Proof. unfold dock_does. destruct (dstep (bd b i) l) as [d|]; [|discriminate]. intros H. eapply lasts_trans; [|eapply lasts_events; eauto]. split; auto. Qed.
Lemma lasts_hub black raddr l b b' : hub_does black raddr hostport l b = Some b' -> lasts b b'.
Proof.
  unfold hub_does. destruct (HubModel.hstep black raddr (bh b) l) as [h|]; [|discriminate]. intros H.
  assert (Y : b' = fold_left (hub_event hostport) (new_events (HubModel.hist (bh b)) (HubModel.hist h)) (with_hub h b)) by congruence. subst b'. clear H.
  assert (K0 : lasts b (with_hub h b)) by (split; auto). eapply lasts_trans; [exact K0|]. clear K0.
  generalize (with_hub h b). generalize (new_events (HubModel.hist (bh b)) (HubModel.hist h)).
  induction l0 as [|ev es IH]; intros b0; cbn [fold_left]; [apply lasts_refl|]. eapply lasts_trans; [|apply IH].
  destruct ev; cbn [hub_event]; try apply lasts_refl; apply lasts_send.
Qed.
Lemma lasts_step E black raddr wz b l b' : bstep E hub_end black raddr hostport wz b l = Some b' -> lasts b b'.
Proof.
  intros H. destruct l as [i l ps|l|x|x|x n|x|x n|x|x]; cbn [bstep] in H.
  - assert (X : dock_does i l ps b = Some b') by (destruct l; try discriminate H; (destruct (gone b (Some i)); [discriminate H|exact H])). eapply lasts_dock; eauto.
  - assert (X : hub_does black raddr hostport l b = Some b') by (destruct l; try discriminate H; (destruct (gone b None); [discriminate H|exact H])). eapply lasts_hub; eauto.
  - destruct (_ || _) eqn:G; [discriminate|]. apply orb_false_iff in G as [_ G]. destruct (holding (out b x)); [discriminate|]. destruct (queue (out b x)) as [|p q]; [discriminate|]. injection H as <-. apply lasts_out. congruence.
  - destruct (gone b (proc x)); [discriminate|]. unfold marshalled in H. destruct (holding (out b x)) as [p|]; [|discriminate].
    destruct (marshal (wz (proc x)) (pack p)) as [f| | |]; injection H as <-; try apply lasts_lose. apply lasts_out. auto.
  - destruct (gone b (proc x)); [discriminate|]. unfold marshalled in H. destruct (holding (out b x)) as [p|]; [|discriminate].
    destruct (marshal (wz (proc x)) (pack p)) as [f| | |]; injection H as <-; try apply lasts_lose. apply lasts_out. auto.
  - destruct (holding (out b x)) eqn:Hn; [discriminate|]. injection H as <-. apply lasts_out. auto.
  - destruct (other E hub_end x) as [x'|]; [|discriminate]. destruct (_ || _) eqn:G; [discriminate|]. injection H as <-.
    do 3 apply orb_false_iff in G as [G _]. apply orb_false_iff in G as [G _]. apply orb_false_iff in G as [_ G]. apply negb_false_iff in G.
    eapply lasts_trans; [apply (lasts_out x' (mkHalf (queue (out b x')) (holding (out b x')) (ended (out b x')) (skipn n (flight (out b x'))))); auto|]. apply lasts_inb. cbn. congruence.
  - destruct (_ || _) eqn:G; [discriminate|]. do 2 apply orb_false_iff in G as [G _]. apply orb_false_iff in G as [_ G]. apply negb_false_iff in G.
    destruct (unmarshal _ _) as [m| | |]; try (injection H as <-; apply lasts_lose).
    set (b1 := with_inb x _ b) in H. assert (M1 : lasts b b1) by (apply lasts_inb; congruence).
    eapply lasts_trans; [exact M1|]. destruct x as [i p|h]; [|eapply lasts_hub; eauto]. destruct (dock_packet _); [eapply lasts_dock; eauto|]. injection H as <-. apply lasts_refl.
  - injection H as <-. apply lasts_inb. auto.
Qed.

(* ---- what holds at the end of a run held before ---- *)
Section Before.
Variables (carried : nat -> list (name * bool)) (black : list Z) (raddr : nat -> name) (wz : option nat -> wsize).
Notation fstep := (fstep black raddr wz).
Lemma lasts_fleet n l n' : fstep n l = Some n' -> lasts (fb n) (fb n').
Proof.
  intros H. destruct (FleetLiveProof3.fstep_bytes black raddr wz _ _ _ H) as (ls & X & _). revert X. generalize (fb n). clear H.
  induction ls as [|k ls IH]; intros b X; cbn [exec] in X; [injection X as ->; apply lasts_refl|].
  destruct (bstep _ _ _ _ _ _ b k) as [b1|] eqn:Y; [|discriminate]. eapply lasts_trans; [eapply lasts_step; eauto|auto].
Qed.
Lemma lasts_run ls : forall n n', exec fstep n ls = Some n' -> lasts (fb n) (fb n').
Proof.
  induction ls as [|l ls IH]; intros n n' H; cbn [exec] in H; [injection H as <-; apply lasts_refl|].
  destruct (fstep n l) as [n1|] eqn:E; [|discriminate]. eapply lasts_trans; [eapply lasts_fleet; eauto|auto].
Qed.
Theorem before ls more n n' : exec fstep (finit carried) ls = Some n -> exec fstep n more = Some n' -> Forall (legitimate (across n') wz) (handed (fb n')) ->
  unbroken n' -> dropped (fb n') = false -> healthy (parts (fb n')) ->
  Forall (legitimate (across n) wz) (handed (fb n)) /\ unbroken n /\ dropped (fb n) = false /\ healthy (parts (fb n)).
Proof.
  intros E M L [U1 U2] D H.
  assert (Nb : numbered (outline n)).
  { clear - E. assert (Z : forall ls n0, numbered (outline n0) -> exec fstep n0 ls = Some n -> numbered (outline n)).
    { clear - carried. induction ls as [|l ls IH]; intros n0 N E; cbn [exec] in E; [injection E as <-; exact N|]. destruct (fstep n0 l) as [n1|] eqn:S; [|discriminate].
      apply (IH n1); auto. apply (fstep_extends carried black raddr wz _ _ _ N S). }
    apply (Z ls (finit carried)); auto. apply (finit_numbered carried raddr). }
  destruct (frun_extends carried black raddr wz more _ _ Nb M) as [X G]. destruct (lasts_run _ _ _ M) as [La Lb].
  assert (L0 : Forall (legitimate (across n) wz) (handed (fb n))).
  { apply (legits_less wz (fends n) (fends n') (fb n) X). apply (legits_grows (fends n') hub_end black hostport wz (fb n) (fb n') G L). }
  assert (D0 : dropped (fb n) = false) by (destruct (dropped (fb n)) eqn:Y; auto; apply G in Y; congruence).
  split; [exact L0|]. split; [|split; [exact D0|]].
  - split; [intros o; destruct (gone (fb n) o) eqn:Y; auto; apply La in Y; rewrite U1 in Y; discriminate|]. intros e A.
    assert (A' : across n' e <> None).
    { destruct (across n e) as [e'|] eqn:Y; [|congruence]. unfold across in *. rewrite (other_more _ _ _ _ X Y). discriminate. }
    destruct (U2 e A') as [V1 V2]. destruct (Lb e) as [W1 W2]. split; [destruct (ended (out (fb n) e)); [rewrite W1 in V1 by reflexivity; discriminate|reflexivity]|destruct (reading (inb (fb n) e)); [reflexivity|rewrite W2 in V2 by reflexivity; discriminate]].
  - destruct (fleet_sim carried black raddr wz whole Wh ls n E L0) as (ls1 & w & R1 & F & _).
    destruct (frun_sim carried black raddr wz whole Wh more ls1 n w n' R1 F Nb M L) as (ls2 & w' & R2 & F' & N2 & _).
    assert (Hw := healthy_before carried _ black raddr ls2 ls1 w w' R1 (N2 D) R2 (healthy_sim wz whole n' w' F' H)).
    destruct Hw as [h1 h2 h3 h4 h5 h6]. destruct (fsim_parts _ _ _ _ F) as [P Q]. split; cbn [parts sd sh].
    + intros i. rewrite <- P. apply h1.
    + rewrite <- Q. exact h2.
    + intros i. rewrite <- P. apply h3.
    + intros i. rewrite <- P. apply h4.
    + intros i. rewrite <- P. apply h5.
    + intros i. rewrite <- P. apply h6.
Qed.
End Before.
