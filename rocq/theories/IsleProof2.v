(* Harbors some of whose docks go on whatever becomes of the others (C82): the same goroutines
   as in HarborProof4.v, with fairness only for those of these docks. *)
From Verif Require Import Lts GoInt GoVal Tables CodecSpec ProtoModel DockModel DockSpec DockProof DockProof2 DockProof3 DockProof4 DockProof5 DockProof8 SysModel SysSpec SysProof SysCodec FullModel FullSpec FullProof WorldModel WorldSpec LiveSpec ByteModel ByteSpec FleetModel FleetSpec FleetLiveSpec HarborModel HarborSpec HarborProof HarborProof2 HarborProof3 HarborProof4 HarborProof5 IsleSpec.
From Verif Require FullProof4 FleetLiveProof4 ChanModel ChanSpec ChanProof ChanLiveSpec ChanLiveProof HubModel IsleProof.
From Coq Require Import Arith Bool List ZArith Lia.
Import ListNotations.
Open Scope nat_scope.

Section Harbor.
Context {O : Type}.
Variables (carried : nat -> list (name * bool)) (black : list Z) (raddr : nat -> name) (wz : option nat -> wsize).
Variable code : name -> nat.
Variable T : nat -> name -> ChanModel.target O gval.
Variable o0 : nat -> name -> O.
Notation fstep := (fstep black raddr wz).
Notation hstep := (hstep black raddr wz code T).
Notation hinit := (hinit carried o0).
Notation srv s i := (servers (bd (fb (hf s)) i)).
Variables (run : nat -> harbor O) (lab : nat -> option hlab).
Variable mine : nat -> Prop.
Hypothesis En : hendless carried black raddr wz code T o0 run lab.
Hypothesis Gg : going_on black raddr wz code T mine run lab.
Let Fa := go_fair _ _ _ _ _ _ _ _ Gg.
Let Tn := go_turns _ _ _ _ _ _ _ _ Gg.
Notation hreached := (hreached carried black raddr wz code T o0 run lab En).
Notation inv_at := (inv_at carried black raddr wz code T o0 run lab En).
Notation step_at := (HarborProof4.step_at carried black raddr wz code T o0 run lab En).
Notation still_at := (HarborProof4.still_at carried black raddr wz code T o0 run lab En).
Notation back_at := (HarborProof4.back_at carried black raddr wz code T o0 run lab En).
Notation turned := (HarborProof4.turned carried black raddr wz code T o0 run lab En).
Notation up_parts i := (HarborProof4.up_parts run i).
Lemma up_all i : mine i -> forall n, up i (run n) = true.
Proof.
  intros Mi n. pose proof (go_up _ _ _ _ _ _ _ _ Gg i n Mi) as U. unfold over in U. unfold up. destruct (state (bd (fb (hf (run n))) i)) eqn:E1; try (exfalso; apply U; left; congruence).
  destruct (gone (fb (hf (run n))) (Some i)) eqn:E2; [exfalso; apply U; auto|]. destruct (dead (run n) (Some i)) eqn:E3; [exfalso; apply U; auto|reflexivity].
Qed.

Section Feature.
Variables (i : nat) (f : name).
Hypothesis Mi : mine i.
Let Up := up_all i Mi.
Notation crun := (HarborProof4.crun run i f).
Notation clab := (HarborProof4.clab code run lab i f).
Notation receivable := (HarborProof4.receivable carried black raddr wz code T o0 run lab En i f Up).
Notation feat_none := (HarborProof4.feat_none black raddr wz code T run i f Up).
Notation feat_lab := (HarborProof4.feat_lab code run lab i f).
Notation c_endless := (HarborProof4.c_endless carried black raddr wz code T o0 run lab En i f).
Notation c_disciplined := (HarborProof4.c_disciplined carried black raddr wz code T o0 run lab En i f).
Notation c_no_panic := (HarborProof4.c_no_panic carried black raddr wz code T o0 run lab En i f Up).
Lemma c_receive g : ChanLiveSpec.goes_on (T i f) crun clab (ChanLiveSpec.KReceive g).
Proof.
  assert (Dec : forall n, (exists c, ChanModel.cstep (T i f) (crun n) (ChanModel.LReceive g) = Some c) \/ ChanLiveSpec.resting (T i f) (ChanLiveSpec.KReceive g) (crun n)).
  { intros n. destruct (ChanModel.cstep (T i f) (crun n) (ChanModel.LReceive g)) eqn:E; [left; eauto|right]. intros l Ol. destruct l; try destruct Ol. exact E. }
  intros n. destruct (Dec n) as [[c Ec]|R]; [|exists n; auto].
  destruct (receivable _ _ _ Ec) as [(k & sv & -> & _)|(m & x & -> & Ex & Ef & _)].
  - destruct (Fa (HtServe i k) i n eq_refl Mi) as (m & L & X). exists m. split; auto. destruct (Dec m) as [[c' Ec']|R]; [|auto]. right. exists (ChanModel.LReceive (server_id k)). split; [|reflexivity].
    destruct (receivable _ _ _ Ec') as [(k' & sv' & E & B & Ek & Es & Pc & Nn)|(m' & x & E & _)]; [apply server_inj in E as <-|now apply server_local in E].
    destruct X as [X|(l & El & [->|[->|(acc & ->)]])].
    + exfalso. apply Nn, X. cbn. auto.
    + exfalso. destruct (hstep_inv _ _ _ _ _ _ _ _ (step_at _ _ El)) as (_ & _ & _ & _ & _ & G & _). congruence.
    + unfold clab. rewrite El. cbn [chan_label]. rewrite Ek, Es, Nat.eqb_refl, zlist_refl. reflexivity.
    + exfalso. pose proof (step_at _ _ El) as S. cbn [HarborModel.hstep] in S. destruct (allowed _ _); [|discriminate]. cbn [FleetModel.fstep bstep] in S. destruct (gone _ _); [discriminate|].
      unfold dock_does in S. unfold dstep in S. rewrite Ek, Pc in S. destruct (state _); discriminate S.
  - destruct (Fa (HtLocal i m) i n eq_refl Mi) as (m1 & L & X). exists m1. split; auto. destruct (Dec m1) as [[c' Ec']|R]; [|auto]. right. exists (ChanModel.LReceive (local_id m)). split; [|reflexivity].
    destruct (receivable _ _ _ Ec') as [(k' & sv' & E & _)|(m' & x' & E & Ex' & Ef' & Nn)]; [symmetry in E; now apply server_local in E|apply local_inj in E as <-].
    destruct X as [X|(l & El & ->)]; [exfalso; apply Nn, X; reflexivity|]. unfold clab. rewrite El. cbn [chan_label]. rewrite Ex', Ef', Nat.eqb_refl, zlist_refl. reflexivity.
Qed.
Lemma c_goes_on k : ChanLiveSpec.goes_on (T i f) crun clab k.
Proof.
  destruct (match k with ChanLiveSpec.KReceive _ => true | _ => false end) eqn:D; [destruct k; try discriminate; apply c_receive|].
  intros n. destruct (Fa (HtFeat i f k) i n eq_refl Mi) as (m & L & [X|(l & El & (l' & -> & Ol))]); exists m; split; auto; [left|right; exists l'; split; auto; apply feat_lab, El].
  intros l Ol. apply feat_none; [apply X; exists l; auto|]. destruct k; try discriminate D; destruct l; try destruct Ol; reflexivity.
Qed.
Lemma c_turns : ChanLiveSpec.turns (T i f) crun clab.
Proof.
  intros g n. destruct (Tn i f g n Mi) as (m & L & [X|X]); exists m; split; auto; [left; apply feat_lab, X|right]. intros k Lk. apply feat_none; auto.
Qed.
(* every request made of the feature comes back *)
Lemma feature_returns n r g c m args : In (ChanModel.EIssue r g c m args) (deeds (run n) i f) -> exists n' a, n <= n' /\ In (ChanModel.EReturn g r r a) (deeds (run n') i f).
Proof. exact (ChanLiveProof.call_returns (T i f) (o0 i f) crun clab c_endless c_disciplined c_no_panic c_goes_on c_turns n r g c m args). Qed.
End Feature.

(* a local call *)
Lemma isle_local i : mine i -> forall n k f m args, nth_error (local_calls (hist (bd (fb (hf (run n))) i))) k = Some (f, m, args) ->
  exists n' r a, n <= n' /\ issued code (run n') i f m (local_id k) args r /\ In (ChanModel.EReturn (local_id k) r r a) (deeds (run n') i f) /\
    came_to (run n') i f m r (fst (outcome m a)) (snd (outcome m a)).
Proof.
  intros Mi n k f m args H. pose proof (inv_at n) as J. rewrite (v_locals _ _ J), nth_error_map in H.
  destruct (nth_error (locals (run n) i) k) as [x|] eqn:Ex; [|discriminate]. injection H as <- <- <-. destruct (v_placed _ _ J _ _ _ Ex) as [[r Is] _].
  destruct (feature_returns i (l_feature x) Mi _ _ _ _ _ _ Is) as (n' & a & L & Rt). exists n', r, a. split; auto.
  destruct (hreached n') as (ls & E). destruct (return_outcome _ _ _ _ _ _ _ _ _ _ _ _ _ _ _ E Rt) as (c & n1 & ar & I1 & C). split; [|auto].
  pose proof (inv_at n') as J'. destruct (v_asks _ _ J' _ _ _ _ _ _ _ I1) as [-> [(k' & sv & E' & _)|(m' & x' & E' & Ex' & Ef & -> & ->)]]; [symmetry in E'; now apply server_local in E'|]. apply local_inj in E' as <-.
  assert (x' = x) as ->; [|exact I1]. 
  assert (Gr : nth_error (locals (run n') i) k = Some x).
  { clear - Ex L En. induction L as [|m L IH]; auto. destruct (lab m) as [l|] eqn:El; [|now rewrite (still_at _ El)].
    destruct (hstep_inv _ _ _ _ _ _ _ _ (step_at _ _ El)) as (_ & _ & _ & Fl & _). rewrite Fl, nth_error_app1; auto. apply nth_error_Some. congruence. }
  congruence.
Qed.

Notation frun := (HarborProof4.frun run).
Notation flab_at := (HarborProof4.flab_at run lab).
Notation f_endless := (HarborProof4.f_endless carried black raddr wz code T o0 run lab En).
Lemma serve_fair i k n : mine i -> exists m, n <= m /\ (fresting black raddr wz (FtServe i k) (frun m) \/ exists l, flab_at m = Some l /\ of_ftask (FtServe i k) l).
Proof.
  intros Mi. pose proof (up_all i Mi) as Up.
  assert (SS : forall m sv acc, nth_error (srv (run m) i) k = Some sv -> lab m = Some (HFleet (FDock i (SSend k acc))) -> s_pc sv <> SRun).
  { intros m sv acc Ek El Pc. pose proof (step_at _ _ El) as S. cbn [HarborModel.hstep] in S. destruct (allowed _ _); [|discriminate]. cbn [FleetModel.fstep bstep] in S. destruct (gone _ _); [discriminate|].
    unfold dock_does in S. unfold dstep in S. rewrite Ek, Pc in S. destruct (state _); discriminate S. }
  assert (None_ : forall m l, of_ftask (FtServe i k) l -> fstep (frun m) l <> None -> exists sv, nth_error (srv (run m) i) k = Some sv /\ s_pc sv <> SDone).
  { intros m l Ol Nn. unfold frun in Nn. cbn [of_ftask] in Ol. assert (exists dl, l = FDock i dl /\ ((exists res err, dl = SExec k res err) \/ exists acc, dl = SSend k acc)) as (dl & -> & D).
    { destruct Ol as [(res & err & ->)|(acc & ->)]; eauto 10. }
    assert (Nd : dstep (bd (fb (hf (run m))) i) dl <> None).
    { intros Z. apply Nn. cbn [FleetModel.fstep]. assert (dock_does i dl (query_peers (outline (hf (run m))) i) (fb (hf (run m))) = None) as Y by (unfold dock_does; now rewrite Z).
      destruct D as [(res & err & ->)|(acc & ->)]; cbn [bstep]; destruct (gone _ _); auto; rewrite Y; reflexivity. }
    destruct D as [(res & err & ->)|(acc & ->)]; unfold dstep in Nd; destruct (state (bd (fb (hf (run m))) i)); try congruence; destruct (nth_error _ k) as [sv|]; try congruence; exists sv; split; auto; intros P; rewrite P in Nd; congruence. }
  assert (Later : forall m sv, n <= m -> nth_error (srv (run m) i) k = Some sv -> s_pc sv = SRun -> begun (run m) i k = true -> exists m, n <= m /\ (fresting black raddr wz (FtServe i k) (frun m) \/ exists l, flab_at m = Some l /\ of_ftask (FtServe i k) l)).
  { intros m sv L Ek Pc B. destruct (v_begun _ _ (inv_at m) _ _ B) as (sv' & Ek' & _ & _ & r & Is). rewrite Ek in Ek'. injection Ek' as <-.
    destruct (feature_returns i (q_slot (s_req sv)) Mi _ _ _ _ _ _ Is) as (m' & a & L' & Rt). destruct (back_at _ _ _ _ _ _ _ Rt) as (sv' & Ek' & P').
    destruct (turned _ _ _ _ _ _ L' Ek Pc Ek' P') as (j & Lj & El). exists j. split; [lia|]. right.
    destruct (hstep_inv _ _ _ _ _ _ _ _ (step_at _ _ El)) as (_ & _ & _ & _ & _ & _ & _ & G). unfold flab_at. rewrite El. cbn [fleet_label] in *.
    destruct (nth_error (srv (run j) i) k) as [sv1|]; [|congruence]. destruct (ChanModel.responses _ _) as [|[o a1] tl]; [congruence|]. eexists. split; [reflexivity|]. left. eauto. }
  destruct (Fa (HtServe i k) i n eq_refl Mi) as (m & L & X).
  destruct (nth_error (srv (run m) i) k) as [sv|] eqn:Ek.
  2:{ exists m. split; auto. left. intros l Ol. destruct (fstep (frun m) l) eqn:E; auto. destruct (None_ m l Ol) as (sv & Ek' & _); congruence. }
  destruct (up_parts i Up m) as (Al & Dd & Go).
  destruct (s_pc sv) as [|res err|] eqn:Pc.
  - destruct (begun (run m) i k) eqn:B; [eapply Later; eauto|].
    assert (Bn : exists s', hstep (run m) (HBegin i k) = Some s').
    { assert (Id : ChanModel.gor (feat (run m) i (q_slot (s_req sv))) (server_id k) = ChanModel.GIdle).
      { destruct (hreached m) as (ls & H). destruct (chan_runs _ _ _ _ _ _ _ _ _ i (q_slot (s_req sv)) H) as (lc & E & _).
        assert (D : ChanModel.gor (feat (run m) i (q_slot (s_req sv))) (server_id k) = ChanModel.GIdle \/ ChanModel.gor (feat (run m) i (q_slot (s_req sv))) (server_id k) <> ChanModel.GIdle) by (destruct (ChanModel.gor _ _); auto; right; discriminate).
        destruct D as [D|D]; auto. exfalso. destruct (busy_issued _ _ _ _ _ E D) as (r0 & c0 & m0 & a0 & I).
        destruct (v_asks _ _ (inv_at m) _ _ _ _ _ _ _ I) as [_ [(k' & sv' & E' & B' & _)|(n' & x & E' & _)]]; [apply server_inj in E' as <-; congruence|now apply server_local in E']. }
      destruct (call_enabled (T i (q_slot (s_req sv))) (feat (run m) i (q_slot (s_req sv))) (server_id k) (server_id k) (code (q_method (s_req sv))) (q_args (s_req sv)) (v_dead _ _ (inv_at m) i _ Dd) Id) as [c Hc].
      cbn [HarborModel.hstep]. rewrite (Up m), B, Ek, Hc. cbn. eauto. }
    destruct X as [X|(l & El & [->|[->|(acc & ->)]])].
    + exfalso. destruct Bn as (s' & Bn). rewrite X in Bn by (cbn; auto). discriminate.
    + pose proof (step_at _ _ El) as S. destruct (servers_keep carried _ _ _ _ _ o0 _ _ _ _ _ _ S Ek) as (sv1 & Ek1 & _ & _ & _ & Q). apply (Later (Datatypes.S m) sv1); auto.
      * destruct (s_pc sv1) eqn:P1; auto; (assert (Z : HBegin i k = HReturn i k) by (apply Q; auto; discriminate)); discriminate Z.
      * destruct (hstep_inv _ _ _ _ _ _ _ _ S) as (_ & _ & Fb & _). rewrite Fb, !Nat.eqb_refl. apply orb_true_r.
    + exfalso. destruct (hstep_inv _ _ _ _ _ _ _ _ (step_at _ _ El)) as (_ & _ & _ & _ & _ & G & _). congruence.
    + exfalso. exact (SS _ _ _ Ek El Pc).
  - exists m. split; auto. destruct X as [X|(l & El & [->|[->|(acc & ->)]])].
    + exfalso. destruct (send_can black raddr wz (hf (run m)) i k sv res err Al Go Ek Pc) as (acc & x & Ex).
      assert (Z : hstep (run m) (HFleet (FDock i (SSend k acc))) = None) by (apply X; cbn; eauto). cbn [HarborModel.hstep] in Z. unfold allowed in Z. cbn [actor andb] in Z. rewrite Dd in Z. cbn [negb] in Z. rewrite Ex in Z. discriminate Z.
    + exfalso. destruct (hstep_inv _ _ _ _ _ _ _ _ (step_at _ _ El)) as (_ & _ & _ & _ & _ & G & _). specialize (v_fresh _ _ (inv_at m) _ _ _ G Ek). congruence.
    + exfalso. pose proof (step_at _ _ El) as S. destruct (hstep_inv _ _ _ _ _ _ _ _ S) as (Fs & _ & _ & _ & _ & _ & _ & G). cbn [fleet_label] in *. rewrite Ek in *.
      destruct (ChanModel.responses _ _) as [|[o a1] tl]; [congruence|]. cbn [optstep FleetModel.fstep bstep] in Fs. rewrite Go in Fs. unfold dock_does in Fs. unfold dstep in Fs. rewrite Al, Ek, Pc in Fs. discriminate Fs.
    + right. exists (FDock i (SSend k acc)). split; [unfold flab_at; now rewrite El|]. right. eauto.
  - exists m. split; auto. left. intros l Ol. destruct (fstep (frun m) l) eqn:E; auto. destruct (None_ m l Ol) as (sv' & Ek' & P); congruence.
Qed.
(* what these goroutines may do *)
Lemma plain_allowed t i l n : owner t = Some i -> mine i -> (forall i k, t <> FtServe i k) -> of_ftask t l -> (forall i p j m, l <> FConnect i p j m) -> allowed (run n) l = true.
Proof.
  intros Ow Mi N H Nc. destruct (up_parts i (up_all i Mi) n) as (_ & Dd & _). unfold allowed.
  destruct t as [e|e|j q|i' j|i' c|i' k|i' b|t]; cbn [of_ftask] in H; cbn [owner] in Ow; try discriminate Ow; try (destruct e as [i' p|h]; [|discriminate Ow]); injection Ow as ->.
  - destruct H as [-> | ->]; cbn [actor site]; rewrite ?Dd; reflexivity.
  - destruct H as [->|[(k & _ & ->)|H]]; [cbn; now rewrite Dd..|]. cbn [handling] in H.
    destruct l as [j dl| | | | |j p' j' m| |]; try (exfalso; exact H); try (destruct H as [-> ->]; cbn [actor site]; rewrite Dd; reflexivity); [|elim (Nc j p' j' m); reflexivity].
    destruct dl; try (exfalso; exact H); destruct H as [-> ->]; cbn [actor site]; rewrite Dd; reflexivity.
  - subst l. cbn [actor site]. now rewrite Dd.
  - destruct H as (ns & acc & ->). cbn [actor site]. now rewrite Dd.
  - destruct H as (acc & ->). cbn [actor site]. now rewrite Dd.
  - elim (N i k). reflexivity.
  - subst l. cbn [actor site]. now rewrite Dd.
Qed.
Lemma fail_can n i p a : mine i -> handlers (bd (fb (hf (run n))) i) p = ADial a -> hstep (run n) (HFleet (FFail i p)) <> None.
Proof.
  intros Mi Hh. destruct (up_parts i (up_all i Mi) n) as (Al & Dd & Gn). cbn [HarborModel.hstep]. unfold allowed. cbn [actor site andb]. rewrite Dd. cbn [negb FleetModel.fstep]. rewrite Hh. cbn [bstep]. rewrite Gn. unfold dock_does, dstep. rewrite Al, Hh.
  cbn [hist with_state]. unfold new_events. rewrite skipn_all. cbn. discriminate.
Qed.
Lemma isle_fair t i n : owner t = Some i -> mine i -> exists m, n <= m /\ (fresting black raddr wz t (frun m) \/ exists l, flab_at m = Some l /\ of_ftask t l).
Proof.
  intros Ow Mi. assert (D : (exists i k, t = FtServe i k) \/ forall i k, t <> FtServe i k) by (destruct t; try (right; discriminate); left; eauto).
  destruct D as [(i' & k & ->)|N]; [apply serve_fair; injection Ow as ->; exact Mi|].
  destruct (Fa (HtFleet t) i n Ow Mi) as (m & L & X). exists m. split; auto.
  assert (E : forall l, of_htask (HtFleet t) l <-> exists l', l = HFleet l' /\ of_ftask t l') by (intros l; destruct t; cbn [of_htask]; try tauto; elim (N i0 k); reflexivity).
  destruct X as [X|(l & El & Ol)]; [left|right].
  - intros l Ol. assert (Z : forall l, of_ftask t l -> hstep (run m) (HFleet l) = None) by (intros l' Ol'; apply X, E; eauto).
    destruct (match l with FConnect _ _ _ _ => true | _ => false end) eqn:Dl.
    + destruct l as [| | | | |i' p j mm| |]; try discriminate Dl. unfold HarborProof4.frun. cbn [FleetModel.fstep]. destruct (handlers (bd (fb (hf (run m))) i') p) eqn:Hh; auto. exfalso.
      destruct t as [e|e|j' q|i2 j'|i2 c|i2 k|i2 b|t]; cbn [of_ftask] in Ol; try discriminate Ol; try (destruct Ol as [Ol|Ol]; discriminate Ol); try (destruct Ol as (? & ? & Ol); discriminate Ol); try (destruct Ol as (? & Ol); discriminate Ol); [|elim (N i2 k); reflexivity].
      destruct Ol as [Ol|[(k & _ & Ol)|Ol]]; try discriminate Ol. destruct e as [i2 p2|h]; [|discriminate Ol]. destruct Ol as [-> ->]. injection Ow as ->. apply (fail_can m i p2 _ Mi Hh). apply Z. right. right. cbn [handling]. auto.
    + assert (Y := Z l Ol). cbn [HarborModel.hstep] in Y. rewrite (plain_allowed t i l m Ow Mi N Ol) in Y by (intros i' p j mm ->; discriminate Dl). unfold HarborProof4.frun. destruct (fstep (hf (run m)) l); [discriminate|reflexivity].
  - apply E in Ol as (l' & -> & Ol). exists l'. split; auto. unfold HarborProof4.flab_at. now rewrite El.
Qed.

Hypothesis Lg : flegitimate wz frun.
Lemma alive_at i n : mine i -> state (bd (fb (frun n)) i) = Alive.
Proof. intros Mi. apply (up_parts i (up_all i Mi) n). Qed.
Lemma stay_at i n : mine i -> gone (fb (frun n)) (Some i) = false.
Proof. intros Mi. apply (up_parts i (up_all i Mi) n). Qed.

(* where a call that has returned went *)
Lemma performed_there n m i p j q c x : n <= m -> fends (hf (run n)) i p = ToDock j q -> NoDup (map q_index (requests (hist (bd (fb (hf (run m))) i)))) ->
  In (ECommit c p true) (hist (bd (fb (hf (run m))) i)) -> In (EReturn c x) (hist (bd (fb (hf (run m))) i)) ->
  exists rq k r, In (ENew c rq) (hist (bd (fb (hf (run m))) i)) /\ performed carried code (run m) i rq j k r x.
Proof.
  intros L Lk Nd Co Re. destruct (hreached m) as (ls & E).
  destruct (returned_where _ _ _ _ _ _ _ _ _ _ _ _ E (Lg m) Nd Re) as (q0 & p0 & j0 & p0' & k0 & req & Nq0 & Co0 & E1 & E2 & Acc & Ix & Ru).
  destruct (dock_runs _ _ _ _ _ _ _ _ _ i E) as [ld Hd]. destruct (commits_two _ _ _ _ _ _ Co Co0 (commit_once _ _ _ c Hd)) as [<- _].
  assert (Lk2 : fends (hf (run m)) i p = ToDock j q) by (rewrite <- Lk; apply (FleetLiveProof4.ext _ _ _ _ _ _ f_endless n m L); unfold HarborProof4.frun; congruence).
  rewrite Lk2 in E1. injection E1 as <- <-.
  destruct (remote_call _ _ _ _ _ _ _ _ _ _ _ _ E (Lg m) Nd Re) as (rq & j1 & k & r & Nq & Pf & U).
  assert (rq = q0) as -> by (eapply new_unique; eauto).
  exists q0, k, r. split; auto. assert (j1 = j) as <-; [|exact Pf].
  destruct (runs k0 (hist (bd (fb (hf (run m))) j))) as [|[res err] tl] eqn:Er; [congruence|].
  assert (Hr : In (ERan k0 res err) (hist (bd (fb (hf (run m))) j))) by (apply (FullProof4.runs_in k0 _ (res, err)); rewrite Er; now left).
  destruct (run_outcome _ _ _ _ _ _ _ _ _ _ _ _ _ E Hr) as (p1 & q1 & r1 & Acc1 & Is & _). unfold issued in Is.
  symmetry. eapply (U j k0 req); [exists q, p; cbn [sd parts]; auto|exact Ix|exact Is].
Qed.
Section Pair.
Variables i p j q : nat.
Hypotheses (Mi : mine i) (Mj : mine j) (Wi : working run i p) (Wj : working run j q).
Hypothesis Cl : forall n, ~ cleared (hist (bd (fb (hf (run n))) j)).
Hypothesis Nd : forall n, NoDup (map q_index (requests (hist (bd (fb (hf (run n))) i)))).
Lemma isle_committed n c : fends (hf (run n)) i p = ToDock j q -> In (ECommit c p true) (hist (bd (fb (hf (run n))) i)) ->
  exists m x rq k r, n <= m /\ returns c (hist (bd (fb (hf (run m))) i)) = [x] /\ In (ENew c rq) (hist (bd (fb (hf (run m))) i)) /\ performed carried code (run m) i rq j k r x.
Proof.
  intros Lk Co.
  destruct (IsleProof.committed_call carried black raddr wz frun flab_at mine f_endless isle_fair alive_at stay_at Lg i p j q c n Mi Mj Lk) as (m & L & Rn); auto.
  - intros m. exact (conj (wk_out _ _ _ Wi m) (conj (wk_out _ _ _ Wj m) (conj (wk_in _ _ _ Wi m) (wk_in _ _ _ Wj m)))).
  - exact (wk_range _ _ _ Wi).
  - exact (wk_range _ _ _ Wj).
  - exact (wk_room _ _ _ Wj).
  - destruct (hreached m) as (ls & E). destruct (dock_runs _ _ _ _ _ _ _ _ _ i E) as [ld Hd]. pose proof (return_once _ _ _ c Hd) as On. unfold HarborProof4.frun in Rn.
    destruct (returns c (hist (bd (fb (hf (run m))) i))) as [|x [|y tl]] eqn:Er; [congruence| |cbn in On; lia].
    assert (Re : In (EReturn c x) (hist (bd (fb (hf (run m))) i))).
    { assert (Z : In x (returns c (hist (bd (fb (hf (run m))) i)))) by (rewrite Er; now left). unfold returns in Z. apply in_flat_map in Z as (e & Ie & Z). destruct e; try destruct Z.
      destruct (Nat.eqb_spec c0 c) as [->|]; [|destruct Z]. destruct Z as [->|[]]. exact Ie. }
    assert (Co2 : In (ECommit c p true) (hist (bd (fb (hf (run m))) i))) by exact (IsleProof.event_stays carried black raddr wz frun flab_at f_endless n m i _ L Co).
    destruct (performed_there n m i p j q c x L Lk (Nd m) Co2 Re) as (rq & k & r & Nq & Pf). exists m, x, rq, k, r. auto.
Qed.
Lemma isle_known n0 n c rq : fends (hf (run n0)) i p = ToDock j q -> In (ECached (q_slot rq) p) (hist (bd (fb (hf (run n0))) i)) ->
  (forall m p', In (ECached (q_slot rq) p') (hist (bd (fb (hf (run m))) i)) -> p' = p) ->
  ~ In (ENew c rq) (hist (bd (fb (hf (run n0))) i)) -> In (ENew c rq) (hist (bd (fb (hf (run n))) i)) ->
  exists m x k r, n <= m /\ returns c (hist (bd (fb (hf (run m))) i)) = [x] /\ performed carried code (run m) i rq j k r x.
Proof.
  intros Lk Ch On No Nq.
  destruct (IsleProof.known_commits carried black raddr wz frun flab_at mine f_endless isle_fair alive_at stay_at Lg i p c rq n0 n Mi Ch On No Nq) as (m & acc & L & Co & q' & Se).
  destruct acc; [|destruct (wk_room _ _ _ Wi _ _ Se)].
  assert (L0 : n0 <= n) by (destruct (Nat.le_gt_cases n0 n) as [|X]; auto; exfalso; apply No; apply (IsleProof.event_stays carried black raddr wz frun flab_at f_endless n n0 i); [lia|exact Nq]).
  assert (Lk2 : fends (hf (run m)) i p = ToDock j q) by (rewrite <- Lk; apply (FleetLiveProof4.ext _ _ _ _ _ _ f_endless n0 m); [lia|unfold HarborProof4.frun; congruence]).
  destruct (isle_committed m c Lk2 Co) as (m2 & x & rq' & k & r & L2 & Rx & Nq' & Pf). exists m2, x, k, r. split; [lia|]. split; auto.
  destruct (hreached m2) as (ls & E). destruct (dock_runs _ _ _ _ _ _ _ _ _ i E) as [ld Hd].
  assert (rq' = rq) as <-; [|exact Pf]. eapply new_unique; [exact Hd|exact Nq'|]. apply (IsleProof.event_stays carried black raddr wz frun flab_at f_endless n m2 i); [lia|exact Nq].
Qed.
End Pair.
End Harbor.
