(* Endless runs of networks with their features. *)
From Verif Require Import Lts GoInt GoVal Tables CodecSpec ProtoModel DockModel DockSpec DockProof DockProof2 SysModel SysSpec SysProof SysCodec FullModel FullSpec FullProof WorldModel WorldSpec LiveSpec ByteModel ByteSpec FleetModel FleetSpec FleetLiveSpec HarborModel HarborSpec HarborProof HarborProof2 HarborProof3.
From Verif Require ChanModel ChanSpec ChanProof ChanLiveSpec ChanLiveProof HubModel FleetLiveProof5.
From Coq Require Import Arith Bool List ZArith Lia.
Import ListNotations.
Open Scope nat_scope.

Lemma returned_by {O} (U : ChanModel.target O gval) c l c' g r o a : ChanModel.cstep U c l = Some c' -> In (ChanModel.EReturn g r o a) (ChanModel.hist c') ->
  In (ChanModel.EReturn g r o a) (ChanModel.hist c) \/ l = ChanModel.LReceive g.
Proof.
  intros H I. destruct l; ChanProof.steps H; cbn in I; auto; try (apply in_app_iff in I as [I|[I|[]]]; auto; try discriminate I).
  injection I as <- _ _ _. auto.
Qed.

Section Can.
Variables (black : list Z) (raddr : nat -> name) (wz : option nat -> wsize).
Notation fstep := (fstep black raddr wz).
Lemma exec_can n i k sv res err : state (bd (fb n) i) = Alive -> gone (fb n) (Some i) = false -> nth_error (servers (bd (fb n) i)) k = Some sv -> s_pc sv = SRun ->
  exists n', fstep n (FDock i (SExec k res err)) = Some n'.
Proof.
  intros Al Go Ek Pc. cbn [FleetModel.fstep bstep]. rewrite Go. unfold dock_does, dstep. rewrite Al, Ek, Pc. cbn [hist adds with_servers]. rewrite new_app. cbn. eauto.
Qed.
Lemma send_can n i k sv res err : state (bd (fb n) i) = Alive -> gone (fb n) (Some i) = false -> nth_error (servers (bd (fb n) i)) k = Some sv -> s_pc sv = SReply res err ->
  exists acc n', fstep n (FDock i (SSend k acc)) = Some n'.
Proof.
  intros Al Go Ek Pc. exists (room (DockEnd i (s_peer sv)) (fb n)). cbn [FleetModel.fstep bstep]. rewrite Go. unfold dock_does, dstep. rewrite Al, Ek, Pc. cbn [hist adds with_servers]. rewrite new_app. cbn [fold_left dock_event].
  change (room (DockEnd i (s_peer sv)) (with_dock _ _ (fb n))) with (room (DockEnd i (s_peer sv)) (fb n)). destruct (room (DockEnd i (s_peer sv)) (fb n)); cbn; eauto.
Qed.
End Can.

Section Harbor.
Context {O : Type}.
Variables (carried : nat -> list (name * bool)) (black : list Z) (raddr : nat -> name) (wz : option nat -> wsize).
Variable code : name -> nat.
Variable T : nat -> name -> ChanModel.target O gval.
Variable o0 : nat -> name -> O.
Notation fstep := (fstep black raddr wz).
Notation hstep := (hstep black raddr wz code T).
Notation hinit := (hinit carried o0).
Notation srv s i := (servers (bd (fb (hf s)) i)).
Variables (run : nat -> harbor O) (lab : nat -> option hlab).
Hypothesis En : hendless carried black raddr wz code T o0 run lab.

Lemma hreached n : exists ls, exec hstep hinit ls = Some (run n).
Proof.
  induction n as [|n (ls & IH)]; [exists []; cbn; now rewrite (he_start _ _ _ _ _ _ _ _ _ En)|]. pose proof (he_step _ _ _ _ _ _ _ _ _ En n) as S. destruct (lab n) as [l|].
  - exists (ls ++ [l]). rewrite exec_app, IH. cbn [exec]. now rewrite S.
  - exists ls. now rewrite S.
Qed.
Lemma inv_at n : inv code (run n).
Proof. destruct (hreached n) as (ls & E). exact (inv_exec _ _ _ _ _ _ _ _ _ E). Qed.
Lemma step_at n l : lab n = Some l -> hstep (run n) l = Some (run (S n)).
Proof. intros H. pose proof (he_step _ _ _ _ _ _ _ _ _ En n) as S. rewrite H in S. exact S. Qed.
Lemma still_at n : lab n = None -> run (S n) = run n.
Proof. intros H. pose proof (he_step _ _ _ _ _ _ _ _ _ En n) as S. rewrite H in S. exact S. Qed.

(* a request whose call has come back is no longer running *)
Lemma back_at n i f k r o a : In (ChanModel.EReturn (server_id k) r o a) (deeds (run n) i f) -> exists sv, nth_error (srv (run n) i) k = Some sv /\ s_pc sv <> SRun.
Proof.
  induction n as [|n IH]; intros H; [rewrite (he_start _ _ _ _ _ _ _ _ _ En) in H; destruct H|]. destruct (lab n) as [l|] eqn:El; [|rewrite (still_at _ El) in *; auto].
  pose proof (step_at _ _ El) as S. destruct (hstep_inv _ _ _ _ _ _ _ _ S) as (_ & Fc & _ & _ & _ & G). specialize (Fc i f).
  assert (G' : match l with HFeat _ _ l => inside l = true | _ => True end) by (destruct l; auto).
  assert (Old : In (ChanModel.EReturn (server_id k) r o a) (deeds (run n) i f) \/ l = HReturn i k).
  { destruct (chan_label code (run n) l i f) as [cl|] eqn:Ec; cbn [optstep] in Fc; [|unfold deeds in *; rewrite Fc in H; auto].
    destruct (returned_by _ _ _ _ _ _ _ _ Fc H) as [| ->]; auto. right. destruct (chan_receive _ _ _ _ _ _ G' Ec) as [(k' & -> & E)|(m & _ & E)]; [apply server_inj in E as <-; auto|now apply server_local in E]. }
  destruct Old as [X| ->].
  - destruct (IH X) as (sv & Ek & P). destruct (servers_keep carried _ _ _ _ _ o0 _ _ _ _ _ _ S Ek) as (sv' & Ek' & _ & P' & _). eauto.
  - destruct G as (_ & G & _). destruct (nth_error (srv (run n) i) k) as [sv|] eqn:Ek; [|congruence]. destruct (servers_keep carried _ _ _ _ _ o0 _ _ _ _ _ _ S Ek) as (sv' & Ek' & _ & _ & P & _).
    exists sv'. split; auto. intros Q. exact (P Q eq_refl).
Qed.
(* between running and not running the call returns *)
Lemma turned n m i k sv sv' : n <= m -> nth_error (srv (run n) i) k = Some sv -> s_pc sv = SRun -> nth_error (srv (run m) i) k = Some sv' -> s_pc sv' <> SRun ->
  exists j, n <= j /\ lab j = Some (HReturn i k).
Proof.
  intros L. revert sv. remember (m - n) as d eqn:Ed. assert (m = d + n) as -> by lia. clear L Ed. revert n. induction d as [|d IH]; intros n sv Ek P Ek' P'.
  - cbn in Ek'. rewrite Ek in Ek'. injection Ek' as <-. contradiction.
  - destruct (lab n) as [l|] eqn:El.
    + pose proof (step_at _ _ El) as S. destruct (servers_keep carried _ _ _ _ _ o0 _ _ _ _ _ _ S Ek) as (sv1 & Ek1 & _ & _ & _ & Q).
      destruct (s_pc sv1) eqn:Pc; [|exists n; split; auto; rewrite El; f_equal; apply Q; auto; discriminate..].
      destruct (IH (Datatypes.S n) sv1 Ek1 Pc) as (j & Lj & Y); [now rewrite Nat.add_succ_r|auto|]. exists j. split; [lia|auto].
    + destruct (IH (Datatypes.S n) sv) as (j & Lj & Y); auto; [now rewrite (still_at _ El)|now rewrite Nat.add_succ_r|]. exists j. split; [lia|auto].
Qed.

Hypothesis Fa : hfair black raddr wz code T run lab.

Section Feature.
Variables (i : nat) (f : name).
Hypothesis Up : forall n, up i (run n) = true.
Lemma up_parts n : state (bd (fb (hf (run n))) i) = Alive /\ dead (run n) (Some i) = false /\ gone (fb (hf (run n))) (Some i) = false.
Proof. pose proof (Up n) as U. unfold up in U. destruct (state _); try discriminate. apply andb_prop in U as [A B]. apply negb_true_iff in A, B. auto. Qed.
Definition crun n := feat (run n) i f.
Definition clab n := match lab n with Some l => chan_label code (run n) l i f | None => None end.
Lemma c_endless : ChanLiveSpec.endless (T i f) (o0 i f) crun clab.
Proof.
  split; [unfold crun; now rewrite (he_start _ _ _ _ _ _ _ _ _ En)|]. intros n. unfold clab, crun. destruct (lab n) as [l|] eqn:El; [|now rewrite (still_at _ El)].
  destruct (hstep_inv _ _ _ _ _ _ _ _ (step_at _ _ El)) as (_ & Fc & _). specialize (Fc i f). destruct (chan_label code (run n) l i f); exact Fc.
Qed.
Lemma c_disciplined : ChanLiveSpec.disciplined clab.
Proof.
  intros n. eapply matched_discipline; [exact (ChanLiveProof.reached _ _ _ _ c_endless n)|]. intros g k m a H. unfold ChanLiveSpec.schedule in H. apply in_flat_map in H as (x & _ & H).
  destruct (clab x) as [cl|] eqn:Ec; [|destruct H]. destruct H as [->|[]]. unfold clab in Ec. destruct (lab x) as [l|] eqn:El; [|discriminate].
  destruct (hstep_inv _ _ _ _ _ _ _ _ (step_at _ _ El)) as (_ & _ & _ & _ & _ & G).
  destruct (chan_call code (run x) l i f g k m a) as [-> _]; auto. destruct l; auto.
Qed.
Lemma c_no_panic : ChanLiveSpec.no_panic crun.
Proof. intros n. apply (v_dead _ _ (inv_at n)), up_parts. Qed.
Lemma feat_none n l : hstep (run n) (HFeat i f l) = None -> inside l = true -> ChanModel.cstep (T i f) (crun n) l = None.
Proof. intros H I. cbn [HarborModel.hstep] in H. rewrite Up, I in H. cbn [andb] in H. unfold crun. destruct (ChanModel.cstep (T i f) (feat (run n) i f) l); [discriminate|reflexivity]. Qed.
Lemma feat_lab n l : lab n = Some (HFeat i f l) -> clab n = Some l.
Proof. intros H. unfold clab. rewrite H. cbn. now rewrite Nat.eqb_refl, zlist_refl. Qed.
(* who can receive *)
Lemma receivable n g c : ChanModel.cstep (T i f) (crun n) (ChanModel.LReceive g) = Some c ->
  (exists k sv, g = server_id k /\ begun (run n) i k = true /\ nth_error (srv (run n) i) k = Some sv /\ q_slot (s_req sv) = f /\ s_pc sv = SRun /\ hstep (run n) (HReturn i k) <> None) \/
  (exists m x, g = local_id m /\ nth_error (locals (run n) i) m = Some x /\ l_feature x = f /\ hstep (run n) (HLocalReturn i m) <> None).
Proof.
  intros Ec. destruct (hreached n) as (ls & H). pose proof (inv_at n) as J. destruct (up_parts n) as (Al & Dd & Go). destruct (chan_runs _ _ _ _ _ _ _ _ _ i f H) as (lc & E & M).
  destruct (receive_effect _ _ _ _ Ec) as (r1 & o1 & a1 & Gw & Er & _). unfold crun in *.
  destruct (busy_issued _ _ _ _ g E) as (r0 & c0 & m0 & a0 & I); [congruence|].
  assert (Wc := waiting_caller _ _ _ _ _ _ _ (chan_runs _ _ _ _ _ _ _ _ _ i f H) Gw). rewrite Wc in Er.
  destruct (v_asks _ _ J _ _ _ _ _ _ _ I) as [-> [(k & sv & -> & B & Ek & Es & -> & ->)|(n' & x & -> & Ex & Ef & -> & ->)]]; [left|right].
  - destruct (v_begun _ _ J _ _ B) as (sv' & Ek' & Run & NRun & _). rewrite Ek in Ek'. injection Ek' as <-. rewrite Es in *.
    assert (Pc : s_pc sv = SRun) by (destruct (s_pc sv); auto; exfalso; rewrite NRun in Gw; try discriminate; discriminate).
    exists k, sv. repeat split; auto. cbn [HarborModel.hstep]. rewrite Up, B, Ek, Es, Ec. cbn [andb].
    destruct (ChanModel.responses (feat (run n) i f) (server_id k)) as [|[o a] tl]; [discriminate|].
    destruct (exec_can black raddr wz (hf (run n)) i k sv (fst (outcome (q_method (s_req sv)) a)) (snd (outcome (q_method (s_req sv)) a)) Al Go Ek Pc) as [x ->]. discriminate.
  - exists n', x. repeat split; auto. cbn [HarborModel.hstep]. rewrite Up, Ex, Ef, Ec. discriminate.
Qed.
Lemma c_receive g : ChanLiveSpec.goes_on (T i f) crun clab (ChanLiveSpec.KReceive g).
Proof.
  assert (Dec : forall n, (exists c, ChanModel.cstep (T i f) (crun n) (ChanModel.LReceive g) = Some c) \/ ChanLiveSpec.resting (T i f) (ChanLiveSpec.KReceive g) (crun n)).
  { intros n. destruct (ChanModel.cstep (T i f) (crun n) (ChanModel.LReceive g)) eqn:E; [left; eauto|right]. intros l Ol. destruct l; try destruct Ol. exact E. }
  intros n. destruct (Dec n) as [[c Ec]|R]; [|exists n; auto].
  destruct (receivable _ _ _ Ec) as [(k & sv & -> & _)|(m & x & -> & Ex & Ef & _)].
  - destruct (Fa (HtServe i k) n) as (m & L & X). exists m. split; auto. destruct (Dec m) as [[c' Ec']|R]; [|auto]. right. exists (ChanModel.LReceive (server_id k)). split; [|reflexivity].
    destruct (receivable _ _ _ Ec') as [(k' & sv' & E & B & Ek & Es & Pc & Nn)|(m' & x & E & _)]; [apply server_inj in E as <-|now apply server_local in E].
    destruct X as [X|(l & El & [->|[->|(acc & ->)]])].
    + exfalso. apply Nn, X. cbn. auto.
    + exfalso. destruct (hstep_inv _ _ _ _ _ _ _ _ (step_at _ _ El)) as (_ & _ & _ & _ & _ & G & _). congruence.
    + unfold clab. rewrite El. cbn [chan_label]. rewrite Ek, Es, Nat.eqb_refl, zlist_refl. reflexivity.
    + exfalso. pose proof (step_at _ _ El) as S. cbn [HarborModel.hstep] in S. destruct (allowed _ _); [|discriminate]. cbn [FleetModel.fstep bstep] in S. destruct (gone _ _); [discriminate|].
      unfold dock_does in S. unfold dstep in S. rewrite Ek, Pc in S. destruct (state _); discriminate S.
  - destruct (Fa (HtLocal i m) n) as (m1 & L & X). exists m1. split; auto. destruct (Dec m1) as [[c' Ec']|R]; [|auto]. right. exists (ChanModel.LReceive (local_id m)). split; [|reflexivity].
    destruct (receivable _ _ _ Ec') as [(k' & sv' & E & _)|(m' & x' & E & Ex' & Ef' & Nn)]; [symmetry in E; now apply server_local in E|apply local_inj in E as <-].
    destruct X as [X|(l & El & ->)]; [exfalso; apply Nn, X; reflexivity|]. unfold clab. rewrite El. cbn [chan_label]. rewrite Ex', Ef', Nat.eqb_refl, zlist_refl. reflexivity.
Qed.
Lemma c_goes_on k : ChanLiveSpec.goes_on (T i f) crun clab k.
Proof.
  destruct (match k with ChanLiveSpec.KReceive _ => true | _ => false end) eqn:D; [destruct k; try discriminate; apply c_receive|].
  intros n. destruct (Fa (HtFeat i f k) n) as (m & L & [X|(l & El & (l' & -> & Ol))]); exists m; split; auto; [left|right; exists l'; split; auto; apply feat_lab, El].
  intros l Ol. apply feat_none; [apply X; exists l; auto|]. destruct k; try discriminate D; destruct l; try destruct Ol; reflexivity.
Qed.
Hypothesis Tn : hturns black raddr wz code T run lab.
Lemma c_turns : ChanLiveSpec.turns (T i f) crun clab.
Proof.
  intros g n. destruct (Tn i f g n) as (m & L & [X|X]); exists m; split; auto; [left; apply feat_lab, X|right]. intros k Lk. apply feat_none; auto.
Qed.
(* every request made of the feature comes back *)
Lemma feature_returns n r g c m args : In (ChanModel.EIssue r g c m args) (deeds (run n) i f) -> exists n' a, n <= n' /\ In (ChanModel.EReturn g r r a) (deeds (run n') i f).
Proof. exact (ChanLiveProof.call_returns (T i f) (o0 i f) crun clab c_endless c_disciplined c_no_panic c_goes_on c_turns n r g c m args). Qed.
End Feature.
Hypothesis Tn : hturns black raddr wz code T run lab.

(* a local call *)
Lemma local_call_returns i : (forall n, up i (run n) = true) -> forall n k f m args, nth_error (local_calls (hist (bd (fb (hf (run n))) i))) k = Some (f, m, args) ->
  exists n' r a, n <= n' /\ issued code (run n') i f m (local_id k) args r /\ In (ChanModel.EReturn (local_id k) r r a) (deeds (run n') i f) /\
    came_to (run n') i f m r (fst (outcome m a)) (snd (outcome m a)).
Proof.
  intros Up n k f m args H. pose proof (inv_at n) as J. rewrite (v_locals _ _ J), nth_error_map in H.
  destruct (nth_error (locals (run n) i) k) as [x|] eqn:Ex; [|discriminate]. injection H as <- <- <-. destruct (v_placed _ _ J _ _ _ Ex) as [[r Is] _].
  destruct (feature_returns i (l_feature x) Up Tn _ _ _ _ _ _ Is) as (n' & a & L & Rt). exists n', r, a. split; auto.
  destruct (hreached n') as (ls & E). destruct (return_outcome _ _ _ _ _ _ _ _ _ _ _ _ _ _ _ E Rt) as (c & n1 & ar & I1 & C). split; [|auto].
  pose proof (inv_at n') as J'. destruct (v_asks _ _ J' _ _ _ _ _ _ _ I1) as [-> [(k' & sv & E' & _)|(m' & x' & E' & Ex' & Ef & -> & ->)]]; [symmetry in E'; now apply server_local in E'|]. apply local_inj in E' as <-.
  assert (x' = x) as ->; [|exact I1]. 
  assert (Gr : nth_error (locals (run n') i) k = Some x).
  { clear - Ex L En. induction L as [|m L IH]; auto. destruct (lab m) as [l|] eqn:El; [|now rewrite (still_at _ El)].
    destruct (hstep_inv _ _ _ _ _ _ _ _ (step_at _ _ El)) as (_ & _ & _ & Fl & _). rewrite Fl, nth_error_app1; auto. apply nth_error_Some. congruence. }
  congruence.
Qed.

(* the network *)
Definition frun n := hf (run n).
Definition flab_at n := match lab n with Some l => fleet_label (run n) l | None => None end.
Hypothesis Un : fundisturbed frun.
Hypothesis Np : hno_panic run.
Lemma up_all i n : up i (run n) = true.
Proof. destruct (Un n) as ((G & _) & _ & H). unfold up. pose proof (h_alive _ H i) as Al. cbn [sd parts] in Al. unfold frun in *. rewrite Al, (Np n (Some i)), (G (Some i)). reflexivity. Qed.
Lemma f_endless : fendless carried black raddr wz frun flab_at.
Proof.
  split; [unfold frun; now rewrite (he_start _ _ _ _ _ _ _ _ _ En)|]. intros n. unfold flab_at, frun. destruct (lab n) as [l|] eqn:El; [|now rewrite (still_at _ El)].
  destruct (hstep_inv _ _ _ _ _ _ _ _ (step_at _ _ El)) as (Fs & _). destruct (fleet_label (run n) l); exact Fs.
Qed.
Lemma plain_allowed t l n : (forall i k, t <> FtServe i k) -> of_ftask t l -> allowed (run n) l = true.
Proof.
  intros N H. unfold allowed. assert (A : negb (dead (run n) (actor l)) = true) by now rewrite (Np n (actor l)). rewrite A, andb_true_r.
  destruct t as [e|e|j q|i j|i c|i k|i b|t]; cbn [of_ftask] in H.
  - destruct H as [-> | ->]; reflexivity.
  - destruct H as [->|[(k & _ & ->)|H]]; auto. destruct e as [i p|h]; cbn [handling] in H; [|now subst l]. destruct l as [j dl| | | | |j p' j' m| |]; auto; [destruct dl; auto; destruct H|now rewrite (Np n (Some j'))].
  - now subst l.
  - now destruct H as (ns & acc & ->).
  - now destruct H as (acc & ->).
  - elim (N i k). reflexivity.
  - now subst l.
  - now subst l.
Qed.
Lemma serve_fair i k n : exists m, n <= m /\ (fresting black raddr wz (FtServe i k) (frun m) \/ exists l, flab_at m = Some l /\ of_ftask (FtServe i k) l).
Proof.
  assert (SS : forall m sv acc, nth_error (srv (run m) i) k = Some sv -> lab m = Some (HFleet (FDock i (SSend k acc))) -> s_pc sv <> SRun).
  { intros m sv acc Ek El Pc. pose proof (step_at _ _ El) as S. cbn [HarborModel.hstep] in S. destruct (allowed _ _); [|discriminate]. cbn [FleetModel.fstep bstep] in S. destruct (gone _ _); [discriminate|].
    unfold dock_does in S. unfold dstep in S. rewrite Ek, Pc in S. destruct (state _); discriminate S. }
  assert (None_ : forall m l, of_ftask (FtServe i k) l -> fstep (frun m) l <> None -> exists sv, nth_error (srv (run m) i) k = Some sv /\ s_pc sv <> SDone).
  { intros m l Ol Nn. unfold frun in Nn. cbn [of_ftask] in Ol. assert (exists dl, l = FDock i dl /\ ((exists res err, dl = SExec k res err) \/ exists acc, dl = SSend k acc)) as (dl & -> & D).
    { destruct Ol as [(res & err & ->)|(acc & ->)]; eauto 10. }
    assert (Nd : dstep (bd (fb (hf (run m))) i) dl <> None).
    { intros Z. apply Nn. cbn [FleetModel.fstep]. assert (dock_does i dl (query_peers (outline (hf (run m))) i) (fb (hf (run m))) = None) as Y by (unfold dock_does; now rewrite Z).
      destruct D as [(res & err & ->)|(acc & ->)]; cbn [bstep]; destruct (gone _ _); auto; rewrite Y; reflexivity. }
    destruct D as [(res & err & ->)|(acc & ->)]; unfold dstep in Nd; destruct (state (bd (fb (hf (run m))) i)); try congruence; destruct (nth_error _ k) as [sv|]; try congruence; exists sv; split; auto; intros P; rewrite P in Nd; congruence. }
  assert (Later : forall m sv, n <= m -> nth_error (srv (run m) i) k = Some sv -> s_pc sv = SRun -> begun (run m) i k = true -> exists m, n <= m /\ (fresting black raddr wz (FtServe i k) (frun m) \/ exists l, flab_at m = Some l /\ of_ftask (FtServe i k) l)).
  { intros m sv L Ek Pc B. destruct (v_begun _ _ (inv_at m) _ _ B) as (sv' & Ek' & _ & _ & r & Is). rewrite Ek in Ek'. injection Ek' as <-.
    destruct (feature_returns i (q_slot (s_req sv)) (up_all i) Tn _ _ _ _ _ _ Is) as (m' & a & L' & Rt). destruct (back_at _ _ _ _ _ _ _ Rt) as (sv' & Ek' & P').
    destruct (turned _ _ _ _ _ _ L' Ek Pc Ek' P') as (j & Lj & El). exists j. split; [lia|]. right.
    destruct (hstep_inv _ _ _ _ _ _ _ _ (step_at _ _ El)) as (_ & _ & _ & _ & _ & _ & _ & G). unfold flab_at. rewrite El. cbn [fleet_label] in *.
    destruct (nth_error (srv (run j) i) k) as [sv1|]; [|congruence]. destruct (ChanModel.responses _ _) as [|[o a1] tl]; [congruence|]. eexists. split; [reflexivity|]. left. eauto. }
  destruct (Fa (HtServe i k) n) as (m & L & X).
  destruct (nth_error (srv (run m) i) k) as [sv|] eqn:Ek.
  2:{ exists m. split; auto. left. intros l Ol. destruct (fstep (frun m) l) eqn:E; auto. destruct (None_ m l Ol) as (sv & Ek' & _); congruence. }
  destruct (up_parts i (up_all i) m) as (Al & Dd & Go).
  destruct (s_pc sv) as [|res err|] eqn:Pc.
  - destruct (begun (run m) i k) eqn:B; [eapply Later; eauto|].
    assert (Bn : exists s', hstep (run m) (HBegin i k) = Some s').
    { assert (Id : ChanModel.gor (feat (run m) i (q_slot (s_req sv))) (server_id k) = ChanModel.GIdle).
      { destruct (hreached m) as (ls & H). destruct (chan_runs _ _ _ _ _ _ _ _ _ i (q_slot (s_req sv)) H) as (lc & E & _).
        assert (D : ChanModel.gor (feat (run m) i (q_slot (s_req sv))) (server_id k) = ChanModel.GIdle \/ ChanModel.gor (feat (run m) i (q_slot (s_req sv))) (server_id k) <> ChanModel.GIdle) by (destruct (ChanModel.gor _ _); auto; right; discriminate).
        destruct D as [D|D]; auto. exfalso. destruct (busy_issued _ _ _ _ _ E D) as (r0 & c0 & m0 & a0 & I).
        destruct (v_asks _ _ (inv_at m) _ _ _ _ _ _ _ I) as [_ [(k' & sv' & E' & B' & _)|(n' & x & E' & _)]]; [apply server_inj in E' as <-; congruence|now apply server_local in E']. }
      destruct (call_enabled (T i (q_slot (s_req sv))) (feat (run m) i (q_slot (s_req sv))) (server_id k) (server_id k) (code (q_method (s_req sv))) (q_args (s_req sv)) (v_dead _ _ (inv_at m) i _ Dd) Id) as [c Hc].
      cbn [HarborModel.hstep]. rewrite (up_all i m), B, Ek, Hc. cbn. eauto. }
    destruct X as [X|(l & El & [->|[->|(acc & ->)]])].
    + exfalso. destruct Bn as (s' & Bn). rewrite X in Bn by (cbn; auto). discriminate.
    + pose proof (step_at _ _ El) as S. destruct (servers_keep carried _ _ _ _ _ o0 _ _ _ _ _ _ S Ek) as (sv1 & Ek1 & _ & _ & _ & Q). apply (Later (Datatypes.S m) sv1); auto.
      * destruct (s_pc sv1) eqn:P1; auto; (assert (Z : HBegin i k = HReturn i k) by (apply Q; auto; discriminate)); discriminate Z.
      * destruct (hstep_inv _ _ _ _ _ _ _ _ S) as (_ & _ & Fb & _). rewrite Fb, !Nat.eqb_refl. apply orb_true_r.
    + exfalso. destruct (hstep_inv _ _ _ _ _ _ _ _ (step_at _ _ El)) as (_ & _ & _ & _ & _ & G & _). congruence.
    + exfalso. exact (SS _ _ _ Ek El Pc).
  - exists m. split; auto. destruct X as [X|(l & El & [->|[->|(acc & ->)]])].
    + exfalso. destruct (send_can black raddr wz (hf (run m)) i k sv res err Al Go Ek Pc) as (acc & x & Ex).
      assert (Z : hstep (run m) (HFleet (FDock i (SSend k acc))) = None) by (apply X; cbn; eauto). cbn [HarborModel.hstep] in Z. unfold allowed in Z. cbn [actor andb] in Z. rewrite Dd in Z. cbn [negb] in Z. rewrite Ex in Z. discriminate Z.
    + exfalso. destruct (hstep_inv _ _ _ _ _ _ _ _ (step_at _ _ El)) as (_ & _ & _ & _ & _ & G & _). specialize (v_fresh _ _ (inv_at m) _ _ _ G Ek). congruence.
    + exfalso. pose proof (step_at _ _ El) as S. destruct (hstep_inv _ _ _ _ _ _ _ _ S) as (Fs & _ & _ & _ & _ & _ & _ & G). cbn [fleet_label] in *. rewrite Ek in *.
      destruct (ChanModel.responses _ _) as [|[o a1] tl]; [congruence|]. cbn [optstep FleetModel.fstep bstep] in Fs. rewrite Go in Fs. unfold dock_does in Fs. unfold dstep in Fs. rewrite Al, Ek, Pc in Fs. discriminate Fs.
    + right. exists (FDock i (SSend k acc)). split; [unfold flab_at; now rewrite El|]. right. eauto.
  - exists m. split; auto. left. intros l Ol. destruct (fstep (frun m) l) eqn:E; auto. destruct (None_ m l Ol) as (sv' & Ek' & P); congruence.
Qed.
Lemma f_fair : ffair black raddr wz frun flab_at.
Proof.
  intros t n. assert (D : (exists i k, t = FtServe i k) \/ forall i k, t <> FtServe i k) by (destruct t; try (right; discriminate); left; eauto).
  destruct D as [(i & k & ->)|N]; [apply serve_fair|].
  destruct (Fa (HtFleet t) n) as (m & L & X). exists m. split; auto.
  assert (E : forall l, of_htask (HtFleet t) l <-> exists l', l = HFleet l' /\ of_ftask t l') by (intros l; destruct t; cbn [of_htask]; try tauto; elim (N i k); reflexivity).
  destruct X as [X|(l & El & Ol)]; [left|right].
  - intros l Ol. assert (Z : hstep (run m) (HFleet l) = None) by (apply X, E; eauto). cbn [HarborModel.hstep] in Z. rewrite (plain_allowed t l m N Ol) in Z. unfold frun. destruct (fstep (hf (run m)) l); [discriminate|reflexivity].
  - apply E in Ol as (l' & -> & Ol). exists l'. split; auto. unfold flab_at. now rewrite El.
Qed.
End Harbor.

(* the calls (C78) *)
Theorem harbor_call {O : Type} carried black raddr wz code (T : nat -> name -> ChanModel.target O gval) o0 run lab :
  hendless carried black raddr wz code T o0 run lab -> hfair black raddr wz code T run lab -> hturns black raddr wz code T run lab -> hno_panic run ->
  fundisturbed (fun n => hf (run n)) -> flegitimate wz (fun n => hf (run n)) -> franges_end (fun n => hf (run n)) ->
  forall n i c q j n', In (ENew c q) (hist (bd (fb (hf (run n))) i)) -> lab n' = Some (HFleet (FDial j true)) -> carries (carried j) (q_slot q) true ->
  exists m x j' k r, n <= m /\ returns c (hist (bd (fb (hf (run m))) i)) = [x] /\ performed carried code (run m) i q j' k r x.
Proof.
  intros En Fa Tn Np Un Lg Re n i c q j n' Nq Dj Cf.
  destruct (FleetLiveProof5.fleet_fair_call carried black raddr wz (fun n => hf (run n)) (flab_at run lab)) with (n := n) (i := i) (c := c) (q := q) (j := j) (n' := n') as (m & x & j' & k & L & Rx & X); auto.
  - exact (f_endless _ _ _ _ _ _ _ _ _ En).
  - exact (f_fair _ _ _ _ _ _ _ _ _ En Fa Tn Un Np).
  - unfold flab_at. now rewrite Dj.
  - destruct (hreached _ _ _ _ _ _ _ _ _ En m) as (ls & E). destruct (executed_performed _ _ _ _ _ _ _ _ _ _ _ _ _ _ E X) as (r & P). exists m, x, j', k, r. auto.
Qed.
