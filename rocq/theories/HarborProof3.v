(* Calls in a network with its features. *)
From Verif Require Import Lts GoInt GoVal Tables CodecSpec ProtoModel DockModel DockSpec DockProof DockProof2 DockProof3 DockProof4 DockProof5 DockProof7 DockProof8 SysModel SysSpec SysProof SysProof2 SysProof4 SysCodec FullModel FullSpec FullProof WorldModel WorldSpec WorldProof2 ByteModel ByteSpec FleetModel FleetSpec FleetProof2 HarborModel HarborSpec HarborProof HarborProof2.
From Verif Require ChanModel ChanSpec ChanProof ChanProof2 ChanProof3 ChanProof4 HubModel FullProof3 FullProof4 WorldProof FleetProof ByteProof2.
From Coq Require Import Arith Bool List ZArith Lia.
Import ListNotations.
Open Scope nat_scope.

Section Harbor.
Context {O : Type}.
Variables (carried : nat -> list (name * bool)) (black : list Z) (raddr : nat -> name) (wz : option nat -> wsize).
Variable code : name -> nat.
Variable T : nat -> name -> ChanModel.target O gval.
Variable o0 : nat -> name -> O.
Notation fstep := (fstep black raddr wz).
Notation hstep := (hstep black raddr wz code T).
Notation hinit := (hinit carried o0).
Implicit Types s : harbor O.
Notation srv s i := (servers (bd (fb (hf s)) i)).
Notation performed := (performed carried code).

Lemma accepted_server ls s i k : exec hstep hinit ls = Some s ->
  nth_error (accepted (map fst (carried i)) (hist (bd (fb (hf s)) i))) k = option_map (fun sv => (s_peer sv, s_req sv)) (nth_error (srv s i) k).
Proof.
  intros H. destruct (dock_runs _ _ _ _ _ _ _ _ _ i H) as [ls' E]. destruct (serving_inv _ _ _ E) as [S _]. rewrite <- S. apply nth_error_map.
Qed.
Lemma chan_facts ls s i f : exec hstep hinit ls = Some s -> exists ls', exec (ChanModel.cstep (T i f)) (ChanModel.new_chan (o0 i f)) ls' = Some (feat s i f) /\ ChanSpec.one_goroutine_per_caller ls'.
Proof. intros H. destruct (chan_runs _ _ _ _ _ _ _ _ _ i f H) as (ls' & E & M). exists ls'. split; auto. eapply matched_discipline; eauto. Qed.
Lemma return_outcome ls s i f g r o a : exec hstep hinit ls = Some s -> In (ChanModel.EReturn g r o a) (deeds s i f) ->
  exists c n args, In (ChanModel.EIssue r g c n args) (deeds s i f) /\ forall m, came_to s i f m r (fst (outcome m a)) (snd (outcome m a)).
Proof.
  intros H R. destruct (chan_facts _ _ i f H) as (ls' & E & D). destruct (ChanProof2.own_answer _ _ _ _ _ _ _ _ E D R) as (-> & c & n & args & I & A).
  exists c, n, args. split; auto. intros m. destruct (ChanProof2.own_exec _ _ _ _ E D) as [Ow _]. destruct (ChanProof2.o_return _ Ow _ _ _ _ R) as (_ & _ & _ & Ia).
  destruct a as [l|n']; cbn; [left; auto|]. right. repeat split; auto. apply ChanProof2.answers_in in Ia as [t Ia]. eauto.
Qed.
Lemma genuine ls s i f r g c n args : exec hstep hinit ls = Some s -> In (ChanModel.EIssue r g c n args) (deeds s i f) ->
  exists m, n = code m /\ c = g /\ asked carried s i f m g args.
Proof.
  intros H I. pose proof (inv_exec _ _ _ _ _ _ _ _ _ H) as J. destruct (v_asks _ _ J _ _ _ _ _ _ _ I) as [-> [(k & sv & -> & B & Ek & Es & -> & ->)|(n' & x & -> & En & Ef & -> & ->)]].
  - exists (q_method (s_req sv)). repeat split; auto. left. exists k, (s_peer sv), (s_req sv). repeat split; auto. rewrite (accepted_server _ _ _ _ H), Ek. reflexivity.
  - exists (l_method x). repeat split; auto. right. exists n'. split; auto. rewrite (v_locals _ _ J), nth_error_map, En. cbn. now rewrite Ef.
Qed.
Lemma asked_once ls s i f g r c n args r' c' n' args' : exec hstep hinit ls = Some s ->
  In (ChanModel.EIssue r g c n args) (deeds s i f) -> In (ChanModel.EIssue r' g c' n' args') (deeds s i f) -> r = r'.
Proof. intros H. apply (v_once _ _ (inv_exec _ _ _ _ _ _ _ _ _ H)). Qed.
Lemma run_outcome ls s i k res err : exec hstep hinit ls = Some s -> In (ERan k res err) (hist (bd (fb (hf s)) i)) ->
  exists p q r, nth_error (accepted (map fst (carried i)) (hist (bd (fb (hf s)) i))) k = Some (p, q) /\
    issued code s i (q_slot q) (q_method q) (server_id k) (q_args q) r /\ came_to s i (q_slot q) (q_method q) r res err.
Proof.
  intros H R. pose proof (inv_exec _ _ _ _ _ _ _ _ _ H) as J. destruct (v_ran _ _ J _ _ _ _ R) as (sv & r & o & a & Ek & Rt & E).
  exists (s_peer sv), (s_req sv), r. split; [rewrite (accepted_server _ _ _ _ H), Ek; reflexivity|].
  destruct (return_outcome _ _ _ _ _ _ _ _ H Rt) as (c & n & args & I & C). specialize (C (q_method (s_req sv))). rewrite <- E in C. split; auto. unfold issued.
  destruct (v_asks _ _ J _ _ _ _ _ _ _ I) as [-> [(k' & sv' & E' & _ & Ek' & _ & -> & ->)|(n' & x & E' & _)]]; [|now apply server_local in E'].
  apply server_inj in E' as <-. rewrite Ek in Ek'. injection Ek' as <-. exact I.
Qed.

(* what ran at a dock was performed by its feature *)
Lemma executed_performed ls s i q j k x : exec hstep hinit ls = Some s -> executed carried (fends (hf s)) (fun _ _ => through) (parts (fb (hf s))) i q j k x ->
  exists r, performed s i q j k r x.
Proof.
  intros H (Cr & args & res & err & Ca & Sv & Ru & Cb & Er). cbn [sd parts] in Ru.
  assert (In (ERan k res err) (hist (bd (fb (hf s)) j))) as Hr by (apply (FullProof4.runs_in k _ (res, err)); rewrite Ru; now left).
  destruct (run_outcome _ _ _ _ _ _ H Hr) as (p & q2 & r & Acc & Is & Ct). assert (Sv' := Sv). destruct Sv' as (p' & r' & _ & Acc'). cbn [sd parts] in Acc'. rewrite Acc in Acc'. injection Acc' as <- ->. cbn in Is, Ct.
  exists r. split; auto. exists args, res, err. repeat split; auto. rewrite Er. destruct Ct as [[-> _]|(_ & -> & _)]; reflexivity.
Qed.
(* a remote call *)
Lemma remote_call ls s i c x : exec hstep hinit ls = Some s -> Forall (legitimate (across (hf s)) wz) (handed (fb (hf s))) ->
  NoDup (map q_index (requests (hist (bd (fb (hf s)) i)))) -> In (EReturn c x) (hist (bd (fb (hf s)) i)) ->
  exists q j k r, In (ENew c q) (hist (bd (fb (hf s)) i)) /\ performed s i q j k r x /\
    forall j' k' q' f' r' n args, served carried (fends (hf s)) (parts (fb (hf s))) i j' k' q' -> q_index q' = q_index q ->
      In (ChanModel.EIssue r' (server_id k') (server_id k') n args) (deeds s j' f') -> j' = j /\ f' = q_slot q /\ r' = r.
Proof.
  intros H L N R. destruct (fleet_runs _ _ _ _ _ _ _ _ _ H) as (ls' & E & _).
  destruct (fleet_returned _ _ _ _ _ _ _ _ _ E L N R) as (q & j & k & Nq & X & U).
  destruct (executed_performed _ _ _ _ _ _ _ H X) as (r & Pf). exists q, j, k, r. split; auto. split; auto.
  intros j' k' q' f' r1 n args1 Sv1 Iq I1. destruct (U _ _ _ Sv1 Iq) as [-> ->]. split; auto.
  destruct Pf as (_ & args & res & err & _ & (p & r' & _ & Acc) & Is & _). cbn [sd parts] in Acc.
  pose proof (inv_exec _ _ _ _ _ _ _ _ _ H) as J.
  destruct (v_asks _ _ J _ _ _ _ _ _ _ I1) as [_ [(k2 & sv & E2 & _ & Ek & Ef & _)|(n' & x' & E' & _)]]; [|now apply server_local in E'].
  apply server_inj in E2 as <-. rewrite (accepted_server _ _ _ _ H), Ek in Acc. injection Acc as _ Eq. rewrite Eq in Ef. cbn in Ef. subst f'.
  split; auto. eapply (v_once _ _ J); [exact I1|exact Is].
Qed.
Lemma object_replay ls s i f : exec hstep hinit ls = Some s ->
  ChanSpec.replay (T i f) (deeds s i f) (o0 i f) (ChanSpec.ended (deeds s i f)) (ChanModel.object (feat s i f)) /\ NoDup (map fst (ChanSpec.ended (deeds s i f))).
Proof.
  intros H. destruct (chan_facts _ _ i f H) as (ls' & E & D). split; [eapply ChanProof2.replay_exec; eauto|].
  destruct (ChanProof2.serial_execution _ _ _ _ E) as (cur & _ & S). pose proof (ChanProof3.started_nodup _ _ _ _ E) as N. unfold deeds. rewrite S in N. eapply ChanProof3.nodup_app_l; exact N.
Qed.

(* order *)
Lemma deeds_later s ls s' i f : exec hstep s ls = Some s' -> exists es, deeds s' i f = deeds s i f ++ es.
Proof.
  intros H. eapply (exec_grows hstep (fun s => deeds s i f)); [|exact H]. intros a l b Hs. destruct (deeds_grow _ _ _ _ _ _ _ _ i f Hs) as (es & He & _). eauto.
Qed.
Lemma hist_later s ls s' i : exec hstep s ls = Some s' -> exists es, hist (bd (fb (hf s')) i) = hist (bd (fb (hf s)) i) ++ es.
Proof.
  intros H. eapply (exec_grows hstep (fun s => hist (bd (fb (hf s)) i))); [|exact H]. intros a l b Hs. destruct (dock_fresh _ _ _ _ _ _ _ _ i Hs) as (_ & es & He & _). eauto.
Qed.
(* a request accepted came from a call of the dock at the other end *)
Lemma accepted_call ls s j k p q : exec hstep hinit ls = Some s -> Forall (legitimate (across (hf s)) wz) (handed (fb (hf s))) ->
  nth_error (accepted (map fst (carried j)) (hist (bd (fb (hf s)) j))) k = Some (p, q) ->
  exists i r c q0, fends (hf s) j p = ToDock i r /\ In (ENew c q0) (hist (bd (fb (hf s)) i)) /\ q_index q0 = q_index q.
Proof.
  intros H L Acc. destruct (fleet_runs _ _ _ _ _ _ _ _ _ H) as (lf & Ef & _).
  destruct (fleet_to_network _ _ _ _ _ _ Ef L) as (ls' & w & Rw & Ed & _ & Ee & _). destruct (WorldProof.run_system _ _ _ _ _ _ _ Rw) as (W & ls2 & E & _).
  rewrite <- Ed in Acc. apply nth_error_In, accepted_recv in Acc as [Acc _].
  destruct (request_source _ _ _ _ _ _ _ W _ _ _ _ (reach_ok _ _ _ _ _ _ _ W _ _ E) Acc) as (i' & p' & c' & q0 & _ & E2 & N' & _ & _ & A & _).
  rewrite Ee in E2. exists i', p', c', q0. rewrite <- Ed. split; auto. split; auto. inversion A; subst; reflexivity.
Qed.
Lemma fleet_goes ls : forall s s', exec hstep s ls = Some s' -> exists ls', exec fstep (hf s) ls' = Some (hf s').
Proof.
  induction ls as [|l ls IH]; intros s s' H; [injection H as <-; exists []; reflexivity|]. cbn [exec] in H. destruct (hstep s l) as [s1|] eqn:E; [|discriminate].
  destruct (IH _ _ H) as (ls' & E'). destruct (hstep_inv _ _ _ _ _ _ _ _ E) as (Fs & _). destruct (fleet_label s l) as [x|]; cbn [optstep] in Fs.
  - exists (x :: ls'). cbn [exec]. now rewrite Fs.
  - rewrite Fs in E'. eauto.
Qed.
Lemma numbered_run ls n : exec fstep (finit carried) ls = Some n -> FleetProof.numbered (outline n).
Proof.
  apply (exec_inv fstep (fun n => FleetProof.numbered (outline n))); [|apply (FleetProof.finit_numbered carried raddr)].
  intros a l b N S. apply (FleetProof.fstep_extends carried black raddr wz _ _ _ N S).
Qed.
(* what was so before *)
Lemma earlier ls1 s1 ls2 s2 : exec hstep hinit ls1 = Some s1 -> exec hstep s1 ls2 = Some s2 ->
  WorldProof.extends (fends (hf s2)) (fends (hf s1)) /\
  (Forall (legitimate (across (hf s2)) wz) (handed (fb (hf s2))) -> Forall (legitimate (across (hf s1)) wz) (handed (fb (hf s1)))).
Proof.
  intros H1 H2. destruct (fleet_runs _ _ _ _ _ _ _ _ _ H1) as (la & Ea & _). destruct (fleet_goes _ _ _ H2) as (lb & Eb).
  destruct (FleetProof.frun_extends carried black raddr wz lb _ _ (numbered_run _ _ Ea) Eb) as [X G]. split; auto. intros L.
  apply (FleetProof.legits_less wz (fends (hf s1)) (fends (hf s2)) _ X). apply (ByteProof2.legits_grows (fends (hf s2)) hub_end black hostport wz _ _ G L).
Qed.
Lemma came_started ls s i f m r res err : exec hstep hinit ls = Some s -> came_to s i f m r res err -> In r (ChanSpec.started (deeds s i f)).
Proof.
  intros H C. destruct (chan_facts _ _ i f H) as (lc & Ec & _). destruct C as [[_ C]|(_ & _ & n & t & C)].
  - destruct (ChanProof2.serial_execution _ _ _ _ Ec) as (cur & _ & S). unfold deeds. rewrite S. apply in_or_app. left. apply FullProof4.ended_in in C. apply (in_map fst) in C. exact C.
  - destruct (in_dec Nat.eq_dec r (ChanSpec.started (deeds s i f))) as [|N]; auto. pose proof (ChanProof3.unstarted_unanswered _ _ _ _ _ Ec N) as A.
    assert (X : In (ChanModel.ATimeout n) (ChanSpec.answers r (ChanModel.hist (feat s i f)))) by (apply ChanProof2.answers_in; eauto). rewrite A in X. destruct X.
Qed.
Lemma started_issued ls s i f r : exec hstep hinit ls = Some s -> In r (ChanSpec.started (deeds s i f)) -> exists g c n args, In (ChanModel.EIssue r g c n args) (deeds s i f).
Proof.
  intros H X. destruct (chan_facts _ _ i f H) as (lc & Ec & _). destruct (ChanProof2.whole_exec _ _ _ _ Ec) as ((_ & F & _) & [Ia _] & _).
  do 4 eexists. apply (Ia r). apply (ChanProof.f_bound _ F). rewrite (ChanProof.f_queue _ F). apply in_or_app. auto.
Qed.
Lemma one_at_a_time ls s i f : exec hstep hinit ls = Some s ->
  exists cur, ChanSpec.started (deeds s i f) = map fst (ChanSpec.ended (deeds s i f)) ++ cur /\ length cur <= 1 /\ NoDup (ChanSpec.started (deeds s i f)).
Proof.
  intros H. destruct (chan_facts _ _ i f H) as (lc & Ec & _). destruct (ChanProof2.serial_execution _ _ _ _ Ec) as (cur & _ & S). eexists. split; [exact S|]. split; [destruct cur; cbn; lia|].
  exact (ChanProof3.started_nodup _ _ _ _ Ec).
Qed.
Lemma real_time ls1 s1 ls2 s2 i c x i' c' x' q' j k' r' : exec hstep hinit ls1 = Some s1 -> exec hstep s1 ls2 = Some s2 -> Forall (legitimate (across (hf s2)) wz) (handed (fb (hf s2))) ->
  NoDup (map q_index (requests (hist (bd (fb (hf s2)) i)))) -> NoDup (map q_index (requests (hist (bd (fb (hf s2)) i')))) ->
  In (EReturn c x) (hist (bd (fb (hf s1)) i)) ->
  (forall q, ~ In (ENew c' q) (hist (bd (fb (hf s1)) i'))) -> In (ENew c' q') (hist (bd (fb (hf s2)) i')) -> performed s2 i' q' j k' r' x' ->
  exists q j1 k r, In (ENew c q) (hist (bd (fb (hf s1)) i)) /\ performed s1 i q j1 k r x /\
    (q_slot q' = q_slot q -> j = j1 -> exists a b d, ChanSpec.started (deeds s2 j (q_slot q)) = a ++ r :: b ++ r' :: d).
Proof.
  intros H1 H2 L N N' R Nn Nw P. destruct (earlier _ _ _ _ H1 H2) as [Ex L1]. specialize (L1 L). assert (H : exec hstep hinit (ls1 ++ ls2) = Some s2) by (rewrite exec_app, H1; exact H2).
  assert (N1 : NoDup (map q_index (requests (hist (bd (fb (hf s1)) i))))).
  { destruct (hist_later _ _ _ i H2) as [es He]. rewrite He in N. unfold requests in N. rewrite flat_map_app, map_app in N. eapply ChanProof3.nodup_app_l; exact N. }
  destruct (remote_call _ _ _ _ _ H1 L1 N1 R) as (q & j1 & k & r & Nq & Pf & _). exists q, j1, k, r. split; auto. split; auto. intros Es <-.
  destruct Pf as (_ & args & res & err & _ & _ & _ & Ct & _). destruct P as (_ & args' & res' & err' & _ & Sv' & Is' & Ct' & _).
  rewrite Es in *. apply (came_started _ _ _ _ _ _ _ _ H1) in Ct. apply (came_started _ _ _ _ _ _ _ _ H) in Ct'.
  destruct (deeds_later _ _ _ j (q_slot q) H2) as [es He]. rewrite He in *. unfold ChanSpec.started. rewrite flat_map_app.
  assert (No : ~ In r' (ChanSpec.started (deeds s1 j (q_slot q)))).
  { intros Y. destruct (started_issued _ _ _ _ _ H1 Y) as (g & cc & n & ar & I1).
    destruct (chan_facts _ _ j (q_slot q) H) as (lc & Ec & _). unfold issued in Is'.
    destruct (ChanProof2.one_issue _ _ _ _ r' (server_id k') (server_id k') (code (q_method q')) args' g cc n ar Ec) as (<- & _).
    { change (ChanModel.hist (feat s2 j (q_slot q))) with (deeds s2 j (q_slot q)). exact Is'. }
    { change (ChanModel.hist (feat s2 j (q_slot q))) with (deeds s2 j (q_slot q)). rewrite He. apply in_or_app. auto. }
    pose proof (inv_exec _ _ _ _ _ _ _ _ _ H1) as J. destruct (v_asks _ _ J _ _ _ _ _ _ _ I1) as [_ [(k2 & sv & E2 & _ & Ek & _)|(n' & x2 & E2 & _)]]; [|now apply server_local in E2].
    apply server_inj in E2 as <-. destruct Sv' as (p & r2 & Lk & Acc). cbn [sd parts] in Acc. 
    assert (Acc1 : nth_error (accepted (map fst (carried j)) (hist (bd (fb (hf s1)) j))) k' = Some (s_peer sv, s_req sv)) by (rewrite (accepted_server _ _ _ _ H1), Ek; reflexivity).
    destruct (hist_later _ _ _ j H2) as [eh Hh]. rewrite Hh, accepted_app, nth_error_app1, Acc1 in Acc by (apply nth_error_Some; congruence). injection Acc as <- Eq.
    destruct (accepted_call _ _ _ _ _ _ H1 L1 Acc1) as (i2 & r3 & c2 & q2 & Lk1 & N2 & I2). rewrite Ex, Lk1 in Lk by congruence. injection Lk as -> ->. rewrite Eq in I2. cbn in I2.
    destruct (dock_runs _ _ _ _ _ _ _ _ _ i' H) as [ld Ld].
    assert (N2' : In (ENew c2 q2) (hist (bd (fb (hf s2)) i'))) by (destruct (hist_later _ _ _ i' H2) as [e3 ->]; apply in_or_app; auto).
    destruct (call_unique _ _ _ _ _ _ _ Ld N' N2' Nw I2) as [-> ->]. eapply Nn; eauto. }
  rewrite ChanProof.started_app, in_app_iff in Ct'. destruct Ct' as [Y|Y]; [contradiction|].
  destruct (FullProof4.in_two _ (ChanSpec.started (deeds s1 j (q_slot q))) (ChanSpec.started es) _ _ Ct Y) as (u & v & w & E). eauto.
Qed.
End Harbor.
