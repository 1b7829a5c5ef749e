(* Calls in a system with its features. *)
From Verif Require Import Lts GoVal Tables DockModel DockSpec DockProof DockProof2 DockProof3 DockProof4 DockProof5 DockProof7 DockProof8 SysModel SysSpec SysProof SysProof2 SysProof4 FullModel FullSpec FullProof FullProof2 FullProof3.
From Verif Require ChanModel ChanSpec ChanProof ChanProof2 ChanProof3 ChanProof4 HubModel.
From Coq Require Import Arith Bool List ZArith Lia.
Import ListNotations.
Open Scope nat_scope.

Section Full.
Context {O V : Type}.
Variables (carried : nat -> list (name * bool)) (link : nat -> nat -> wend) (hublink : nat -> option (nat * nat)).
Variables (carry : nat -> nat -> list V -> option (list V)) (black : list Z) (raddr : nat -> name) (hostport : name -> Z -> name).
Variable code : name -> nat.
Variable T : nat -> name -> ChanModel.target O V.
Variable o0 : nat -> name -> O.
Hypothesis W : wired link hublink.
Notation sstep := (sstep link hublink carry black raddr hostport).
Notation fstep := (fstep link hublink carry black raddr hostport code T).
Notation finit := (finit carried o0).
Notation full := (FullModel.full O V).
Implicit Types s : full.
Notation srv s i := (servers (sd (fs s) i)).
Notation performed := (performed carried link carry code).

Lemma accepted_server ls s i k : exec fstep finit ls = Some s ->
  nth_error (accepted (map fst (carried i)) (hist (sd (fs s) i))) k = option_map (fun sv => (s_peer sv, s_req sv)) (nth_error (srv s i) k).
Proof.
  intros H. destruct (dock_runs _ _ _ _ _ _ _ _ _ _ W _ _ i H) as [ls' E]. destruct (serving_inv _ _ _ E) as [S _]. rewrite <- S. apply nth_error_map.
Qed.
Lemma chan_facts ls s i f : exec fstep finit ls = Some s -> exists ls', exec (ChanModel.cstep (T i f)) (ChanModel.new_chan (o0 i f)) ls' = Some (feat s i f) /\ ChanSpec.one_goroutine_per_caller ls'.
Proof. intros H. destruct (chan_runs _ _ _ _ _ _ _ _ _ _ _ _ i f H) as (ls' & E & M). exists ls'. split; auto. eapply matched_discipline; eauto. Qed.

(* an answer received is the outcome of the call *)
Lemma return_outcome ls s i f g r o a : exec fstep finit ls = Some s -> In (ChanModel.EReturn g r o a) (deeds s i f) ->
  exists c n args, In (ChanModel.EIssue r g c n args) (deeds s i f) /\ forall m, came_to s i f m r (fst (outcome m a)) (snd (outcome m a)).
Proof.
  intros H R. destruct (chan_facts _ _ i f H) as (ls' & E & D). destruct (ChanProof2.own_answer _ _ _ _ _ _ _ _ E D R) as (-> & c & n & args & I & A).
  exists c, n, args. split; auto. intros m. destruct (ChanProof2.own_exec _ _ _ _ E D) as [Ow _]. destruct (ChanProof2.o_return _ Ow _ _ _ _ R) as (_ & _ & _ & Ia).
  destruct a as [l|n']; cbn; [left; auto|]. right. repeat split; auto. apply ChanProof2.answers_in in Ia as [t Ia]. eauto.
Qed.
(* everything asked of a feature was asked for *)
Lemma genuine ls s i f r g c n args : exec fstep finit ls = Some s -> In (ChanModel.EIssue r g c n args) (deeds s i f) ->
  exists m, n = code m /\ c = g /\ asked carried s i f m g args.
Proof.
  intros H I. pose proof (inv_exec _ _ _ _ _ _ _ _ _ _ _ _ H) as J. destruct (v_asks _ _ J _ _ _ _ _ _ _ I) as [-> [(k & sv & -> & B & Ek & Es & -> & ->)|(n' & x & -> & En & Ef & -> & ->)]].
  - exists (q_method (s_req sv)). repeat split; auto. left. exists k, (s_peer sv), (s_req sv). repeat split; auto. rewrite (accepted_server _ _ _ _ H), Ek. reflexivity.
  - exists (l_method x). repeat split; auto. right. exists n'. split; auto. rewrite (v_locals _ _ J), nth_error_map, En. cbn. now rewrite Ef.
Qed.
Lemma asked_once ls s i f g r c n args r' c' n' args' : exec fstep finit ls = Some s ->
  In (ChanModel.EIssue r g c n args) (deeds s i f) -> In (ChanModel.EIssue r' g c' n' args') (deeds s i f) -> r = r'.
Proof. intros H. apply (v_once _ _ (inv_exec _ _ _ _ _ _ _ _ _ _ _ _ H)). Qed.
(* what a dock replies comes from the feature *)
Lemma run_outcome ls s i k res err : exec fstep finit ls = Some s -> In (ERan k res err) (hist (sd (fs s) i)) ->
  exists p q r, nth_error (accepted (map fst (carried i)) (hist (sd (fs s) i))) k = Some (p, q) /\
    issued code s i (q_slot q) (q_method q) (server_id k) (q_args q) r /\ came_to s i (q_slot q) (q_method q) r res err.
Proof.
  intros H R. pose proof (inv_exec _ _ _ _ _ _ _ _ _ _ _ _ H) as J. destruct (v_ran _ _ J _ _ _ _ R) as (sv & r & o & a & Ek & Rt & E).
  exists (s_peer sv), (s_req sv), r. split; [rewrite (accepted_server _ _ _ _ H), Ek; reflexivity|].
  destruct (return_outcome _ _ _ _ _ _ _ _ H Rt) as (c & n & args & I & C). specialize (C (q_method (s_req sv))). rewrite <- E in C. split; auto. unfold issued.
  destruct (v_asks _ _ J _ _ _ _ _ _ _ I) as [-> [(k' & sv' & E' & _ & Ek' & _ & -> & ->)|(n' & x & E' & _)]]; [|now apply server_local in E'].
  apply server_inj in E' as <-. rewrite Ek in Ek'. injection Ek' as <-. exact I.
Qed.
Lemma runs_in k (h : list (event V)) x : In x (runs k h) -> In (ERan k (fst x) (snd x)) h.
Proof. unfold runs. rewrite in_flat_map. intros (e & He & X). destruct e; try contradiction. destruct (Nat.eqb_spec k0 k) as [->|]; [|contradiction]. destruct X as [<-|[]]. exact He. Qed.

(* a remote call *)
Lemma remote_call ls s i c x : exec fstep finit ls = Some s -> NoDup (map q_index (requests (hist (sd (fs s) i)))) -> In (EReturn c x) (hist (sd (fs s) i)) ->
  exists q j k r, In (ENew c q) (hist (sd (fs s) i)) /\ performed s i q j k r x /\
    forall j' k' q' f' r' n args, served carried link (fs s) i j' k' q' -> q_index q' = q_index q ->
      In (ChanModel.EIssue r' (server_id k') (server_id k') n args) (deeds s j' f') -> j' = j /\ f' = q_slot q /\ r' = r.
Proof.
  intros H N R. destruct (sys_runs _ _ _ _ _ _ _ _ _ _ _ _ H) as (ls' & E & _).
  destruct (remote_call_spec _ _ _ _ _ _ _ W _ _ _ _ _ E N R) as (q & j & k & Nq & (Cr & args & res & err & Ca & Sv & Ru & Cb & Er) & U).
  assert (In (ERan k res err) (hist (sd (fs s) j))) as Hr by (apply (runs_in k _ (res, err)); rewrite Ru; now left).
  destruct (run_outcome _ _ _ _ _ _ H Hr) as (p & q2 & r & Acc & Is & Ct). assert (Sv' := Sv). destruct Sv' as (p' & r' & _ & Acc'). rewrite Acc in Acc'. injection Acc' as <- ->. cbn in Is, Ct.
  exists q, j, k, r. split; auto. split.
  - split; auto. exists args, res, err. repeat split; auto. rewrite Er. destruct Ct as [[-> _]|(_ & -> & _)]; reflexivity.
  - intros j' k' q' f' r1 n args1 Sv1 Iq I1. destruct (U _ _ _ Sv1 Iq) as [-> ->]. split; auto.
    pose proof (inv_exec _ _ _ _ _ _ _ _ _ _ _ _ H) as J.
    destruct (v_asks _ _ J _ _ _ _ _ _ _ I1) as [_ [(k2 & sv & E2 & _ & Ek & Ef & _)|(n' & x' & E' & _)]]; [|now apply server_local in E'].
    apply server_inj in E2 as <-. rewrite (accepted_server _ _ _ _ H), Ek in Acc. injection Acc as _ Eq. rewrite Eq in Ef. cbn in Ef. subst f'.
    split; auto. eapply (v_once _ _ J); [exact I1|exact Is].
Qed.

(* the object *)
Lemma object_replay ls s i f : exec fstep finit ls = Some s ->
  ChanSpec.replay (T i f) (deeds s i f) (o0 i f) (ChanSpec.ended (deeds s i f)) (ChanModel.object (feat s i f)) /\ NoDup (map fst (ChanSpec.ended (deeds s i f))).
Proof.
  intros H. destruct (chan_facts _ _ i f H) as (ls' & E & D). split; [eapply ChanProof2.replay_exec; eauto|].
  destruct (ChanProof2.serial_execution _ _ _ _ E) as (cur & _ & S). pose proof (ChanProof3.started_nodup _ _ _ _ E) as N. unfold deeds. rewrite S in N. eapply ChanProof3.nodup_app_l; exact N.
Qed.

(* order *)
Lemma deeds_later s ls s' i f : exec fstep s ls = Some s' -> exists es, deeds s' i f = deeds s i f ++ es.
Proof.
  intros H. eapply (exec_grows fstep (fun s => deeds s i f)); [|exact H]. intros a l b Hs. destruct (deeds_grow _ _ _ _ _ _ _ _ _ _ _ i f Hs) as (es & He & _). eauto.
Qed.
Lemma hist_later s ls s' i : exec fstep s ls = Some s' -> exists es, hist (sd (fs s') i) = hist (sd (fs s) i) ++ es.
Proof.
  intros H. eapply (exec_grows fstep (fun s => hist (sd (fs s) i))); [|exact H]. intros a l b Hs.
  destruct (dock_part _ _ _ _ _ _ _ _ _ _ _ i Hs) as [(-> & _)|(dl & E & _)]; [exists []; now rewrite app_nil_r|]. destruct (dock_evolves _ _ _ E) as (_ & _ & es & He & _). eauto.
Qed.
Lemma ended_in (r : nat) (res : list V) h : In (ChanModel.EEnd r res) h -> In (r, res) (ChanSpec.ended h).
Proof. intros H. unfold ChanSpec.ended. apply in_flat_map. eexists. split; [exact H|]. now left. Qed.
(* served requests come from calls *)
Lemma served_call ls s i j k q : exec fstep finit ls = Some s -> served carried link (fs s) i j k q -> exists c q0, In (ENew c q0) (hist (sd (fs s) i)) /\ q_index q0 = q_index q.
Proof.
  intros H (p & r & Lk & Acc). destruct (sys_runs _ _ _ _ _ _ _ _ _ _ _ _ H) as (ls' & E & _). apply nth_error_In, accepted_recv in Acc as [Acc _].
  destruct (request_source _ _ _ _ _ _ _ W _ _ _ _ (reach_ok _ _ _ _ _ _ _ W _ _ E) Acc) as (i' & p' & c' & q0 & _ & E2 & N' & _ & _ & A & _).
  rewrite Lk in E2. injection E2 as <- <-. exists c', q0. split; auto. inversion A; subst; reflexivity.
Qed.
Lemma in_two (A : Type) (a b : list A) x y : In x a -> In y b -> exists u v w, a ++ b = u ++ x :: v ++ y :: w.
Proof.
  intros X Y. apply in_split in X as (a1 & a2 & ->). apply in_split in Y as (b1 & b2 & ->). exists a1, (a2 ++ b1), b2. now rewrite <- !app_assoc.
Qed.
Lemma came_started ls s i f m r res err : exec fstep finit ls = Some s -> came_to s i f m r res err -> In r (ChanSpec.started (deeds s i f)).
Proof.
  intros H C. destruct (chan_facts _ _ i f H) as (lc & Ec & _). destruct C as [[_ C]|(_ & _ & n & t & C)].
  - destruct (ChanProof2.serial_execution _ _ _ _ Ec) as (cur & _ & S). unfold deeds. rewrite S. apply in_or_app. left. apply ended_in in C. apply (in_map fst) in C. exact C.
  - destruct (in_dec Nat.eq_dec r (ChanSpec.started (deeds s i f))) as [|N]; auto. pose proof (ChanProof3.unstarted_unanswered _ _ _ _ _ Ec N) as A.
    assert (X : In (ChanModel.ATimeout n) (ChanSpec.answers r (ChanModel.hist (feat s i f)))) by (apply ChanProof2.answers_in; eauto). rewrite A in X. destruct X.
Qed.
Lemma started_issued ls s i f r : exec fstep finit ls = Some s -> In r (ChanSpec.started (deeds s i f)) -> exists g c n args, In (ChanModel.EIssue r g c n args) (deeds s i f).
Proof.
  intros H X. destruct (chan_facts _ _ i f H) as (lc & Ec & _). destruct (ChanProof2.whole_exec _ _ _ _ Ec) as ((_ & F & _) & [Ia _] & _).
  do 4 eexists. apply (Ia r). apply (ChanProof.f_bound _ F). rewrite (ChanProof.f_queue _ F). apply in_or_app. auto.
Qed.
Lemma real_time ls1 s1 ls2 s2 i c x i' c' x' q' j k' r' : exec fstep finit ls1 = Some s1 -> exec fstep s1 ls2 = Some s2 ->
  NoDup (map q_index (requests (hist (sd (fs s2) i)))) -> NoDup (map q_index (requests (hist (sd (fs s2) i')))) ->
  In (EReturn c x) (hist (sd (fs s1) i)) ->
  (forall q, ~ In (ENew c' q) (hist (sd (fs s1) i'))) -> In (ENew c' q') (hist (sd (fs s2) i')) -> performed s2 i' q' j k' r' x' ->
  exists q j1 k r, In (ENew c q) (hist (sd (fs s1) i)) /\ performed s1 i q j1 k r x /\
    (q_slot q' = q_slot q -> j = j1 -> exists a b d, ChanSpec.started (deeds s2 j (q_slot q)) = a ++ r :: b ++ r' :: d).
Proof.
  intros H1 H2 N N' R Nn Nw P. assert (H : exec fstep finit (ls1 ++ ls2) = Some s2) by (rewrite exec_app, H1; exact H2).
  assert (N1 : NoDup (map q_index (requests (hist (sd (fs s1) i))))).
  { destruct (hist_later _ _ _ i H2) as [es He]. rewrite He in N. unfold requests in N. rewrite flat_map_app, map_app in N. eapply ChanProof3.nodup_app_l; exact N. }
  destruct (remote_call _ _ _ _ _ H1 N1 R) as (q & j1 & k & r & Nq & Pf & _). exists q, j1, k, r. split; auto. split; auto. intros Es <-.
  destruct Pf as (_ & args & res & err & _ & _ & _ & Ct & _). destruct P as (_ & args' & res' & err' & _ & Sv' & Is' & Ct' & _).
  rewrite Es in *. apply (came_started _ _ _ _ _ _ _ _ H1) in Ct. apply (came_started _ _ _ _ _ _ _ _ H) in Ct'.
  destruct (deeds_later _ _ _ j (q_slot q) H2) as [es He]. rewrite He in *. unfold ChanSpec.started. rewrite flat_map_app.
  assert (No : ~ In r' (ChanSpec.started (deeds s1 j (q_slot q)))).
  { intros Y. destruct (started_issued _ _ _ _ _ H1 Y) as (g & cc & n & ar & I1).
    destruct (chan_facts _ _ j (q_slot q) H) as (lc & Ec & _). unfold issued in Is'.
    destruct (ChanProof2.one_issue _ _ _ _ r' (server_id k') (server_id k') (code (q_method q')) args' g cc n ar Ec) as (<- & _).
    { change (ChanModel.hist (feat s2 j (q_slot q))) with (deeds s2 j (q_slot q)). exact Is'. }
    { change (ChanModel.hist (feat s2 j (q_slot q))) with (deeds s2 j (q_slot q)). rewrite He. apply in_or_app. auto. }
    pose proof (inv_exec _ _ _ _ _ _ _ _ _ _ _ _ H1) as J. destruct (v_asks _ _ J _ _ _ _ _ _ _ I1) as [_ [(k2 & sv & E2 & _ & Ek & _)|(n' & x2 & E2 & _)]]; [|now apply server_local in E2].
    apply server_inj in E2 as <-. destruct Sv' as (p & r2 & Lk & Acc). 
    assert (Acc1 : nth_error (accepted (map fst (carried j)) (hist (sd (fs s1) j))) k' = Some (s_peer sv, s_req sv)) by (rewrite (accepted_server _ _ _ _ H1), Ek; reflexivity).
    destruct (hist_later _ _ _ j H2) as [eh Hh]. rewrite Hh, accepted_app, nth_error_app1, Acc1 in Acc by (apply nth_error_Some; congruence). injection Acc as <- Eq.
    destruct (served_call _ _ i' j k' (s_req sv) H1) as (c2 & q2 & N2 & I2); [exists (s_peer sv), r2; auto|]. rewrite Eq in I2. cbn in I2.
    destruct (dock_runs _ _ _ _ _ _ _ _ _ _ W _ _ i' H) as [ld Ld].
    assert (N2' : In (ENew c2 q2) (hist (sd (fs s2) i'))) by (destruct (hist_later _ _ _ i' H2) as [e3 ->]; apply in_or_app; auto).
    destruct (call_unique _ _ _ _ _ _ _ Ld N' N2' Nw I2) as [-> ->]. eapply Nn; eauto. }
  rewrite ChanProof.started_app, in_app_iff in Ct'. destruct Ct' as [Y|Y]; [contradiction|].
  destruct (in_two _ (ChanSpec.started (deeds s1 j (q_slot q))) (ChanSpec.started es) _ _ Ct Y) as (u & v & w & E). eauto.
Qed.
Lemma one_at_a_time ls s i f : exec fstep finit ls = Some s ->
  exists cur, ChanSpec.started (deeds s i f) = map fst (ChanSpec.ended (deeds s i f)) ++ cur /\ length cur <= 1 /\ NoDup (ChanSpec.started (deeds s i f)).
Proof.
  intros H. destruct (chan_facts _ _ i f H) as (lc & Ec & _). destruct (ChanProof2.serial_execution _ _ _ _ Ec) as (cur & _ & S). eexists. split; [exact S|]. split; [destruct cur; cbn; lia|].
  exact (ChanProof3.started_nodup _ _ _ _ Ec).
Qed.

(* a feature nobody called *)
Lemma untouched U o ls (c : ChanModel.chan O V) : exec (ChanModel.cstep U) (ChanModel.new_chan o) ls = Some c -> (forall r g k m a, ~ In (ChanModel.EIssue r g k m a) (ChanModel.hist c)) ->
  (forall g, ChanModel.gor c g = ChanModel.GIdle) /\ ChanModel.queue c = [] /\ ChanModel.handler c = ChanModel.HIdle /\ forall r, ChanModel.timer c r = ChanModel.TNone.
Proof.
  apply (exec_inv (ChanModel.cstep U) (fun c => (forall r g k m a, ~ In (ChanModel.EIssue r g k m a) (ChanModel.hist c)) ->
    (forall g, ChanModel.gor c g = ChanModel.GIdle) /\ ChanModel.queue c = [] /\ ChanModel.handler c = ChanModel.HIdle /\ forall r, ChanModel.timer c r = ChanModel.TNone)).
  - intros a l b I H N. destruct (chan_grows _ _ _ _ H) as (es & He & _).
    assert (N0 : forall r g k m x, ~ In (ChanModel.EIssue r g k m x) (ChanModel.hist a)) by (intros r g k m x X; apply (N r g k m x); rewrite He; apply in_or_app; auto).
    destruct (I N0) as (G & Q & Hd & Tm). unfold ChanModel.cstep in H. destruct (ChanModel.crashed a); [discriminate|].
    destruct l as [d|m x|g cc m args|g|g| | | | | | | |r|r|r|r|r|r]; rewrite ?Hd, ?Q, ?G, ?Tm in H; try discriminate.
    + destruct (0 <? d)%Z; [|discriminate]. injection H as <-. cbn. auto.
    + injection H as <-. destruct (ChanModel.known _ _); cbn; auto.
    + injection H as <-. exfalso. eapply N. cbn. apply in_or_app. right. now left.
  - cbn. auto.
Qed.
Lemma unasked_rests ls s i f l : exec fstep finit ls = Some s -> (forall r g k m a, ~ In (ChanModel.EIssue r g k m a) (deeds s i f)) -> own_pace (FFeat i f l) i -> fstep s (FFeat i f l) = None.
Proof.
  intros H N P. destruct (chan_facts _ _ i f H) as (lc & E & _). destruct (untouched _ _ _ _ E N) as (G & Q & Hd & Tm). cbn [FullModel.fstep]. destruct (up i s && inside l) eqn:Ul; auto.
  unfold ChanModel.cstep. destruct (ChanModel.crashed _); auto. apply andb_true_iff in Ul as [_ Ul].
  destruct l; cbn in P, Ul; try contradiction; try discriminate; rewrite ?Hd, ?Q, ?G, ?Tm; reflexivity.
Qed.

(* a panic *)
Lemma panic_final s ls s' i : dead s i = true -> exec fstep s ls = Some s' -> sd (fs s') i = sd (fs s) i /\ (forall f, feat s' i f = feat s i f) /\ dead s' i = true.
Proof.
  intros D H. revert s D H. induction ls as [|l ls IH]; intros s D H; [injection H as <-; auto|]. cbn in H. destruct (fstep s l) as [s1|] eqn:E; [|discriminate].
  enough (K : sd (fs s1) i = sd (fs s) i /\ (forall f, feat s1 i f = feat s i f) /\ dead s1 i = true).
  { destruct K as (K1 & K2 & K3). destruct (IH _ K3 H) as (I1 & I2 & I3). rewrite K1 in I1. split; auto. split; auto. intros f. rewrite I2. apply K2. }
  clear IH H. assert (U : forall j, up j s = true -> j <> i) by (intros j Uj ->; unfold up in Uj; rewrite D in Uj; destruct (state _); discriminate).
  assert (Fe : forall j f c s0, j <> i -> feat (set_feat j f c s0) i = feat s0 i /\ dead (set_feat j f c s0) i = dead s0 i) by (intros; cbn; split; apply updp_other; auto).
  assert (Sd : forall l x, sstep (fs s) l = Some x -> actor l <> Some i -> sd x i = sd (fs s) i).
  { intros l0 x Hx Na. destruct (sys_dock _ _ _ _ _ _ _ _ _ i Hx) as [Y|(dl & Y & Z)]; auto. destruct Z as [(ps & ->)|(p & k & -> & _)]; now cbn in Na. }
  destruct l as [l|j k|j k|j f m args w|j n|j f l]; cbn [FullModel.fstep] in E.
  - destruct (allowed s l) eqn:Al; [|discriminate]. destruct (sstep (fs s) l) as [x|] eqn:Ex; [|discriminate]. injection E as <-. cbn. split; [|auto]. eapply Sd; eauto.
    intros Ac. unfold allowed in Al. rewrite Ac, D in Al. now rewrite andb_false_r in Al.
  - destruct (up j s) eqn:Uj; [|discriminate]. destruct (begun s j k); [discriminate|]. cbn in E. destruct (nth_error _ _); [|discriminate]. destruct (ChanModel.cstep _ _ _); [|discriminate]. injection E as <-.
    cbn -[set_feat]. destruct (Fe j (q_slot (s_req s0)) c s (U _ Uj)) as [F1 F2]. rewrite F1, F2. auto.
  - destruct (up j s) eqn:Uj; [|discriminate]. destruct (begun s j k); [|discriminate]. cbn [andb] in E. destruct (nth_error _ _); [|discriminate]. destruct (ChanModel.responses _ _) as [|[]]; [discriminate|]. destruct (ChanModel.cstep _ _ _); [|discriminate].
    destruct (sstep _ _) as [x|] eqn:Ex; [|discriminate]. injection E as <-. destruct (Fe j (q_slot (s_req s0)) c s (U _ Uj)) as [F1 F2]. cbn -[set_feat]. rewrite F1, F2. split; auto. eapply Sd; eauto. cbn. intros X. injection X as ->. now apply (U _ Uj).
  - destruct (aget _ _); [|discriminate]. destruct (up j s) eqn:Uj; [|discriminate]. destruct (sstep _ _) as [x|] eqn:Ex; [|discriminate]. destruct (ChanModel.cstep _ _ _); [|discriminate]. injection E as <-.
    destruct (Fe j f c s (U _ Uj)) as [F1 F2]. cbn -[set_feat]. rewrite F1, F2. split; auto. eapply Sd; eauto. cbn. intros X. injection X as ->. now apply (U _ Uj).
  - destruct (up j s) eqn:Uj; [|discriminate]. destruct (nth_error _ _); [|discriminate]. destruct (ChanModel.cstep _ _ _); [|discriminate]. injection E as <-.
    destruct (Fe j (l_feature l) c s (U _ Uj)) as [F1 F2]. rewrite F1, F2. auto.
  - destruct (up j s) eqn:Uj; [|discriminate]. destruct (inside l); [|discriminate]. destruct (ChanModel.cstep _ _ _); [|discriminate]. injection E as <-.
    destruct (Fe j f c s (U _ Uj)) as [F1 F2]. rewrite F1, F2. auto.
Qed.
Lemma panic_kills ls s ls' s' i f : exec fstep finit ls = Some s -> ChanModel.crashed (feat s i f) = true -> exec fstep s ls' = Some s' ->
  sd (fs s') i = sd (fs s) i /\ forall f', feat s' i f' = feat s i f'.
Proof.
  intros H C H'. assert (D : dead s i = true) by (destruct (dead s i) eqn:D; auto; rewrite (v_dead _ _ (inv_exec _ _ _ _ _ _ _ _ _ _ _ _ H) i f D) in C; discriminate).
  destruct (panic_final _ _ _ _ D H') as (A & B & _). auto.
Qed.

(* rest *)
Notation at_rest j s := (forall l, own_pace l j -> fstep s l = None).
Lemma rest_idle ls s j f g : exec fstep finit ls = Some s -> up j s = true -> at_rest j s -> ChanModel.gor (feat s j f) g = ChanModel.GIdle.
Proof.
  intros H U R. pose proof (inv_exec _ _ _ _ _ _ _ _ _ _ _ _ H) as J. destruct (chan_facts _ _ j f H) as (ls' & E & D).
  assert (Dd : dead s j = false /\ state (sd (fs s) j) = Alive) by (unfold up in U; destruct (state _); try discriminate; destruct (dead s j); auto; discriminate). destruct Dd as [Dd Al].
  assert (Cr := v_dead _ _ J j f Dd). eapply ChanProof4.quiet_all_returned; eauto. intros l.
  assert (In_ : inside l = true -> own_pace (FFeat j f l) j -> ChanModel.cstep (T j f) (feat s j f) l = None).
  { intros Il P. specialize (R _ P). cbn [FullModel.fstep] in R. rewrite U, Il in R. cbn in R. destruct (ChanModel.cstep _ _ l); [discriminate|reflexivity]. }
  destruct l; auto; try (apply In_; reflexivity). destruct (ChanModel.cstep (T j f) (feat s j f) (ChanModel.LReceive g0)) as [c|] eqn:Ec; auto. exfalso.
  destruct (receive_effect _ _ _ _ Ec) as (r & rest). assert (Gw : exists r, ChanModel.gor (feat s j f) g0 = ChanModel.GWaiting r).
  { unfold ChanModel.cstep in Ec. rewrite Cr in Ec. destruct (ChanModel.gor (feat s j f) g0); try discriminate. eauto. } destruct Gw as [r1 Gw].
  destruct (busy_issued _ _ _ _ g0 E) as (r0 & c0 & m0 & a0 & I); [congruence|].
  assert (Wc := waiting_caller _ _ _ _ _ _ _ (chan_runs _ _ _ _ _ _ _ _ _ _ _ _ j f H) Gw).
  destruct (v_asks _ _ J _ _ _ _ _ _ _ I) as [-> [(k & sv & -> & B & Ek & Es & -> & ->)|(n' & x & -> & En & Ef & -> & ->)]].
  - specialize (R (FReturn j k) eq_refl). cbn [FullModel.fstep] in R. rewrite U, B, Ek, Es, Ec in R. cbn [andb] in R.
    destruct (v_begun _ _ J _ _ B) as (sv' & Ek' & Run & NRun & _). rewrite Ek in Ek'. injection Ek' as <-. rewrite Es in *.
    unfold ChanModel.cstep in Ec. rewrite Cr, Gw, Wc in Ec. destruct (ChanModel.responses _ _) as [|[o a] tl]; [discriminate|].
    assert (Pc : s_pc sv = SRun) by (destruct (s_pc sv); auto; exfalso; rewrite NRun in Gw; try discriminate; discriminate).
    cbn [SysModel.sstep] in R. unfold dock_step in R. unfold dstep in R. rewrite Al, Ek, Pc in R. discriminate R.
  - specialize (R (FLocalReturn j n') eq_refl). cbn [FullModel.fstep] in R. rewrite U, En, Ef, Ec in R. discriminate R.
Qed.
Lemma rest_done ls s j k sv : exec fstep finit ls = Some s -> up j s = true -> at_rest j s -> nth_error (srv s j) k = Some sv -> s_pc sv = SDone.
Proof.
  intros H U R Ek. pose proof (inv_exec _ _ _ _ _ _ _ _ _ _ _ _ H) as J. pose proof (rest_idle _ _ _ (q_slot (s_req sv)) (server_id k) H U R) as Id.
  assert (Dd : dead s j = false /\ state (sd (fs s) j) = Alive) by (unfold up in U; destruct (state _); try discriminate; destruct (dead s j); auto; discriminate). destruct Dd as [Dd Al].
  destruct (begun s j k) eqn:B.
  - destruct (v_begun _ _ J _ _ B) as (sv' & Ek' & Run & _). rewrite Ek in Ek'. injection Ek' as <-. destruct (s_pc sv) as [|res err|] eqn:Pc; auto; [now destruct Run|].
    specialize (R (FSys (SDock j (SSend k false) [])) eq_refl). cbn [FullModel.fstep] in R. unfold allowed in R. cbn [actor andb] in R. rewrite Dd in R.
    cbn [negb SysModel.sstep] in R. unfold dock_step, dstep in R. rewrite Al, Ek, Pc in R. discriminate R.
  - exfalso. destruct (call_enabled (T j (q_slot (s_req sv))) _ _ (server_id k) (code (q_method (s_req sv))) (q_args (s_req sv)) (v_dead _ _ J j _ Dd) Id) as [c Hc].
    specialize (R (FBegin j k) eq_refl). cbn [FullModel.fstep] in R. rewrite U, B, Ek, Hc in R. discriminate R.
Qed.
Lemma rest_replied ls s j k : exec fstep finit ls = Some s -> up j s = true -> at_rest j s ->
  k < length (accepted (map fst (carried j)) (hist (sd (fs s) j))) -> replies k (hist (sd (fs s) j)) = 1.
Proof.
  intros H U R L. destruct (dock_runs _ _ _ _ _ _ _ _ _ _ W _ _ j H) as [ld Ld]. destruct (working_inv _ _ _ Ld) as [A _].
  destruct (nth_error (srv s j) k) as [sv|] eqn:Ek.
  - specialize (A _ _ Ek). unfold servok in A. rewrite (rest_done _ _ _ _ _ H U R Ek) in A. apply A.
  - exfalso. pose proof (accepted_server _ _ j k H) as X. rewrite Ek in X. apply nth_error_None in X. lia.
Qed.
Lemma local_returned ls s j n f m args : exec fstep finit ls = Some s -> nth_error (local_calls (hist (sd (fs s) j))) n = Some (f, m, args) ->
  exists r, issued code s j f m (local_id n) args r /\
    (up j s = true -> at_rest j s -> exists a, In (ChanModel.EReturn (local_id n) r r a) (deeds s j f)) /\
    forall r' o a, In (ChanModel.EReturn (local_id n) r' o a) (deeds s j f) -> r' = r /\ o = r /\ came_to s j f m r (fst (outcome m a)) (snd (outcome m a)).
Proof.
  intros H En. pose proof (inv_exec _ _ _ _ _ _ _ _ _ _ _ _ H) as J. rewrite (v_locals _ _ J), nth_error_map in En.
  destruct (nth_error (locals s j) n) as [x|] eqn:Ex; [|discriminate]. injection En as <- <- <-. destruct (v_placed _ _ J _ _ _ Ex) as [[r Is] Pl]. exists r. split; auto.
  assert (K : forall r' o a, In (ChanModel.EReturn (local_id n) r' o a) (deeds s j (l_feature x)) -> r' = r /\ o = r /\ came_to s j (l_feature x) (l_method x) r (fst (outcome (l_method x) a)) (snd (outcome (l_method x) a))).
  { intros r' o a Rt. destruct (return_outcome _ _ _ _ _ _ _ _ H Rt) as (c & n' & ar & I & C). assert (r' = r) as -> by (eapply (v_once _ _ J); [exact I|exact Is]).
    destruct (chan_facts _ _ j (l_feature x) H) as (lc & E & D). destruct (ChanProof2.own_answer _ _ _ _ _ _ _ _ E D Rt) as (-> & _). auto. }
  split; auto. intros U R. destruct Pl as [B|(r' & o & a & Rt)]; [destruct B; eapply rest_idle; eauto|]. destruct (K _ _ _ Rt) as (-> & -> & _). eauto.
Qed.
Lemma committed_call ls s i c p j p' : exec fstep finit ls = Some s -> no_loss ls ->
  (forall l, carry i j l <> None) -> (forall l, carry j i l <> None) -> NoDup (map q_index (requests (hist (sd (fs s) i)))) ->
  In (ECommit c p true) (hist (sd (fs s) i)) -> link i p = ToDock j p' -> ~ cleared (hist (sd (fs s) j)) ->
  up i s = true -> up j s = true -> wire (fs s) j p' = [] -> wire (fs s) i p = [] -> at_rest j s ->
  (forall b, dstep (sd (fs s) i) (BStep b) = None) -> (forall acc, dstep (sd (fs s) i) (CStep c acc) = None) ->
  (forall q k, ~ In (ESend q k false) (hist (sd (fs s) j))) ->
  exists x q k r, In (EReturn c x) (hist (sd (fs s) i)) /\ In (ENew c q) (hist (sd (fs s) i)) /\ performed s i q j k r x.
Proof.
  intros H Nl C1 C2 N Hc Lk Cl Ui Uj W1 W2 R B1 B2 Nd. destruct (sys_runs _ _ _ _ _ _ _ _ _ _ _ _ H) as (ls' & E & P).
  assert (forall i, up i s = true -> state (sd (fs s) i) = Alive) as Al by (intros i0 U; unfold up in U; destruct (state _); auto; discriminate).
  assert (Rt : returns c (hist (sd (fs s) i)) <> []).
  { eapply (committed_returns carried link hublink carry black raddr hostport W ls'); eauto.
    - intros l Hl. destruct (P _ Hl) as [X|(i0 & x & ->)]; auto. exact (Nl _ X).
    - intros k res err. unfold dstep. rewrite (Al _ Uj). destruct (nth_error (srv s j) k) as [sv|] eqn:Ek; auto. now rewrite (rest_done _ _ _ _ _ H Uj R Ek).
    - intros k acc. unfold dstep. rewrite (Al _ Uj). destruct (nth_error (srv s j) k) as [sv|] eqn:Ek; auto. now rewrite (rest_done _ _ _ _ _ H Uj R Ek). }
  destruct (returns c (hist (sd (fs s) i))) as [|x xs] eqn:Ex; [congruence|].
  assert (Hx : In (EReturn c x) (hist (sd (fs s) i))).
  { assert (In x (returns c (hist (sd (fs s) i)))) as X by (rewrite Ex; now left). unfold returns in X. apply in_flat_map in X as (e & He & X). destruct e; try contradiction.
    destruct (Nat.eqb_spec c0 c) as [->|]; [|contradiction]. destruct X as [<-|[]]. exact He. }
  destruct (remote_call _ _ _ _ _ H N Hx) as (q & j' & k & r & Nq & Pf & _). exists x, q, k, r. split; auto. split; auto.
  enough (j' = j) as <- by auto. destruct Pf as (_ & args & res & err & _ & (p1 & r1 & Lk1 & Acc) & _). apply nth_error_In, accepted_recv in Acc as [Acc _].
  destruct (request_source _ _ _ _ _ _ _ W _ _ _ _ (reach_ok _ _ _ _ _ _ _ W _ _ E) Acc) as (i2 & p2 & c2 & q2 & E1 & E2 & N2 & Cm & _ & A & _).
  rewrite Lk1 in E2. injection E2 as <- <-. destruct (dock_runs _ _ _ _ _ _ _ _ _ _ W _ _ i H) as [ld Ld].
  destruct (call_unique _ _ _ _ _ _ _ Ld N N2 Nq) as [-> ->]; [inversion A; subst; reflexivity|].
  destruct (commits_two _ _ _ _ _ _ Cm Hc (commit_once _ _ _ c Ld)) as [-> _]. rewrite Lk in E1. injection E1 as -> ->. reflexivity.
Qed.
End Full.
