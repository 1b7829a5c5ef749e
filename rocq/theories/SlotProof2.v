(* Requests for a method of IFeature, in a network with its features. *)
From Verif Require Import Lts GoInt GoVal Tables CodecSpec ProtoModel DockModel DockSpec DockProof DockProof2 DockProof3 DockProof4 DockProof5 DockProof8 SysModel SysSpec SysProof SysCodec FullModel FullSpec FullProof WorldModel WorldSpec LiveSpec ByteModel ByteSpec FleetModel FleetSpec FleetLiveSpec HarborModel HarborSpec HarborProof HarborProof2 HarborProof3 HarborProof4 HarborProof5 IsleSpec.
From Verif Require Import SlotModel SlotSpec SlotProof.
From Verif Require Import CodecModel.
From Verif Require ChanModel ChanSpec ChanProof ChanProof2 ChanProof3 ChanLiveSpec ChanLiveProof HubModel MetaModel IsleProof IsleProof2 CodecProof7.
From Coq Require Import Arith Bool List ZArith Lia.
Import ListNotations.
Open Scope nat_scope.

(* the callee of a feature *)
Section Chan.
Context {O V : Type} (U : ChanModel.target O V).
Lemma replay_in h o l o' r res : ChanSpec.replay U h o l o' -> In (r, res) l ->
  exists g c m args, In (ChanModel.EIssue r g c m args) h /\ (ChanModel.known U m = true -> exists o1 o2, ChanModel.impl U o1 m args = Some (o2, res)).
Proof.
  induction 1 as [|o o1 o2 q g c m args x rest I K E R IH|o o1 q g c m args rest I K R IH]; intros H; [destruct H| |].
  - destruct H as [[= <- <-]|H]; [|auto]. exists g, c, m, args. eauto.
  - destruct H as [[= <- <-]|H]; [|auto]. exists g, c, m, args. split; auto. congruence.
Qed.
Lemma in_ended (h : list (ChanModel.event V)) r l : In (ChanModel.EEnd r l) h <-> In (r, l) (ChanSpec.ended h).
Proof.
  unfold ChanSpec.ended. rewrite in_flat_map. split; [intros H; eexists; split; [exact H|now left]|].
  intros (e & I & X). destruct e; try destruct X; [injection H as -> ->; exact I|destruct H].
Qed.
(* a request that panics does not end *)
Lemma no_end o ls s r g c m args l : exec (ChanModel.cstep U) (ChanModel.new_chan o) ls = Some s -> In (ChanModel.EIssue r g c m args) (ChanModel.hist s) ->
  ChanModel.known U m = true -> (forall o, ChanModel.impl U o m args = None) -> ~ In (ChanModel.EEnd r l) (ChanModel.hist s).
Proof.
  intros E I K P H. apply in_ended in H. destruct (replay_in _ _ _ _ _ _ (ChanProof2.replay_exec U _ _ _ E) H) as (g' & c' & m' & args' & I' & X).
  destruct (ChanProof2.one_issue U _ _ _ _ _ _ _ _ _ _ _ _ E I I') as (_ & _ & <- & <-). destruct (X K) as (o1 & o2 & X'). rewrite P in X'. discriminate X'.
Qed.
(* every request is executed to its end *)
Lemma issued_ends o run lab : ChanLiveSpec.endless U o run lab -> ChanLiveSpec.disciplined lab -> ChanLiveSpec.no_panic run -> (forall k, ChanLiveSpec.goes_on U run lab k) -> ChanLiveSpec.turns U run lab ->
  forall n r g c m args, In (ChanModel.EIssue r g c m args) (ChanModel.hist (run n)) -> exists n' l, n <= n' /\ In (ChanModel.EEnd r l) (ChanModel.hist (run n')).
Proof.
  intros En Di Np Go Tn n r g c m args I. destruct (ChanLiveProof.call_returns U o run lab En Di Np Go Tn n r g c m args I) as (n1 & a & L1 & Rt).
  pose proof (ChanLiveProof.reached U o run lab En n1) as E1.
  assert (St : In r (ChanSpec.started (ChanModel.hist (run n1)))).
  { destruct (ChanProof2.own_exec U _ _ _ E1 (Di n1)) as [Ow _]. destruct (ChanProof2.o_return _ Ow _ _ _ _ Rt) as (_ & _ & _ & Ia).
    destruct (in_dec Nat.eq_dec r (ChanSpec.started (ChanModel.hist (run n1)))) as [Y|Y]; auto. rewrite (ChanProof3.unstarted_unanswered U _ _ _ _ E1 Y) in Ia. destruct Ia. }
  destruct (ChanLiveProof.h_idle U o run lab En Di Np (Go _) (fun r => Go _) (Go _) n1) as (n2 & L2 & Hd).
  apply (ChanLiveProof.started_mono' U o run lab En r n1 n2 L2) in St. pose proof (ChanLiveProof.reached U o run lab En n2) as E2.
  destruct (ChanProof2.whole_exec U _ _ _ E2) as (_ & _ & [_ Se] & _). rewrite Se in St. unfold ChanProof2.running in St. rewrite Hd in St. cbn in St. rewrite app_nil_r in St.
  apply in_map_iff in St as ([r' l] & E & St). cbn in E. subst r'. exists n2, l. split; [lia|]. now apply in_ended.
Qed.
End Chan.

Section Harbor.
Context {O : Type}.
Variables (carried : nat -> list (name * bool)) (black : list Z) (raddr : nat -> name) (wz : option nat -> wsize).
Variable code : name -> nat.
Variable T : nat -> name -> ChanModel.target O gval.
Variable o0 : nat -> name -> O.
Notation fstep := (fstep black raddr wz).
Notation hstep := (hstep black raddr wz code T).
Notation hinit := (hinit carried o0).
Notation srv s i := (servers (bd (fb (hf s)) i)).

(* method m of feature f of dock j panics on these arguments, whatever the object *)
Definition fatal (j : nat) (f m : name) (args : list gval) : Prop :=
  ChanModel.known (T j f) (code m) = true /\ forall o, ChanModel.impl (T j f) o (code m) args = None.
Lemma fatal_no_end ls s j f m g args r l : exec hstep hinit ls = Some s -> fatal j f m args -> issued code s j f m g args r -> ~ In (ChanModel.EEnd r l) (deeds s j f).
Proof. intros E [K P] I. destruct (chan_facts _ _ _ _ _ _ _ _ _ j f E) as (lc & Ec & _). exact (no_end _ _ _ _ _ _ _ _ _ _ Ec I K P). Qed.
Lemma fatal_step ls s j f m g args r : exec hstep hinit ls = Some s -> fatal j f m args -> issued code s j f m g args r -> up j s = true -> ChanModel.handler (feat s j f) = ChanModel.HRun r ->
  exists s', hstep s (HFeat j f ChanModel.LEnd) = Some s' /\ over s' j.
Proof.
  intros E [K P] I Up Hd. destruct (chan_facts _ _ _ _ _ _ _ _ _ j f E) as (lc & Ec & _). cbn [HarborModel.hstep]. rewrite Up. cbn [FullModel.inside andb].
  destruct (ChanProof2.whole_exec _ _ _ _ Ec) as (_ & [_ Io] & _). destruct (Io _ _ _ _ _ I) as [_ Q].
  assert (Dd : dead s (Some j) = false). { unfold up in Up. destruct (state _); try discriminate. apply andb_prop in Up as [A _]. now apply negb_true_iff in A. }
  pose proof (v_dead _ _ (inv_exec _ _ _ _ _ _ _ _ _ E) j f Dd) as Cr. unfold ChanModel.cstep. rewrite Cr, Hd. unfold ChanProof2.issue_of in Q. injection Q as _ _ <- <-. rewrite K, P.
  cbn [option_map]. eexists. split; [reflexivity|]. right. right. cbn. rewrite Nat.eqb_refl. apply orb_true_r.
Qed.

Variables (run : nat -> harbor O) (lab : nat -> option hlab).
Hypothesis En : hendless carried black raddr wz code T o0 run lab.
Variable j : nat.
Hypothesis At : attended black raddr wz code T run lab j.
Notation hreached := (hreached carried black raddr wz code T o0 run lab En).
Notation inv_at := (inv_at carried black raddr wz code T o0 run lab En).
Notation step_at := (HarborProof4.step_at carried black raddr wz code T o0 run lab En).

Lemma attended_goes : (forall n, ~ over (run n) j) -> going_on black raddr wz code T (eq j) run lab.
Proof.
  intros Up. split.
  - intros i n <-. apply Up.
  - intros t i n Ow <-. exact (at_fair _ _ _ _ _ _ _ _ At t n Ow).
  - intros i f g n <-. exact (at_turns _ _ _ _ _ _ _ _ At f g n).
Qed.
Lemma fatal_issued n f m g args r : issued code (run n) j f m g args r -> fatal j f m args -> will_end run j.
Proof.
  intros I Fa Up. pose proof (attended_goes Up) as Gg. pose proof (IsleProof2.up_all _ _ _ _ _ _ _ _ Gg j eq_refl) as Up'.
  destruct (issued_ends (T j f) (o0 j f) (crun run j f) (clab code run lab j f) (c_endless _ _ _ _ _ _ _ _ _ En j f) (c_disciplined _ _ _ _ _ _ _ _ _ En j f) (c_no_panic _ _ _ _ _ _ _ _ _ En j f Up')
    (IsleProof2.c_goes_on _ _ _ _ _ _ _ _ _ _ En Gg j f eq_refl) (IsleProof2.c_turns _ _ _ _ _ _ _ _ Gg j f eq_refl) n r g g (code m) args I) as (n' & l & L & Ed).
  destruct (hreached n') as (ls & E). refine (fatal_no_end _ _ j f m g args r l E Fa _ Ed). unfold issued, deeds.
  exact (ChanLiveProof.in_mono _ _ _ _ (c_endless _ _ _ _ _ _ _ _ _ En j f) _ n n' L I).
Qed.
Lemma fatal_local n k f m args : nth_error (local_calls (hist (bd (fb (hf (run n))) j))) k = Some (f, m, args) -> fatal j f m args -> will_end run j.
Proof.
  intros H Fa. pose proof (inv_at n) as J. rewrite (v_locals _ _ J), nth_error_map in H. destruct (nth_error (locals (run n) j) k) as [x|] eqn:Ex; [|discriminate]. injection H as <- <- <-.
  destruct (v_placed _ _ J _ _ _ Ex) as [[r Is] _]. exact (fatal_issued _ _ _ _ _ _ Is Fa).
Qed.
Lemma fatal_accepted n k p q : nth_error (accepted (map fst (carried j)) (hist (bd (fb (hf (run n))) j))) k = Some (p, q) -> fatal j (q_slot q) (q_method q) (q_args q) -> will_end run j.
Proof.
  intros Acc Fa Up. pose proof (attended_goes Up) as Gg. pose proof (IsleProof2.up_all _ _ _ _ _ _ _ _ Gg j eq_refl) as Up'.
  destruct (hreached n) as (ls & E). rewrite (accepted_server _ _ _ _ _ _ _ _ _ _ _ E) in Acc. destruct (nth_error (srv (run n) j) k) as [sv|] eqn:Ek; [|discriminate]. injection Acc as <- <-.
  assert (Done : forall m sv', nth_error (srv (run m) j) k = Some sv' -> s_req sv' = s_req sv -> begun (run m) j k = true -> False).
  { intros m sv' Ek' Er B. destruct (v_begun _ _ (inv_at m) _ _ B) as (sv2 & E2 & _ & _ & r & Is). rewrite Ek' in E2. injection E2 as <-. rewrite Er in Is. exact (fatal_issued _ _ _ _ _ _ Is Fa Up). }
  assert (Keep : forall m, n <= m -> exists sv', nth_error (srv (run m) j) k = Some sv' /\ s_req sv' = s_req sv).
  { intros m L. induction L as [|m L (sv' & Ek' & Er)]; [eauto|]. destruct (lab m) as [l|] eqn:El.
    - destruct (servers_keep carried _ _ _ _ _ o0 _ _ _ _ _ _ (step_at _ _ El) Ek') as (sv1 & Ek1 & Er1 & _). exists sv1. split; auto. congruence.
    - rewrite (HarborProof4.still_at _ _ _ _ _ _ _ _ _ En _ El). eauto. }
  destruct (at_fair _ _ _ _ _ _ _ _ At (HtServe j k) n eq_refl) as (m & L & X). destruct (Keep m L) as (sv' & Ek' & Er).
  destruct (begun (run m) j k) eqn:B; [exact (Done _ _ Ek' Er B)|]. pose proof (v_fresh _ _ (inv_at m) _ _ _ B Ek') as Pc.
  destruct (HarborProof4.up_parts run j Up' m) as (Al & Dd & Go).
  destruct X as [X|(l & El & [->|[->|(acc & ->)]])].
  - assert (Id : ChanModel.gor (feat (run m) j (q_slot (s_req sv'))) (server_id k) = ChanModel.GIdle).
    { destruct (hreached m) as (ls' & H). destruct (chan_runs _ _ _ _ _ _ _ _ _ j (q_slot (s_req sv')) H) as (lc & Ec & _).
      assert (D : ChanModel.gor (feat (run m) j (q_slot (s_req sv'))) (server_id k) = ChanModel.GIdle \/ ChanModel.gor (feat (run m) j (q_slot (s_req sv'))) (server_id k) <> ChanModel.GIdle) by (destruct (ChanModel.gor _ _); auto; right; discriminate).
      destruct D as [D|D]; auto. exfalso. destruct (busy_issued _ _ _ _ _ Ec D) as (r0 & c0 & m0 & a0 & I).
      destruct (v_asks _ _ (inv_at m) _ _ _ _ _ _ _ I) as [_ [(k' & sv2 & E' & B' & _)|(n' & x & E' & _)]]; [apply server_inj in E' as <-; congruence|now apply server_local in E']. }
    destruct (call_enabled (T j (q_slot (s_req sv'))) (feat (run m) j (q_slot (s_req sv'))) (server_id k) (server_id k) (code (q_method (s_req sv'))) (q_args (s_req sv')) (v_dead _ _ (inv_at m) j _ Dd) Id) as [c Hc].
    assert (Z : hstep (run m) (HBegin j k) = None) by (apply X; cbn; auto). cbn [HarborModel.hstep] in Z. rewrite (Up' m), B, Ek', Hc in Z. discriminate Z.
  - pose proof (step_at _ _ El) as St. destruct (Keep (S m) ltac:(lia)) as (sv1 & Ek1 & Er1). apply (Done (S m) sv1 Ek1 Er1).
    destruct (hstep_inv _ _ _ _ _ _ _ _ St) as (_ & _ & Fb & _). rewrite Fb, !Nat.eqb_refl. apply orb_true_r.
  - destruct (hstep_inv _ _ _ _ _ _ _ _ (step_at _ _ El)) as (_ & _ & _ & _ & _ & G & _). congruence.
  - pose proof (step_at _ _ El) as St. cbn [HarborModel.hstep] in St. destruct (allowed _ _); [|discriminate]. cbn [FleetModel.fstep bstep] in St. destruct (gone _ _); [discriminate|].
    unfold dock_does in St. unfold dstep in St. rewrite Ek', Pc in St. destruct (state _); discriminate St.
Qed.

(* a call from dock i *)
Lemma fatal_committed i p q : attended black raddr wz code T run lab i -> (forall n, ~ over (run n) i) -> flegitimate wz (fun n => hf (run n)) -> working run i p -> working run j q ->
  (forall n, ~ cleared (hist (bd (fb (hf (run n))) j))) -> (forall n, NoDup (map q_index (requests (hist (bd (fb (hf (run n))) i))))) ->
  forall n c rq, fends (hf (run n)) i p = ToDock j q -> In (ECommit c p true) (hist (bd (fb (hf (run n))) i)) -> In (ENew c rq) (hist (bd (fb (hf (run n))) i)) ->
  (forall args, through (q_args rq) = Some args -> fatal j (q_slot rq) (q_method rq) args) -> will_end run j.
Proof.
  intros Ai Ui Lg Wi Wj Cl Nd n c rq Lk Co Nw Fa Up.
  assert (Gg : going_on black raddr wz code T (fun x => x = i \/ x = j) run lab).
  { split.
    - intros x m [->| ->]; auto.
    - intros t x m Ow [->| ->]; [exact (at_fair _ _ _ _ _ _ _ _ Ai t m Ow)|exact (at_fair _ _ _ _ _ _ _ _ At t m Ow)].
    - intros x f g m [->| ->]; [exact (at_turns _ _ _ _ _ _ _ _ Ai f g m)|exact (at_turns _ _ _ _ _ _ _ _ At f g m)]. }
  destruct (IsleProof2.isle_committed carried black raddr wz code T o0 run lab _ En Gg Lg i p j q (or_introl eq_refl) (or_intror eq_refl) Wi Wj Cl Nd n c Lk Co) as (m & x & rq' & k & r & L & _ & Nw' & Pf).
  assert (rq' = rq) as ->.
  { pose proof (IsleProof.event_stays _ _ _ _ _ _ (f_endless _ _ _ _ _ _ _ _ _ En) n m i _ L Nw) as Y. unfold frun in Y. destruct (hreached m) as (ls & E). destruct (dock_runs _ _ _ _ _ _ _ _ _ i E) as [ls' Ed].
    exact (new_unique _ _ _ _ _ _ Ed Nw' Y). }
  destruct Pf as (_ & args & res & err & Th & _ & Is & _). exact (fatal_issued _ _ _ _ _ _ Is (Fa _ Th) Up).
Qed.
End Harbor.

(* the methods of IFeature *)
Section Life.
Context {O : Type}.
Variables (carried : nat -> list (name * bool)) (black : list Z) (raddr : nat -> name) (wz : option nat -> wsize).
Variable code : name -> nat.
Variable T : nat -> name -> ChanModel.target O gval.
Variable o0 : nat -> name -> O.
Variables (open : MetaModel.open_conversion) (decode : nat -> name).
Notation hstep := (hstep black raddr wz code T).
Notation hinit := (hinit carried o0).
Lemma life_fatal j f m args : from_slot wz open decode T j f -> life_cycle m -> decode (code m) = m -> forallb bare args = true -> fatal code T j f m args.
Proof.
  intros (ms & d & sl & N & S & E) L D B. unfold fatal. rewrite E. destruct (life_panics ms d sl (wz (Some j)) open decode (code m) S N) as [K P]; [now rewrite D|]. auto.
Qed.
Lemma life_no_result ls s j f m g args r : exec hstep hinit ls = Some s -> from_slot wz open decode T j f -> life_cycle m -> decode (code m) = m -> forallb bare args = true ->
  issued code s j f m g args r -> (forall l, ~ In (ChanModel.EEnd r l) (deeds s j f)) /\
  (up j s = true -> ChanModel.handler (feat s j f) = ChanModel.HRun r -> exists s', hstep s (HFeat j f ChanModel.LEnd) = Some s' /\ over s' j).
Proof.
  intros E F L D B I. pose proof (life_fatal j f m args F L D B) as Fa. split; [intros l; exact (fatal_no_end _ _ _ _ _ _ _ _ _ _ _ _ _ _ _ _ E Fa I)|].
  intros U H. exact (fatal_step _ _ _ _ _ _ _ _ _ _ _ _ _ _ _ E Fa I U H).
Qed.
Variables (run : nat -> harbor O) (lab : nat -> option hlab).
Hypothesis En : hendless carried black raddr wz code T o0 run lab.
Variable j : nat.
Hypothesis At : attended black raddr wz code T run lab j.
Lemma life_accepted n k p q : nth_error (accepted (map fst (carried j)) (hist (bd (fb (hf (run n))) j))) k = Some (p, q) ->
  from_slot wz open decode T j (q_slot q) -> life_cycle (q_method q) -> decode (code (q_method q)) = q_method q -> forallb bare (q_args q) = true -> will_end run j.
Proof. intros A F L D B. exact (fatal_accepted _ _ _ _ _ _ _ _ _ En j At _ _ _ _ A (life_fatal _ _ _ _ F L D B)). Qed.
Lemma life_local n k f m args : nth_error (local_calls (hist (bd (fb (hf (run n))) j))) k = Some (f, m, args) ->
  from_slot wz open decode T j f -> life_cycle m -> decode (code m) = m -> forallb bare args = true -> will_end run j.
Proof. intros A F L D B. exact (fatal_local _ _ _ _ _ _ _ _ _ En j At _ _ _ _ _ A (life_fatal _ _ _ _ F L D B)). Qed.
Lemma life_committed i p q : attended black raddr wz code T run lab i -> (forall n, ~ over (run n) i) -> flegitimate wz (fun n => hf (run n)) -> working run i p -> working run j q ->
  (forall n, ~ cleared (hist (bd (fb (hf (run n))) j))) -> (forall n, NoDup (map q_index (requests (hist (bd (fb (hf (run n))) i))))) ->
  forall n c rq, fends (hf (run n)) i p = ToDock j q -> In (ECommit c p true) (hist (bd (fb (hf (run n))) i)) -> In (ENew c rq) (hist (bd (fb (hf (run n))) i)) ->
  from_slot wz open decode T j (q_slot rq) -> life_cycle (q_method rq) -> decode (code (q_method rq)) = q_method rq -> will_end run j.
Proof.
  intros Ai Ui Lg Wi Wj Cl Nd n c rq Lk Co Nw F L D. refine (fatal_committed _ _ _ _ _ _ _ _ _ En j At i p q Ai Ui Lg Wi Wj Cl Nd n c rq Lk Co Nw _).
  intros args Th. exact (life_fatal _ _ _ _ F L D (through_bare _ _ Th)).
Qed.
End Life.

(* what was decoded has no methods, whoever sent it *)
Lemma decoded_bare b k l r : bytes_ok b -> bdecode b = DOk (VArr k l) r -> forallb bare l = true.
Proof.
  intros B E. pose proof (CodecProof7.bdecode_uni _ _ _ B E) as U. cbn in U. apply andb_prop in U as [_ U]. rewrite forallb_forall in *. intros v I. specialize (U v I).
  destruct v as [|t x|t x|t x|t x y|t x y|t x|x y|x y|x y]; cbn in *; auto; try (apply andb_prop in U as [U _]; auto).
Qed.
