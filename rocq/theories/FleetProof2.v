(* C73: when nothing is left to do in a network down to the bytes, calls have returned. *)
From Verif Require Import Lts GoInt GoVal Tables CodecSpec ProtoModel ProtoSpec SysCodec DockModel DockSpec DockProof DockProof2 DockProof3 SysModel SysSpec SysProof.
From Verif Require Import DockProof9 WorldModel WorldSpec WorldProof WorldProof6 ByteModel ByteSpec ByteProof ByteProof2 ByteProof3 FleetModel FleetSpec FleetProof.
From Verif Require CallSpec DockProof4 HubModel HubSpec HubProof2 HubProof3 SysProof2 WorldProof3 WorldProof7.
From Coq Require Import Arith Bool List ZArith Lia.
Import ListNotations.
Open Scope nat_scope.

(* what a step that is due hands to Send: nothing, one query, or one packet whose acceptance is open *)
Lemma due_shape (d : dock gval) i l d' : dstep d l = Some d' -> due (WDock i l) ->
  (exists es, hist d' = hist d ++ es /\ forallb silent es = true) \/ (exists k f, hist d' = hist d ++ [EQuery k f]) \/
  (exists p k, forall acc, exists l' d'' u, due (WDock i l') /\ dstep d l' = Some d'' /\ hist d'' = hist d ++ u ++ [ESend p k acc] /\ forallb silent u = true).
Proof.
  intros H D. apply dstep_tr in H as [A T].
  assert (Z : forall x : list (event gval), x = hist d -> exists es, x = hist d ++ es /\ forallb silent es = true) by (intros x ->; exists []; now rewrite app_nil_r).
  assert (Z1 : forall e x, x = hist d ++ [e] -> silent e = true -> exists es, x = hist d ++ es /\ forallb silent es = true) by (intros e x -> S; exists [e]; cbn; now rewrite S).
  destruct T; try (exfalso; exact D); try (left; first [apply Z; reflexivity|eapply Z1; reflexivity]); try (right; left; eexists _, _; reflexivity); right; right.
  - exists k, (KRequest q). intros a. exists (HCommit p a). unfold dstep, commit, at_call. rewrite A, H, H0, H1, H2.
    eexists _, [ECommit c k a]. split; [exact I|]. split; [reflexivity|]. split; reflexivity.
  - exists p, (KReady ns). intros a. exists (HSend p ns a). unfold dstep. rewrite A, H, H0. eexists _, []. split; [exact I|]. split; [reflexivity|]. split; reflexivity.
  - exists p, (KReady ns). intros a. exists (HSend p ns a). unfold dstep. rewrite A, H, H0. eexists _, []. split; [exact I|]. split; [reflexivity|]. split; reflexivity.
  - exists p, (KRegister ns). intros a. exists (LAnnounce j ns a). unfold dstep. rewrite A, H, H0. eexists _, []. split; [exact I|]. split; [reflexivity|]. split; reflexivity.
  - exists k, (KRequest q). intros a. exists (CStep c a). unfold dstep, commit, at_call. rewrite A, H, H0. cbn. rewrite ?H, ?H1, ?H2.
    eexists _, [ECommit c k a]. split; [exact I|]. split; [reflexivity|]. split; [|reflexivity]. match goal with |- context [nth_error ?x ?y] => destruct (nth_error x y) end; reflexivity.
  - exists (s_peer sv), (KResponse (respond (s_req sv) res err)). intros a. exists (SSend k a). unfold dstep. rewrite A, H, H0.
    eexists _, [EReplied k a]. split; [exact I|]. split; [reflexivity|]. split; reflexivity.
Qed.

Section Settled.
Variables (carried : nat -> list (name * bool)) (black : list Z) (raddr : nat -> name) (wz : option nat -> wsize).
Notation fstep := (fstep black raddr wz).
Implicit Types n : fleet.

Lemma fstep_dock n i l : due (WDock i l) -> gone (fb n) (Some i) = false -> fstep n (FDock i l) = fon (outline n) (dock_does i l (query_peers (outline n) i) (fb n)).
Proof. intros D G. destruct l; try (exfalso; exact D); cbn; rewrite G; reflexivity. Qed.
Lemma does_silent i l ps b d es : dstep (bd b i) l = Some d -> hist d = hist (bd b i) ++ es -> forallb silent es = true -> dock_does i l ps b = Some (with_dock i d b).
Proof. intros E H S. unfold dock_does. rewrite E, H, new_app. now apply events_silent. Qed.

Section One.
Variables n : fleet.
Hypotheses (U : unbroken n) (H : healthy (parts (fb n))) (S : fsettled black raddr wz n).
Lemma f_alive i : state (bd (fb n) i) = Alive. Proof. exact (h_alive _ H i). Qed.
Lemma fdock_due i l : due (WDock i l) -> dstep (bd (fb n) i) l = None.
Proof.
  intros D. destruct (dstep (bd (fb n) i) l) as [d|] eqn:E; auto. exfalso. destruct S as [S1 _]. destruct U as [G _].
  assert (N : forall l, due (WDock i l) -> dock_does i l (query_peers (outline n) i) (fb n) = None).
  { intros l0 D0. specialize (S1 (FDock i l0) D0). rewrite fstep_dock in S1 by auto. destruct (dock_does i l0 _ _); [discriminate|reflexivity]. }
  destruct (due_shape _ i _ _ E D) as [(es & He & Sl)|[(k & f & He)|(p & k & X)]].
  - pose proof (N l D) as Y. rewrite (does_silent _ _ _ _ _ _ E He Sl) in Y. discriminate.
  - pose proof (N l D) as Y. unfold dock_does in Y. rewrite E, He, new_app in Y. discriminate.
  - destruct (X (room (DockEnd i p) (fb n))) as (l' & d' & u & D' & E' & He & Su). pose proof (N l' D') as Y. unfold dock_does in Y. rewrite E', He, new_app in Y.
    rewrite fold_left_app, events_silent in Y by exact Su. cbn [fold_left dock_event] in Y. change (room (DockEnd i p) (with_dock i d' (fb n))) with (room (DockEnd i p) (fb n)) in Y.
    destruct (room (DockEnd i p) (fb n)); discriminate.
Qed.
Lemma fall_idle i p : handlers (bd (fb n) i) p = HIdle.
Proof.
  assert (A := f_alive i). assert (G := fdock_due i (HGo p) Logic.I). unfold dstep in G. rewrite A in G. destruct U as [Gn _].
  destruct (handlers (bd (fb n) i) p) as [|sl|f sl todo|f sl todo c|f sl todo c|sl|sl|m|m| | |a|a] eqn:E; auto; exfalso; try discriminate G.
  - destruct sl; discriminate.
  - destruct todo as [|k todo]; [discriminate|]. assert (P := fdock_due i (HPick p k) Logic.I). unfold dstep in P. rewrite A, E in P.
    destruct (zget (rpcs (bd (fb n) i)) k); [discriminate|]. cbn in P. rewrite Z.eqb_refl in P. discriminate.
  - assert (P := fdock_due i (HCommit p true) Logic.I). unfold dstep in P. rewrite A, E in P. discriminate.
  - assert (P := fdock_due i (HSend p (collected (bd (fb n) i)) true) Logic.I). unfold dstep in P. rewrite A, reorders_refl, E in P. discriminate.
  - destruct sl; discriminate.
  - destruct S as [S1 _]. specialize (S1 (FListen i p false) Logic.I). cbn [FleetModel.fstep] in S1. rewrite E in S1. cbn [andb bstep] in S1. rewrite Gn in S1.
    assert (X : dstep (bd (fb n) i) (HNet p false) = Some (with_state Exited (bd (fb n) i))) by (unfold dstep; rewrite A, E; reflexivity).
    rewrite (does_silent _ _ _ _ _ [] X) in S1; [discriminate|symmetry; apply app_nil_r|reflexivity].
  - assert (P := fdock_due i (HSend p (collected (bd (fb n) i)) true) Logic.I). unfold dstep in P. rewrite A, reorders_refl, E in P. discriminate.
  - destruct S as [S1 _]. specialize (S1 (FFail i p) Logic.I). cbn [FleetModel.fstep] in S1. rewrite E in S1. cbn [bstep] in S1. rewrite Gn in S1.
    assert (X : dstep (bd (fb n) i) (HNet p false) = Some (with_state Exited (bd (fb n) i))) by (unfold dstep; rewrite A, E; reflexivity).
    rewrite (does_silent _ _ _ _ _ [] X) in S1; [discriminate|symmetry; apply app_nil_r|reflexivity].
Qed.
Lemma fno_backlog i q : ~ In q (fbacklog n i).
Proof.
  intros I. destruct S as [S1 _]. destruct U as [Gn _]. specialize (S1 (FAccept i q) Logic.I). cbn [FleetModel.fstep] in S1.
  assert (X : existsb (Nat.eqb q) (fbacklog n i) = true) by (apply existsb_exists; exists q; split; auto; apply Nat.eqb_refl). rewrite X in S1. cbn [bstep] in S1. rewrite Gn in S1.
  assert (Y : exists d, dstep (bd (fb n) i) (LConnected q) = Some d /\ hist d = hist (bd (fb n) i) ++ []).
  { unfold dstep. rewrite (f_alive i). eexists. split; [reflexivity|]. symmetry. apply app_nil_r. }
  destruct Y as (d & Y & Z). rewrite (does_silent _ _ _ _ _ _ Y Z) in S1; [discriminate|reflexivity].
Qed.
Lemma fthere e : across n e <> None -> there n e = true.
Proof.
  destruct e as [i p|h]; auto. unfold across. cbn. intros N. destruct (fends n i p); [congruence|..]; apply negb_true_iff.
  - destruct (existsb (Nat.eqb p) (fbacklog n i)) eqn:E; auto. apply existsb_exists in E as (x & X & _). destruct (fno_backlog _ _ X).
  - destruct (existsb (Nat.eqb p) (fbacklog n i)) eqn:E; auto. apply existsb_exists in E as (x & X & _). destruct (fno_backlog _ _ X).
Qed.
Lemma hub_still p : HubModel.hstep black raddr (bh (fb n)) (HubModel.HStep p) = None.
Proof.
  destruct S as [S1 _]. destruct U as [Gn _]. specialize (S1 (FHub (HubModel.HStep p)) Logic.I). cbn [FleetModel.fstep bstep] in S1. rewrite Gn in S1. unfold hub_does in S1.
  destruct (HubModel.hstep black raddr (bh (fb n)) (HubModel.HStep p)); [discriminate|reflexivity].
Qed.
End One.
End Settled.

(* ---- against the network of packets ---- *)
Section Follow.
Variables (carried : nat -> list (name * bool)) (black : list Z) (raddr : nat -> name) (wz : option nat -> wsize).
Notation fstep := (fstep black raddr wz).
Notation fsim c := (fsim wz c).
Notation wstep c := (wstep (fun _ _ : nat => c) black raddr).
Implicit Types (n : fleet) (w : world gval).

Lemma fsim_parts c n w : fsim c n w -> (forall i, sd (ws w) i = bd (fb n) i) /\ sh (ws w) = bh (fb n).
Proof. intros [M _ _ _ _ _]. destruct M; auto. Qed.
Lemma healthy_sim c n w : fsim c n w -> healthy (parts (fb n)) -> healthy (ws w).
Proof.
  intros F [A B C D E G]. destruct (fsim_parts _ _ _ F) as [X Y]. cbn in *.
  split; [intros i; rewrite X; auto|rewrite Y; exact B|intros i; rewrite X; apply C|intros i; rewrite X; apply D|intros i; rewrite X; apply E|intros i; rewrite X; apply G].
Qed.
Lemma fhub_idle c n w ls h : exec (wstep c) (winit carried) ls = Some w -> fsim c n w -> unbroken n -> healthy (parts (fb n)) -> fsettled black raddr wz n ->
  HubModel.handlers (bh (fb n)) h = HubModel.HIdle.
Proof.
  intros R F U H S. destruct (SysProof.hub_runs _ _ _ _ _ _ _ _ (WorldProof3.run_ok _ _ _ _ _ _ R)) as [lh Lh]. apply HubProof3.qinv_exec in Lh as (Iv & _).
  assert (Ok := HubProof2.i_handler _ _ Iv h). destruct (fsim_parts _ _ _ F) as [_ Y]. rewrite Y in Ok. assert (St := hub_still black raddr wz n U S h). unfold HubModel.hstep in St.
  pose proof (h_hub _ H) as Hh. cbn in Hh. rewrite Hh in St.
  destruct (HubModel.handlers (bh (fb n)) h) as [|t sl|t host m [|f sl]|t [|f sl]|t f i sl|t f i sl] eqn:E; auto; exfalso; try discriminate St.
  - destruct (HubModel.allocate _ _); discriminate.
  - destruct Ok as (_ & _ & _ & _ & L & _). destruct (nth_error (HubModel.docks (bh (fb n)) f) i) eqn:En; [destruct (_ =? _); discriminate|].
    apply nth_error_None in En. lia.
Qed.
Lemma fleet_quiet c n w ls : exec (wstep c) (winit carried) ls = Some w -> fsim c n w -> unbroken n -> healthy (parts (fb n)) -> fsettled black raddr wz n -> quiet (across n) wz (fb n).
Proof.
  intros R F U H S. assert (W : wired (fends n) hub_end) by (rewrite (fs_ends _ _ _ _ F); apply (WorldProof.run_sys _ _ _ _ _ _ R)).
  apply (bytes_move (fends n) hub_end black raddr hostport wz W).
  - intros e e' O. assert (N : across n e <> None) by (unfold across; rewrite O; discriminate). destruct U as [Ug Ue]. destruct (Ue e N) as [U1 U2].
    assert (U : unbroken n) by (split; auto).
    split; [destruct e; [apply (f_alive n H)|apply (h_hub _ H)]|]. split; [apply Ug|]. split; [exact U1|]. split; [exact U2|].
    destruct e as [i p|h]; cbn; [rewrite (fall_idle black raddr wz n U H S i p)|rewrite (fhub_idle c n w ls h R F U H S)]; reflexivity.
  - intros e e' O. assert (N : across n e <> None) by (unfold across; rewrite O; discriminate).
    assert (T := fthere black raddr wz n U H S e N). destruct S as [S1 _].
    assert (K : forall l, site l = Some e -> fdue (FRoutine l) -> bstep (fends n) hub_end black raddr hostport wz (fb n) l = None).
    { intros l Hl D. specialize (S1 _ D). cbn [FleetModel.fstep] in S1. rewrite Hl, T in S1. destruct (bstep _ _ _ _ _ _ _ l); [discriminate|reflexivity]. }
    split; [apply K; [reflexivity|exact Logic.I]|]. split; [apply K; [reflexivity|exact Logic.I]|]. split; [apply K; [reflexivity|exact Logic.I]|].
    intros m Hm. apply K; [reflexivity|exact Hm].
Qed.
Lemma fleet_polls t : forall k n h, gone (fb n) None = false -> exec (HubModel.hstep black raddr) (bh (fb n)) (repeat (HubModel.QStep t) k) = Some h ->
  exists n', exec fstep n (repeat (FHub (HubModel.QStep t)) k) = Some n' /\ bh (fb n') = h.
Proof.
  induction k as [|k IH]; intros n h G E; [injection E as <-; exists n; auto|]. cbn [repeat exec] in *.
  destruct (HubModel.hstep black raddr (bh (fb n)) (HubModel.QStep t)) as [h1|] eqn:Eh; [|discriminate]. cbn [FleetModel.fstep bstep]. rewrite G. unfold hub_does. rewrite Eh. cbn [fon option_map].
  assert (P : forall es b, bh (fold_left (hub_event hostport) es b) = bh b /\ gone (fold_left (hub_event hostport) es b) = gone b).
  { clear. induction es as [|e es IH]; intros b; [auto|]. cbn [fold_left]. destruct (IH (hub_event hostport b e)) as [X Y]. rewrite X, Y.
    destruct e; auto; cbn; unfold send; destruct (room _ _); auto. }
  apply IH; cbn [around fb]; [now rewrite (proj2 (P _ _))|]. rewrite (proj1 (P _ _)). exact E.
Qed.
Lemma world_polls c t : forall k w w', exec (wstep c) w (repeat (WHub (HubModel.QStep t)) k) = Some w' ->
  exec (HubModel.hstep black raddr) (sh (ws w)) (repeat (HubModel.QStep t) k) = Some (sh (ws w')).
Proof.
  induction k as [|k IH]; intros w w' E; [injection E as <-; reflexivity|]. cbn [repeat exec] in *.
  destruct (wstep c w (WHub (HubModel.QStep t))) as [w1|] eqn:E1; [|discriminate]. cbn [WorldModel.wstep sstep] in E1. unfold hub_step in E1.
  destruct (HubModel.hstep black raddr (sh (ws w)) (HubModel.QStep t)) as [h1|] eqn:Eh; [|discriminate]. injection E1 as <-.
  rewrite <- (IH _ _ E). cbn [ws with_sys]. destruct (hub_posts_rest hub_end hostport (new_events (HubModel.hist (sh (ws w))) (HubModel.hist h1)) (set_hub h1 (ws w))) as (_ & X & _).
  now rewrite X.
Qed.
Lemma settled_sim c n w ls : exec (wstep c) (winit carried) ls = Some w -> fsim c n w -> dropped (fb n) = false -> unbroken n -> healthy (parts (fb n)) -> fsettled black raddr wz n ->
  settled (fun _ _ => c) black raddr w.
Proof.
  intros R F D U H S. destruct (WorldProof.run_sys _ _ _ _ _ _ R) as (Wi & _). assert (W := wi_wired _ Wi). destruct (fsim_parts _ _ _ F) as [X Y].
  assert (Q := fleet_quiet _ _ _ _ R F U H S). pose proof (fs_ends _ _ _ _ F) as Ee. unfold across in Q. rewrite Ee in Q.
  destruct (sim_quiet (ends w) hub_end wz c W _ _ (fs_sim _ _ _ _ F) Q D) as [Q1 Q2].
  assert (I : forall i p, handlers (sd (ws w) i) p = HIdle) by (intros i p; rewrite X; apply (fall_idle black raddr wz n U H S)).
  split.
  - intros l Dl. destruct l as [i l|i p|i p k|l|h|h k|i b|i p b|i p j m|i p|j q]; try (exfalso; exact Dl).
    + pose proof (fdock_due black raddr wz n U S i l Dl) as N. rewrite <- X in N. destruct l; try (exfalso; exact Dl); cbn; unfold dock_step; rewrite N; reflexivity.
    + cbn. destruct (existsb _ _); auto. assert (E : wire (ws w) i p = []).
      { destruct (wire (ws w) i p) as [|k q] eqn:E; auto. rewrite <- E. apply Q1. apply (wi_open _ Wi). rewrite E. discriminate. }
      rewrite E. reflexivity.
    + destruct l as [| |p|]; try (exfalso; exact Dl). cbn. unfold hub_step. rewrite Y, (hub_still black raddr wz n U S p). reflexivity.
    + cbn. rewrite (Q2 h); [reflexivity|discriminate].
    + cbn. rewrite I. reflexivity.
    + cbn. rewrite I. reflexivity.
    + cbn. rewrite I. reflexivity.
    + cbn. destruct (existsb (Nat.eqb q) (backlog w j)) eqn:E; auto. rewrite <- (fs_back _ _ _ _ F) in E. apply existsb_exists in E as (z & Z & _).
      destruct (fno_backlog black raddr wz n U H S _ _ Z).
  - intros t k w' E. apply world_polls in E. rewrite Y in E |- *. destruct (fleet_polls t k n _ (proj1 U None) E) as (n' & E' & <-). apply S in E'. exact E'.
Qed.

(* a network down to the bytes does what a network of packets does *)
Theorem fleet_to_network ls n : exec fstep (finit carried) ls = Some n -> Forall (legitimate (across n) wz) (handed (fb n)) ->
  exists ls' w, exec (wstep through) (winit carried) ls' = Some w /\ (forall i, sd (ws w) i = bd (fb n) i) /\ sh (ws w) = bh (fb n) /\
    ends w = fends n /\ peers w = fpeers n /\ backlog w = fbacklog n /\ listeners w = flisteners n /\
    (dropped (fb n) = false -> nothing_lost ls') /\ (forall j, In (FDial j true) ls -> In (WDial j true) ls') /\
    (dropped (fb n) = false -> unbroken n -> healthy (parts (fb n)) -> fsettled black raddr wz n -> settled (fun _ _ => through) black raddr w).
Proof.
  intros E L. destruct (fleet_sim carried black raddr wz through (fun l x H => H) ls n E L) as (ls' & w & R & F & N & D). exists ls', w. split; auto.
  destruct (fsim_parts _ _ _ F) as [X Y]. destruct F as [F1 F2 F3 F4 F5 F6]. repeat (split; [solve [auto]|]). intros Dr U H S. eapply settled_sim; eauto. now constructor.
Qed.
Theorem fleet_returned ls n i c x : exec fstep (finit carried) ls = Some n -> Forall (legitimate (across n) wz) (handed (fb n)) ->
  NoDup (map q_index (requests (hist (bd (fb n) i)))) -> In (EReturn c x) (hist (bd (fb n) i)) ->
  exists q j k, In (ENew c q) (hist (bd (fb n) i)) /\ executed carried (fends n) (fun _ _ => through) (parts (fb n)) i q j k x /\
    forall j' k' q', served carried (fends n) (parts (fb n)) i j' k' q' -> q_index q' = q_index q -> j' = j /\ k' = k.
Proof.
  intros E L N R. destruct (fleet_to_network _ _ E L) as (ls' & w & Rw & Ed & _ & Ee & _). destruct (run_system _ _ _ _ _ _ _ Rw) as (W & ls2 & Rs & _).
  rewrite <- Ed in N, R. destruct (SysProof2.remote_call_spec _ _ _ _ _ _ _ W _ _ _ _ _ Rs N R) as (q & j & k & Nq & X & U). rewrite Ee in *. exists q, j, k. rewrite <- Ed. split; auto.
  split; [eapply executed_parts; eauto|]. intros j' k' q' (p & r & Lk & Nk). apply U. exists p, r. split; auto. cbn in Nk. now rewrite Ed.
Qed.
Theorem fleet_dials ls n i p j m n' : exec fstep (finit carried) ls = Some n -> Forall (legitimate (across n) wz) (handed (fb n)) -> fstep n (FConnect i p j m) = Some n' ->
  exists t f k, In (HubModel.EAnswer t i f k (machine raddr j) m) (HubModel.hist (bh (fb n))) /\ carries (carried j) f true /\
    (exists c q, In (ENew c q) (hist (bd (fb n) i)) /\ q_slot q = f) /\ (~ cleared (hist (bd (fb n) i)) -> j <> i).
Proof.
  intros E L H. destruct (fleet_to_network _ _ E L) as (ls' & w & Rw & Ed & Eh & Ee & Ep & Eb & El & _). cbn [FleetModel.fstep] in H.
  destruct (handlers (bd (fb n) i) p) as [| | | | | | | | | | |a|] eqn:Ehn; try discriminate.
  destruct (zlist_eqb_spec a (hostport (machine raddr j) m)) as [->|]; [|discriminate]. destruct (flistens n j m) eqn:Li; [|discriminate]. apply andb_true_iff in Li as [Li _].
  rewrite <- Ed in *. rewrite <- Eh. eapply WorldProof7.dial_meant; eauto. unfold listens in *. cbn [outline WorldModel.listeners WorldModel.ws sd] in Li. now rewrite El, Ed.
Qed.
Theorem fleet_answers ls n i c q j : exec fstep (finit carried) ls = Some n -> Forall (legitimate (across n) wz) (handed (fb n)) -> dropped (fb n) = false ->
  unbroken n -> healthy (parts (fb n)) -> fsettled black raddr wz n ->
  In (ENew c q) (hist (bd (fb n) i)) -> In (FDial j true) ls -> carries (carried j) (q_slot q) true ->
  exists x j' k, returns c (hist (bd (fb n) i)) = [x] /\ executed carried (fends n) (fun _ _ => through) (parts (fb n)) i q j' k x.
Proof.
  intros E L D U H S Nq Dj Cf.
  assert (Wh : forall l x, through l = Some x -> whole l = Some x) by (unfold whole; intros l x ->; reflexivity).
  assert (Wt : forall l, whole l <> None) by (unfold whole; intros l; destruct (through l); discriminate).
  destruct (fleet_sim carried black raddr wz whole Wh ls n E L) as (ls' & w & R & F & N & Dl). destruct (fsim_parts _ _ _ F) as [X Y].
  rewrite <- (X i) in Nq.
  destruct (every_call _ _ _ _ _ _ i c q j R (N D) (fun _ _ => Wt) (healthy_sim _ _ _ F H) (settled_sim _ _ _ _ R F D U H S) Nq (Dl j Dj) Cf) as (x & _ & _ & Rx & _).
  rewrite X in Rx, Nq. assert (Ret : In (EReturn c x) (hist (bd (fb n) i))).
  { assert (Z : In x (returns c (hist (bd (fb n) i)))) by (rewrite Rx; now left). unfold returns in Z. apply in_flat_map in Z as (e & Ie & Z). destruct e; try destruct Z.
    destruct (Nat.eqb_spec c0 c) as [->|]; [|destruct Z]. destruct Z as [->|[]]. exact Ie. }
  destruct (fleet_returned _ _ _ _ _ E L (h_ids _ H i) Ret) as (q1 & j' & k & N1 & E1 & _).
  destruct (SysProof.docks_run _ _ _ _ _ _ _ _ (WorldProof3.run_ok _ _ _ _ _ _ R) i) as [li Li]. rewrite X in Li. destruct (DockProof4.inv_inv _ _ _ Li) as ([_ I2] & _).
  assert (q1 = q) as -> by (apply I2 in N1; apply I2 in Nq; congruence). exists x, j', k. split; auto.
Qed.
End Follow.
