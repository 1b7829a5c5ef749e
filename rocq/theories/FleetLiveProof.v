(* C76: an endless run down to the bytes, moment by moment, is one of packets. *)
From Verif Require Import Lts GoInt GoVal Tables CodecSpec ProtoModel ProtoSpec SysCodec DockModel DockSpec DockProof DockProof2 DockProof3 DockProof9 SysModel SysSpec SysProof.
From Verif Require Import WorldModel WorldSpec WorldProof WorldProof6 LiveSpec ByteModel ByteSpec ByteProof ByteProof2 ByteProof3 FleetModel FleetSpec FleetProof FleetProof2 FleetLiveSpec.
From Verif Require CallSpec HubModel HubProof2 HubProof3 WorldProof3.
From Coq Require Import Arith Bool List ZArith Lia.
Import ListNotations.
Open Scope nat_scope.

Ltac tasked F := match type of F with of_task ?T _ => destruct T end; cbn in F |- *;
  first [exact F|discriminate F|(exfalso; exact F)
        |solve [destruct F as (? & ? & F); first [discriminate F|injection F; intros; subst; eauto]]
        |solve [destruct F as (? & F); first [discriminate F|injection F; intros; subst; eauto]]
        |solve [destruct F as [(? & ? & F)|(? & F)]; first [discriminate F|injection F; intros; subst; eauto]]].
(* as due_shape of FleetProof2.v, with a step of the same goroutine *)
Lemma task_shape (d : dock gval) i l d' T : dstep d l = Some d' -> due (WDock i l) -> of_task T (WDock i l) ->
  (exists es, hist d' = hist d ++ es /\ forallb silent es = true) \/ (exists k f, hist d' = hist d ++ [EQuery k f]) \/
  (exists p k, forall acc, exists l' d'' u, of_task T (WDock i l') /\ due (WDock i l') /\ dstep d l' = Some d'' /\ hist d'' = hist d ++ u ++ [ESend p k acc] /\ forallb silent u = true).
Proof.
  intros H D F. apply dstep_tr in H as [A T0].
  assert (Z : forall x : list (event gval), x = hist d -> exists es, x = hist d ++ es /\ forallb silent es = true) by (intros x ->; exists []; now rewrite app_nil_r).
  assert (Z1 : forall e x, x = hist d ++ [e] -> silent e = true -> exists es, x = hist d ++ es /\ forallb silent es = true) by (intros e x -> S; exists [e]; cbn; now rewrite S).
  destruct T0; try (exfalso; exact D); try (left; first [apply Z; reflexivity|eapply Z1; reflexivity]); try (right; left; eexists _, _; reflexivity); right; right.
  - exists k, (KRequest q). intros a. exists (HCommit p a). unfold dstep, commit, at_call. rewrite A, H, H0, H1, H2.
    eexists _, [ECommit c k a]. split; [tasked F|]. split; [exact I|]. split; [reflexivity|]. split; reflexivity.
  - exists p, (KReady ns). intros a. exists (HSend p ns a). unfold dstep. rewrite A, H, H0. eexists _, []. split; [tasked F|]. split; [exact I|]. split; [reflexivity|]. split; reflexivity.
  - exists p, (KReady ns). intros a. exists (HSend p ns a). unfold dstep. rewrite A, H, H0. eexists _, []. split; [tasked F|]. split; [exact I|]. split; [reflexivity|]. split; reflexivity.
  - exists p, (KRegister ns). intros a. exists (LAnnounce j ns a). unfold dstep. rewrite A, H, H0. eexists _, []. split; [tasked F|]. split; [exact I|]. split; [reflexivity|]. split; reflexivity.
  - exists k, (KRequest q). intros a. exists (CStep c a). unfold dstep, commit, at_call. rewrite A, H, H0. cbn. rewrite ?H, ?H1, ?H2.
    eexists _, [ECommit c k a]. split; [tasked F|]. split; [exact I|]. split; [reflexivity|]. split; [|reflexivity]. match goal with |- context [nth_error ?x ?y] => destruct (nth_error x y) end; reflexivity.
  - exists (s_peer sv), (KResponse (respond (s_req sv) res err)). intros a. exists (SSend k a). unfold dstep. rewrite A, H, H0.
    eexists _, [EReplied k a]. split; [tasked F|]. split; [exact I|]. split; [reflexivity|]. split; reflexivity.
Qed.

Section Step.
Variables (carried : nat -> list (name * bool)) (black : list Z) (raddr : nat -> name) (wz : option nat -> wsize).
Notation fstep := (fstep black raddr wz).
Notation fsim := (fsim wz whole).
Notation wstep := (wstep (fun _ _ : nat => whole) black raddr).
Implicit Types (n : fleet) (w : world gval).

(* what waits down to the bytes, waits *)
Lemma task_dock n i T : gone (fb n) (Some i) = false -> (forall l, of_task T (WDock i l) -> fstep n (FDock i l) = None) ->
  forall l, of_task T (WDock i l) -> due (WDock i l) -> dstep (bd (fb n) i) l = None.
Proof.
  intros G S l F D. destruct (dstep (bd (fb n) i) l) as [d|] eqn:E; auto. exfalso.
  assert (N : forall l, of_task T (WDock i l) -> due (WDock i l) -> dock_does i l (query_peers (outline n) i) (fb n) = None).
  { intros l0 F0 D0. specialize (S l0 F0). rewrite fstep_dock in S by auto. destruct (dock_does i l0 _ _); [discriminate|reflexivity]. }
  destruct (task_shape _ i _ _ T E D F) as [(es & He & Sl)|[(k & f & He)|(p & k & X)]].
  - pose proof (N l F D) as Y. rewrite (does_silent _ _ _ _ _ _ E He Sl) in Y. discriminate.
  - pose proof (N l F D) as Y. unfold dock_does in Y. rewrite E, He, new_app in Y. discriminate.
  - destruct (X (room (DockEnd i p) (fb n))) as (l' & d' & u & F' & D' & E' & He & Su). pose proof (N l' F' D') as Y. unfold dock_does in Y. rewrite E', He, new_app in Y.
    rewrite fold_left_app, events_silent in Y by exact Su. cbn [fold_left dock_event] in Y. change (room (DockEnd i p) (with_dock i d' (fb n))) with (room (DockEnd i p) (fb n)) in Y.
    destruct (room (DockEnd i p) (fb n)); discriminate.
Qed.
Lemma dock_rests c n w i l : ByteProof2.sim c hub_end wz whole (fb n) (ws w) -> due (WDock i l) -> dstep (bd (fb n) i) l = None -> wstep w (WDock i l) = None.
Proof. intros M D N. rewrite <- (m_docks _ _ _ _ _ _ M) in N. destruct l; try (exfalso; exact D); cbn; unfold dock_step; rewrite N; reflexivity. Qed.
(* the handler of a peer that waits is idle *)
Lemma idle_waits n i p : state (bd (fb n) i) = Alive -> gone (fb n) (Some i) = false -> (forall l, handling (DockEnd i p) l -> fstep n l = None) -> handlers (bd (fb n) i) p = HIdle.
Proof.
  intros A Gn S. assert (Q : forall l, of_task (THandler i p) (WDock i l) -> due (WDock i l) -> dstep (bd (fb n) i) l = None).
  { apply task_dock; auto. }
  assert (G := Q (HGo p) (conj eq_refl eq_refl) Logic.I). unfold dstep in G. rewrite A in G.
  destruct (handlers (bd (fb n) i) p) as [|sl|f sl todo|f sl todo c|f sl todo c|sl|sl|m|m| | |a|a] eqn:E; auto; exfalso; try discriminate G.
  - destruct sl; discriminate.
  - destruct todo as [|k todo]; [discriminate|]. assert (P := Q (HPick p k) (conj eq_refl eq_refl) Logic.I). unfold dstep in P. rewrite A, E in P.
    destruct (zget (rpcs (bd (fb n) i)) k); [discriminate|]. cbn in P. rewrite Z.eqb_refl in P. discriminate.
  - assert (P := Q (HCommit p true) (conj eq_refl eq_refl) Logic.I). unfold dstep in P. rewrite A, E in P. discriminate.
  - assert (P := Q (HSend p (collected (bd (fb n) i)) true) (conj eq_refl eq_refl) Logic.I). unfold dstep in P. rewrite A, reorders_refl, E in P. discriminate.
  - destruct sl; discriminate.
  - specialize (S (FListen i p false) (conj eq_refl eq_refl)). cbn [FleetModel.fstep] in S. rewrite E in S. cbn [andb bstep] in S. rewrite Gn in S.
    assert (X : dstep (bd (fb n) i) (HNet p false) = Some (with_state Exited (bd (fb n) i))) by (unfold dstep; rewrite A, E; reflexivity).
    rewrite (does_silent _ _ _ _ _ [] X) in S; [discriminate|symmetry; apply app_nil_r|reflexivity].
  - assert (P := Q (HSend p (collected (bd (fb n) i)) true) (conj eq_refl eq_refl) Logic.I). unfold dstep in P. rewrite A, reorders_refl, E in P. discriminate.
  - specialize (S (FFail i p) (conj eq_refl eq_refl)). cbn [FleetModel.fstep] in S. rewrite E in S. cbn [bstep] in S. rewrite Gn in S.
    assert (X : dstep (bd (fb n) i) (HNet p false) = Some (with_state Exited (bd (fb n) i))) by (unfold dstep; rewrite A, E; reflexivity).
    rewrite (does_silent _ _ _ _ _ [] X) in S; [discriminate|symmetry; apply app_nil_r|reflexivity].
Qed.
Lemma idle_rests n w i p : fsim n w -> handlers (bd (fb n) i) p = HIdle -> resting (fun _ _ => whole) black raddr (THandler i p) w.
Proof.
  intros F H l O. assert (Hw : handlers (sd (ws w) i) p = HIdle) by (rewrite (m_docks _ _ _ _ _ _ (fs_sim _ _ _ _ F)); exact H).
  destruct l as [i' l|i' p'|i' p' k|l|h|h k|i' b|i' p' b|i' p' j m|i' p'|j q]; cbn [of_task] in O; try (exfalso; exact O).
  - assert (D : due (WDock i' l)) by (destruct l; try (exfalso; exact O); exact I).
    apply (dock_rests _ n _ _ _ (fs_sim _ _ _ _ F) D). destruct l; try (exfalso; exact O); destruct O as [-> ->]; unfold dstep; rewrite H; destruct (state (bd (fb n) i)); auto.
    destruct (reorders _ _); reflexivity.
  - destruct O as [-> ->]. cbn. rewrite Hw. reflexivity.
  - destruct O as [-> ->]. cbn. rewrite Hw. reflexivity.
  - destruct O as [-> ->]. cbn. rewrite Hw. reflexivity.
Qed.
Lemma accept_rests n w j q : fsim n w -> state (bd (fb n) j) = Alive -> gone (fb n) (Some j) = false -> fstep n (FAccept j q) = None -> existsb (Nat.eqb q) (fbacklog n j) = false /\ wstep w (WAccept j q) = None.
Proof.
  intros F A Gn S. cbn [FleetModel.fstep] in S. destruct (existsb (Nat.eqb q) (fbacklog n j)) eqn:X.
  - exfalso. cbn [bstep] in S. rewrite Gn in S.
    assert (Y : exists d, dstep (bd (fb n) j) (LConnected q) = Some d /\ hist d = hist (bd (fb n) j) ++ []).
    { unfold dstep. rewrite A. eexists. split; [reflexivity|]. symmetry. apply app_nil_r. }
    destruct Y as (d & Y & Z). rewrite (does_silent _ _ _ _ _ _ Y Z) in S; [discriminate|reflexivity].
  - split; auto. cbn. rewrite <- (fs_back _ _ _ _ F), X. reflexivity.
Qed.
Lemma hub_rests n w l : fsim n w -> gone (fb n) None = false -> match l with HubModel.LRecv _ _ => False | _ => True end -> fstep n (FHub l) = None -> wstep w (WHub l) = None.
Proof.
  intros F G N S. assert (X : HubModel.hstep black raddr (bh (fb n)) l = None).
  { cbn [FleetModel.fstep bstep] in S. unfold hub_does in S. destruct (HubModel.hstep black raddr (bh (fb n)) l) eqn:E; auto. exfalso. destruct l; try destruct N; rewrite G in S; discriminate. }
  destruct (fsim_parts _ _ _ _ F) as [_ Y]. destruct l; try destruct N; cbn; unfold hub_step; rewrite Y, X; reflexivity.
Qed.
(* at a receive the handler is idle *)
Lemma receive_free n e l n' : fstep n l = Some n' -> l = FRoutine (BTake e) \/ (exists k, l = FRoutine (BRead e k)) -> free e (fb n) = true.
Proof.
  intros S [->|(k & ->)]; cbn [FleetModel.fstep site bstep] in S; destruct (there n e); try discriminate.
  - destruct (free e (fb n)); auto. destruct (gone _ _); [discriminate|]. destruct (negb (reading _)); discriminate.
  - destruct (other _ _ e); [|discriminate]. destruct (free e (fb n)); auto. destruct (gone _ _); [discriminate|]. destruct (negb (reading _)); discriminate.
Qed.
End Step.
