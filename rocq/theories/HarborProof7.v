(* The tables of pending calls along endless runs. *)
From Verif Require Import Lts GoInt GoVal Tables DockModel DockSpec DockProof DockProof2 DockProof4 DockProof12 SysModel WorldModel ByteModel FleetModel FleetLiveSpec HarborModel HarborSpec HarborProof HarborProof4.
From Verif Require ChanModel.
From Coq Require Import Arith Bool List ZArith Lia.
Import ListNotations.
Open Scope nat_scope.

Section Harbor.
Context {O : Type}.
Variables (carried : nat -> list (name * bool)) (black : list Z) (raddr : nat -> name) (wz : option nat -> wsize).
Variable code : name -> nat.
Variable T : nat -> name -> ChanModel.target O gval.
Variable o0 : nat -> name -> O.
Notation fstep := (fstep black raddr wz).
Notation hstep := (hstep black raddr wz code T).
Notation dk s i := (bd (fb (hf s)) i).
Variables (run : nat -> harbor O) (lab : nat -> option hlab).
Hypothesis En : hendless carried black raddr wz code T o0 run lab.
Hypothesis Fa : hfair black raddr wz code T run lab.

Lemma dock_goes s l s' i : hstep s l = Some s' -> exists dls, exec dstep (dk s i) dls = Some (dk s' i).
Proof.
  intros H. destruct (hstep_inv _ _ _ _ _ _ _ _ H) as (F & _). destruct (fleet_label s l) as [x|]; cbn [optstep] in F.
  - destruct (fleet_dock _ _ _ _ _ _ i F) as (dls & E & _). eauto.
  - rewrite F. exists []. reflexivity.
Qed.
Lemma dock_later n m i : n <= m -> exists dls, exec dstep (dk (run n) i) dls = Some (dk (run m) i).
Proof.
  induction 1 as [|m L (dls & IH)]; [exists []; reflexivity|]. pose proof (he_step _ _ _ _ _ _ _ _ _ En m) as S. destruct (lab m) as [l|].
  - destruct (dock_goes _ _ _ i S) as (d2 & E2). exists (dls ++ d2). rewrite exec_app, IH. exact E2.
  - exists dls. now rewrite S.
Qed.
Lemma dock_from n i : exists ls, exec dstep (new_dock (carried i)) ls = Some (dk (run n) i).
Proof. destruct (hreached _ _ _ _ _ _ _ _ _ En n) as (ls & E). exact (dock_runs _ _ _ _ _ _ _ _ _ i E). Qed.
Lemma entry_goes i : (forall n, up i (run n) = true) -> (forall n, NoDup (map q_index (requests (hist (dk (run n) i))))) ->
  forall n c, returns c (hist (dk (run n) i)) <> [] -> exists m, n <= m /\ forall m' x, m <= m' -> zget (rpcs (dk (run m') i)) x <> Some c.
Proof.
  intros Up Nd n c R. destruct (dock_from n i) as (ls & E). destruct (returned_delivered _ _ _ _ E R) as (j & D).
  assert (G : exists m, n <= m /\ deleted (callbacks (dk (run m) i)) j c).
  { destruct (Fa (HtFleet (FtBack i j)) n) as (m & L & X). destruct (dock_later n m i L) as (dls & El). apply (delivered_exec _ _ _ j c El) in D. destruct X as [X|(l & Lb & l' & -> & Ol)].
    - exists m. split; auto. destruct D as (cb & D1 & D2 & D3). exists cb. repeat split; auto. specialize (Up m). unfold up in Up. destruct (state (dk (run m) i)) eqn:A; try discriminate.
      apply andb_prop in Up as [U1 U2]. apply negb_true_iff in U1, U2. specialize (X (HFleet (FDock i (BStep j)))). cbn [of_htask of_ftask] in X. specialize (X (ex_intro _ _ (conj eq_refl eq_refl))).
      destruct (b_pc cb) eqn:P; [congruence| |reflexivity]. exfalso. cbn [HarborModel.hstep] in X. unfold allowed in X. cbn [actor] in X. rewrite U1 in X. cbn [negb andb FleetModel.fstep bstep] in X. rewrite U2 in X.
      unfold dock_does, dstep in X. rewrite A, D1, P in X. cbn [hist with_callbacks with_rpcs] in X. unfold new_events in X. rewrite skipn_all in X. discriminate X.
    - cbn [of_ftask] in Ol. subst l'. exists (S m). split; [lia|]. pose proof (he_step _ _ _ _ _ _ _ _ _ En m) as St. rewrite Lb in St. destruct (hstep_inv _ _ _ _ _ _ _ _ St) as (F & _). cbn [fleet_label optstep] in F.
      destruct (fleet_dock _ _ _ _ _ _ i F) as (d2 & Ed & ->). rewrite Nat.eqb_refl in Ed. cbn [exec] in Ed. destruct (dstep (dk (run m) i) (BStep j)) as [d'|] eqn:Es; [|discriminate]. injection Ed as <-. eapply deleting; eauto. }
  destruct G as (m & L & D'). exists m. split; auto. intros m' x L'. destruct (dock_later m m' i L') as (d3 & E3). apply (delivered_exec _ _ _ j c E3) in D'.
  destruct (dock_from m' i) as (ls' & E'). eapply deleted_gone; eauto.
Qed.
End Harbor.
