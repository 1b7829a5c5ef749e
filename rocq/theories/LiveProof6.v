(* Health lasts backwards: a network that is healthy has always been. *)
From Verif Require Import Lts GoVal Tables DockModel DockSpec DockProof DockProof2 DockProof3 DockProof4 DockProof10.
From Verif Require Import SysModel SysSpec SysProof SysProof2 SysProof3 WorldModel WorldSpec WorldProof WorldProof2 WorldProof3.
From Verif Require Import LiveSpec LiveProof.
From Verif Require HubModel HubSpec.
From Coq Require Import Arith Bool List ZArith Lia.
Import ListNotations.
Open Scope nat_scope.

Section Health.
Context {V : Type}.
Variables (carried : nat -> list (name * bool)) (carry : nat -> nat -> list V -> option (list V)) (black : list Z) (raddr : nat -> name).
Lemma dock_before E (s : sys V) i l es s' : dmove carry E s i l es s' -> healthy s' -> healthy s.
Proof.
  intros M H. assert (D : forall a, (sd s' a = sd s a \/ state (sd s a) = Alive) /\ exists es, hist (sd s' a) = hist (sd s a) ++ es).
  { intros a. destruct (Nat.eq_dec a i) as [->|N]; [split; [right; apply M|exists es; apply M]|rewrite (dm_other _ _ _ _ _ _ _ M) by auto; split; [auto|exists []; now rewrite app_nil_r]]. }
  assert (In_ : forall a e, In e (hist (sd s a)) -> In e (hist (sd s' a))) by (intros a e X; destruct (D a) as [_ (y & ->)]; apply in_or_app; auto).
  split.
  - intros a. destruct (D a) as [[E1|E1] _]; auto. rewrite <- E1. apply H.
  - rewrite <- (dm_hub _ _ _ _ _ _ _ M). apply H.
  - intros a C. apply (h_open _ H a). apply In_, C.
  - intros a p k X. apply (h_taken _ H a p k), In_, X.
  - intros a k f X. apply (h_asked _ H a k f), In_, X.
  - intros a. destruct (D a) as [_ (y & Y)]. pose proof (h_ids _ H a) as N. rewrite Y, requests_app, map_app in N. apply NoDup_app_l in N. exact N.
Qed.
Lemma hub_before (s : sys V) l es s' : hmove black raddr s l es s' -> healthy s' -> healthy s.
Proof.
  intros M H. destruct H as [H1 H2 H3 H4 H5 H6]. rewrite (hm_docks _ _ _ _ _ _ M) in *. split; auto.
  assert (St := hm_step _ _ _ _ _ _ M). unfold HubModel.hstep in St. destruct (HubModel.halted (sh s)); [discriminate|reflexivity].
Qed.
Lemma healthy_before : forall more ls w w', exec (wstep carry black raddr) (winit carried) ls = Some w -> nothing_lost more ->
  exec (wstep carry black raddr) w more = Some w' -> healthy (ws w') -> healthy (ws w).
Proof.
  induction more as [|l more IH]; intros ls w w' R N E H; [injection E as <-; exact H|].
  cbn [exec] in E. destruct (wstep carry black raddr w l) as [w1|] eqn:St; [|discriminate].
  assert (H1 : healthy (ws w1)).
  { apply (IH (ls ++ [l]) w1 w'); auto; [rewrite exec_app, R; cbn; rewrite St; reflexivity|intros x X; apply N; now right]. }
  destruct (run_sys _ _ _ _ _ _ R) as (Wv & _).
  destruct (wstep_shown carried carry black raddr _ _ _ Wv St (N l (or_introl eq_refl))) as [(i & l0 & es & s1 & M & _ & Z)|(l0 & es & M & _)]; [|eapply hub_before; eauto].
  apply (dock_before _ _ _ _ _ _ M). destruct Z as [<-|(p & es2 & M2)]; [exact H1|eapply dock_before; eauto].
Qed.
End Health.
