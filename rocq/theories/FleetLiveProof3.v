(* C76: bytes under way arrive, if no goroutine is held up for ever. *)
From Verif Require Import Lts GoInt GoVal Tables CodecSpec ProtoModel ProtoSpec ProtoProof RecvProof CallProof SysCodec DockModel DockSpec DockProof DockProof2 SysModel SysSpec SysProof.
From Verif Require Import WorldModel WorldSpec WorldProof LiveSpec ByteModel ByteSpec ByteProof ByteProof2 ByteProof3 FleetModel FleetSpec FleetProof FleetProof2 FleetLiveSpec FleetLiveProof FleetLiveProof2.
From Verif Require CallSpec HubModel ConnModel.
From Coq Require Import Arith Bool List ZArith Lia.
Import ListNotations.
Open Scope nat_scope.

(* the steps of queues and bytes behind a step of the network *)
Definition apart (k : blab) : Prop := match k with BDock _ _ _ | BHub _ => True | _ => False end.
Section Steps.
Variables (black : list Z) (raddr : nat -> name) (wz : option nat -> wsize).
Notation fstep := (fstep black raddr wz).
Notation bytes n := (bstep (fends n) hub_end black raddr hostport wz).
Implicit Types n : fleet.
Lemma fstep_bytes n l n' : fstep n l = Some n' -> exists ls, exec (bytes n) (fb n) ls = Some (fb n') /\ match l with FRoutine k => ls = [k] | _ => Forall apart ls end.
Proof.
  intros H. assert (Fon : forall w1 o, fon w1 o = Some n' -> exists b', o = Some b' /\ n' = around b' w1).
  { intros w1 [b'|]; [|discriminate]. intros [= <-]. eauto. }
  assert (One : forall w1 k, fon w1 (bytes n (fb n) k) = Some n' -> exec (bytes n) (fb n) [k] = Some (fb n')).
  { intros w1 k X. apply Fon in X as (b' & Hb & ->). cbn [exec]. rewrite Hb. reflexivity. }
  destruct l as [i l|l|l|i ok|i p ok|i p j m|i p|j q].
  - assert (X : fon (outline n) (bytes n (fb n) (BDock i l (query_peers (outline n) i))) = Some n') by (destruct l; try discriminate H; auto).
    eexists. split; [eapply One; exact X|]. repeat constructor.
  - eexists. split; [eapply One; exact H|]. repeat constructor.
  - cbn [FleetModel.fstep] in H. destruct (site l); [|discriminate]. destruct (there n e); [|discriminate]. eexists. split; [eapply One; exact H|reflexivity].
  - cbn [FleetModel.fstep] in H. apply Fon in H as (b' & Hb & ->). eexists. split; [exact Hb|]. destruct ok; repeat constructor.
  - cbn [FleetModel.fstep] in H. destruct (handlers _ p); try discriminate. destruct (_ && _); [discriminate|]. eexists. split; [eapply One; exact H|]. repeat constructor.
  - cbn [FleetModel.fstep] in H. destruct (handlers _ p); try discriminate. destruct (_ && _); [|discriminate]. apply Fon in H as (b' & Hb & ->). eexists. split; [exact Hb|]. repeat constructor.
  - cbn [FleetModel.fstep] in H. destruct (handlers _ p); try discriminate. eexists. split; [eapply One; exact H|]. repeat constructor.
  - cbn [FleetModel.fstep] in H. destruct (existsb _ _); [|discriminate]. eexists. split; [eapply One; exact H|]. repeat constructor.
Qed.
Lemma exec_apart n (Q : bsys -> bsys -> Prop) : (forall b, Q b b) -> (forall x y z, Q x y -> Q y z -> Q x z) ->
  forall ls b b', Forall apart ls -> exec (bytes n) b ls = Some b' -> (forall x k y, apart k -> bytes n x k = Some y -> grows y b' -> Q x y) -> Q b b'.
Proof.
  intros Rf Tr. induction ls as [|k ls IH]; intros b b' A H S; cbn [exec] in H; [injection H as <-; apply Rf|].
  destruct (bytes n b k) as [b1|] eqn:X; [|discriminate]. inversion A; subst. eapply Tr; [|eapply IH; eauto]. eapply S; eauto. eapply run_grows; eauto.
Qed.
Lemma fleet_more n l n' e e' : fstep n l = Some n' -> wired (fends n) hub_end -> across n e = Some e' -> legits (fends n) hub_end wz (fb n') -> l <> FRoutine (BTake e) -> more wz e e' (fb n) (fb n').
Proof.
  intros H W O L N. destruct (fstep_bytes _ _ _ H) as (ls & X & A).
  assert (Z : Forall apart ls -> more wz e e' (fb n) (fb n')).
  { intros Ap. apply (exec_apart n (more wz e e')) with (ls := ls); auto using more_refl; [intros; eapply more_trans; eauto|].
    intros x k y Ak Y G. apply (step_more _ black raddr wz W e e' O x k y Y); [eapply (legits_from _ black); eauto|intros ->; exact Ak]. }
  destruct l as [| |k| | | | |]; try exact (Z A). cbn iota in A. rewrite A in X. cbn [exec] in X. destruct (bytes n (fb n) k) as [y|] eqn:Y; [|discriminate]. injection X as ->.
  apply (step_more _ black raddr wz W e e' O _ _ _ Y); [exact L|congruence].
Qed.
Lemma fleet_flows n l n' e e' : fstep n l = Some n' -> wired (fends n) hub_end -> across n e = Some e' -> l <> FRoutine (BTake e) -> flows e e' (fb n) (fb n').
Proof.
  intros H W O N. destruct (fstep_bytes _ _ _ H) as (ls & X & A).
  assert (Z : Forall apart ls -> flows e e' (fb n) (fb n')).
  { intros Ap. apply (exec_apart n (flows e e')) with (ls := ls); auto using flows_refl; [intros; eapply flows_trans; eauto|].
    intros x k y Ak Y _. apply (step_flows _ black raddr wz W e e' O x k y Y). intros ->; exact Ak. }
  destruct l as [| |k| | | | |]; try exact (Z A). cbn iota in A. rewrite A in X. cbn [exec] in X. destruct (bytes n (fb n) k) as [y|] eqn:Y; [|discriminate]. injection X as ->.
  apply (step_flows _ black raddr wz W e e' O _ _ _ Y). congruence.
Qed.
Lemma fleet_keeps n l n' e e' : fstep n l = Some n' -> across n e = Some e' -> ended (out (fb n') e') = false -> l <> FRoutine (BPop e') -> l <> FRoutine (BWrite e') ->
  holding (out (fb n') e') = holding (out (fb n) e') /\ exists q, queue (out (fb n') e') = queue (out (fb n) e') ++ q.
Proof.
  intros H O En N1 N2. destruct (fstep_bytes _ _ _ H) as (ls & X & A).
  set (Q := fun b b' : bsys => holding (out b' e') = holding (out b e') /\ exists q, queue (out b' e') = queue (out b e') ++ q).
  assert (Z : Forall apart ls -> Q (fb n) (fb n')).
  { intros Ap. apply (exec_apart n Q) with (ls := ls); auto.
    - intros b. split; [auto|]. exists []; now rewrite app_nil_r.
    - intros x y z [B1 [q1 C1]] [B2 [q2 C2]]. split; [congruence|]. exists (q1 ++ q2). now rewrite C2, C1, app_assoc.
    - intros x k y Ak Y _. assert (K : keeps e' x y).
      { cbn [bstep] in Y. destruct k as [i d ps|d| | | | | | |]; try destruct Ak.
        - assert (Y1 : dock_does i d ps x = Some y) by (destruct d; try discriminate Y; cbn [bstep] in Y; (destruct (gone x (Some i)); [discriminate Y|exact Y])). exact (dock_keeps _ _ _ O _ _ _ _ _ Y1).
        - assert (Y1 : hub_does black raddr hostport d x = Some y) by (destruct d; try discriminate Y; cbn [bstep] in Y; (destruct (gone x None); [discriminate Y|exact Y])). exact (hub_keeps _ _ _ _ _ O _ _ _ Y1). }
      destruct K as (K1 & _ & _ & K2). split; auto. }
  destruct l as [| |k| | | | |]; try exact (Z A). cbn iota in A. rewrite A in X. cbn [exec] in X. destruct (bytes n (fb n) k) as [y|] eqn:Y; [|discriminate]. injection X as ->.
  apply (step_keeps (fends n) black raddr wz e e' O _ _ _ Y); congruence.
Qed.
(* a step of a handler: it is not idle *)
Lemma handling_busy n e l n' : fstep n l = Some n' -> handling e l -> free e (fb n) = false.
Proof.
  intros H Hh. destruct e as [i p|h]; cbn [handling free] in *.
  - destruct (handlers (bd (fb n) i) p) eqn:E; auto. exfalso. destruct l as [i' l|l|l|i' ok|i' p' ok|i' p' j m|i' p'|j q]; try destruct Hh.
    + assert (D : dstep (bd (fb n) i) l = None).
      { destruct l; try (exfalso; exact Hh); destruct Hh as [_ ->]; unfold dstep; rewrite E; destruct (state (bd (fb n) i)); auto. destruct (reorders _ _); reflexivity. }
      assert (i' = i) as -> by (destruct l; try (exfalso; exact Hh); apply Hh).
      destruct l; try (exfalso; exact Hh); cbn [FleetModel.fstep bstep] in H; unfold dock_does in H; rewrite D in H; destruct (gone _ _); discriminate.
    + subst. cbn in H. rewrite E in H. discriminate.
    + subst. cbn in H. rewrite E in H. discriminate.
    + subst. cbn in H. rewrite E in H. discriminate.
  - subst l. destruct (HubModel.handlers (bh (fb n)) h) eqn:E; auto. exfalso. cbn [FleetModel.fstep bstep] in H. unfold hub_does, HubModel.hstep in H. rewrite E in H.
    destruct (HubModel.halted (bh (fb n))), (gone (fb n) None); discriminate.
Qed.
End Steps.
