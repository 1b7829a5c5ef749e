(* Calls made within OnStart and OnDestroy in docks that go on. *)
From Verif Require Import Lts GoInt GoVal Tables DockModel DockSpec SysModel SysSpec FullModel FullSpec WorldModel ByteModel ByteSpec FleetModel FleetSpec FleetLiveSpec HarborModel HarborSpec HarborProof HarborProof2 IsleSpec IsleProof2 HookModel HookSpec HookProof.
From Verif Require ChanModel HubModel.
From Coq Require Import Arith Bool List ZArith Lia.
Import ListNotations.
Open Scope nat_scope.

Section Hook.
Context {O : Type}.
Variables (carried : nat -> list (name * bool)) (black : list Z) (raddr : nat -> name) (wz : option nat -> wsize).
Variable code : name -> nat.
Variable T : nat -> name -> ChanModel.target O gval.
Variable o0 : nat -> name -> O.
Notation kstep := (kstep black raddr wz code T).
Notation kinit := (kinit carried o0).

(* the call a goroutine waits for was made *)
Lemma own_made ls s w f k : exec kstep kinit ls = Some s -> at_ s w = WaitsOwn f k -> k < length (locals (hh s) (home w)).
Proof.
  intros E. revert f k. refine (exec_inv kstep (fun s => forall f k, at_ s w = WaitsOwn f k -> k < length (locals (hh s) (home w))) _ ls _ _ _ E); [|discriminate].
  clear s E; intros s l s' IH H f k A. destruct (kstep_inv _ _ _ _ _ _ _ _ H) as (Hn & K & Hl).
  assert (Le : length (locals (hh s) (home w)) <= length (locals (hh s') (home w))).
  { destruct (net_label l) as [y|]; cbn [optstep] in Hn; [|rewrite Hn; lia]. destruct (hstep_inv _ _ _ _ _ _ _ _ Hn) as (_ & _ & _ & Lo & _). rewrite Lo, app_length. lia. }
  assert (D : actor_of l = Some w \/ actor_of l <> Some w) by (destruct (actor_of l) as [w'|]; [destruct (who_eq w' w) as [->|N]; [auto|right; congruence]|right; discriminate]).
  destruct D as [D|D]; [|rewrite K in A by exact D; specialize (IH _ _ A); lia].
  destruct l as [y|w' h|w'|w' h m b r z|w'|w' h m b r|w']; cbn [actor_of] in D; try discriminate D; injection D as ->.
  - destruct Hl; congruence.
  - destruct Hl; congruence.
  - destruct Hl as (? & _ & Q); congruence.
  - destruct Hl as (? & ? & _ & _ & Q); congruence.
  - destruct Hl as (f' & _ & Q). rewrite A in Q. injection Q as _ ->. cbn [net_label optstep] in Hn. destruct (hstep_inv _ _ _ _ _ _ _ _ Hn) as (_ & _ & _ & Lo & _). rewrite Lo, Nat.eqb_refl, app_length. cbn. lia.
  - destruct Hl as (? & ? & _ & _ & Q); congruence.
Qed.

Section Endless.
Variables (run : nat -> hooked O) (lab : nat -> option klab) (D : nat -> Prop) (w : who).
Hypothesis En : kendless carried black raddr wz code T o0 run lab.
Hypothesis Go : going_on black raddr wz code T D (fun n => hh (run n)) (fun n => match lab n with Some l => net_label l | None => None end).
Hypothesis Dw : D (home w).
Let Eh := hooks_endless _ _ _ _ _ _ _ _ _ En.
(* C84_own_calls_end *)
Lemma own_calls_end : own_goes black raddr wz code T run lab w -> forall n f k, at_ (run n) w = WaitsOwn f k -> exists m, n <= m /\ lab m = Some (KOwnGot w) /\ at_ (run (S m)) w = Inside f.
Proof.
  intros G n f k A. destruct (reached _ _ _ _ _ _ _ _ _ En n) as (ls & E). pose proof (own_made _ _ _ _ _ E A) as L.
  destruct (hooks_run _ _ _ _ _ _ _ _ _ E) as (hl & E'). pose proof (v_locals _ _ (inv_exec _ _ _ _ _ _ _ _ _ E') (home w)) as Ls.
  destruct (nth_error (locals (hh (run n)) (home w)) k) as [x|] eqn:Ex; [|apply nth_error_None in Ex; lia].
  assert (Lc : nth_error (local_calls (hist (bd (fb (hf (hh (run n)))) (home w)))) k = Some (l_feature x, l_method x, l_args x)) by (rewrite Ls, nth_error_map, Ex; reflexivity).
  destruct (isle_local _ _ _ _ _ _ _ _ _ _ Eh Go (home w) Dw n k _ _ _ Lc) as (n0 & r & a & _ & _ & R & _).
  exact (hooks_wake_own _ _ _ _ _ _ _ _ _ _ En G (fun n => go_up _ _ _ _ _ _ _ _ Go (home w) n Dw) n f k n0 _ _ _ _ A R).
Qed.
(* C84_known_calls_end *)
Lemma known_calls_end : got_goes black raddr wz code T run lab w -> flegitimate wz (fun n => hf (hh (run n))) ->
  forall p j q, D j -> working (fun n => hh (run n)) (home w) p -> working (fun n => hh (run n)) j q ->
  (forall n, ~ cleared (hist (bd (fb (hf (hh (run n)))) j))) -> (forall n, NoDup (map q_index (requests (hist (bd (fb (hf (hh (run n)))) (home w)))))) ->
  forall n0 n f c rq, fends (hf (hh (run n0))) (home w) p = ToDock j q -> In (ECached (q_slot rq) p) (hist (bd (fb (hf (hh (run n0)))) (home w))) ->
  (forall m p', In (ECached (q_slot rq) p') (hist (bd (fb (hf (hh (run m)))) (home w))) -> p' = p) ->
  ~ In (ENew c rq) (hist (bd (fb (hf (hh (run n0)))) (home w))) -> In (ENew c rq) (hist (bd (fb (hf (hh (run n)))) (home w))) ->
  at_ (run n) w = Waits f c -> exists m, n <= m /\ lab m = Some (KGot w) /\ at_ (run (S m)) w = Inside f.
Proof.
  intros G Lg p j q Dj W1 W2 Nc Nd n0 n f c rq Fe Ca Cs Nn Ne A.
  destruct (isle_known _ _ _ _ _ _ _ _ _ _ Eh Go Lg (home w) p j q Dw Dj W1 W2 Nc Nd n0 n c rq Fe Ca Cs Nn Ne) as (m & x & k & r & _ & R & _).
  apply (hooks_wake _ _ _ _ _ _ _ _ _ _ En G (fun n => go_up _ _ _ _ _ _ _ _ Go (home w) n Dw) n f c m x A).
  assert (I1 : In x (returns c (hist (bd (fb (hf (hh (run m)))) (home w))))) by (rewrite R; left; reflexivity).
  unfold returns in I1. apply in_flat_map in I1 as (e & Ie & Xe). destruct e; try destruct Xe. destruct (_ =? _) eqn:Q in Xe; [|destruct Xe]. apply Nat.eqb_eq in Q as ->. destruct Xe as [<-|[]]. exact Ie.
Qed.
End Endless.
End Hook.
