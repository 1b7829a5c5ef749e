(* What the statements about OnStart and OnDestroy say, in terms of what docks and features have
   done. *)
From Verif Require Import Lts GoInt GoVal Tables DockModel DockSpec SysModel ByteModel FleetModel HarborModel HarborSpec HookModel.
From Verif Require ChanModel.
From Coq Require Import Arith List ZArith.
Import ListNotations.
Open Scope nat_scope.

Section Spec.
Context {O : Type}.
Implicit Types s : harbor O.
(* the features whose OnStart (OnDestroy) the goroutine w has called *)
Definition entered (w : who) s : list name :=
  match w with Starter i j => started j (hist (bd (fb (hf s)) i)) | Closer i => destroyed (hist (bd (fb (hf s)) i)) end.
(* what w is about to do: the features it has still to start, or the rest of Close *)
Definition ahead (w : who) s : option starter * option kpc :=
  match w with Starter i j => (nth_error (starters (bd (fb (hf s)) i)) j, None) | Closer i => (None, Some (closer (bd (fb (hf s)) i))) end.
(* the features whose OnStart (OnDestroy) w, once at it, has still to call *)
Definition rest (w : who) s : option (list name) :=
  match w with
  | Starter i j => match nth_error (starters (bd (fb (hf s)) i)) j with Some (TRun todo) => Some todo | _ => None end
  | Closer i => match closer (bd (fb (hf s)) i) with KDestroy todo => Some todo | _ => None end
  end.
End Spec.

Section Live.
Context {O : Type}.
Variables (carried : nat -> list (name * bool)) (black : list Z) (raddr : nat -> name) (wz : option nat -> wsize).
Variable code : name -> nat.
Variable T : nat -> name -> ChanModel.target O gval.
Variable o0 : nat -> name -> O.
Notation step := (kstep black raddr wz code T).
Implicit Types (run : nat -> hooked O) (lab : nat -> option klab).
(* The state at each moment, and the step then taken, if any. *)
Record kendless run lab : Prop := {
  ke_start : run 0 = kinit carried o0;
  ke_step : forall n, match lab n with Some l => step (run n) l = Some (run (S n)) | None => run (S n) = run n end }.
(* w does not wait for ever when it can call the next OnStart (OnDestroy); *)
Definition hook_goes run lab (w : who) : Prop := forall n, exists m, n <= m /\ ((forall f, step (run m) (KEnter w f) = None) \/ exists f, lab m = Some (KEnter w f)).
(* and each that it has called returns. *)
Definition hooks_return run (w : who) : Prop := forall n, exists m, n <= m /\ at_ (run m) w = Between.
(* w does not wait for ever for a call it made when that has returned. *)
Definition got_goes run lab (w : who) : Prop := forall n, exists m, n <= m /\ (step (run m) (KGot w) = None \/ lab m = Some (KGot w)).
Definition own_goes run lab (w : who) : Prop := forall n, exists m, n <= m /\ (step (run m) (KOwnGot w) = None \/ lab m = Some (KOwnGot w)).
End Live.
