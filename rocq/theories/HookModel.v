(* The goroutines that run OnStart and OnDestroy (dock.go:43-53, 218-222), in a network with its
   features: as in HarborModel.v, but OnStart and OnDestroy take time, may make calls, and the
   goroutine that runs them goes on when they return.
   Simplifications: those of HarborModel.v; what OnStart and OnDestroy do besides calling
   features (Call and CallWithResult of slot.go:53-59) is left out, as are goroutines they start
   (whose calls are calls like any other); one Close runs at a time, as in DockModel.v. *)
From Verif Require Import Lts GoInt GoVal Tables DockModel SysModel FullModel WorldModel ByteModel FleetModel HarborModel.
From Verif Require ChanModel.
From Coq Require Import Arith Bool List ZArith.
Import ListNotations.
Open Scope nat_scope.

(* The goroutine that starts the features of dock i after its j-th registration reply
   (dock.go:132, 218-222), and the one that closes the dock (dock.go:43-53). *)
Inductive who := Starter (i j : nat) | Closer (i : nat).
Definition who_eq (a b : who) : {a = b} + {a <> b}.
Proof. decide equality; apply Nat.eq_dec. Defined.
(* For dock.go:43-53, 218-222: the dock it belongs to. *)
Definition home (w : who) : nat := match w with Starter i _ => i | Closer i => i end.
(* Where it is: between two calls of OnStart (OnDestroy); in that of feature f; in it, waiting
   for the dock's remote call c (rpc.go:26-58), or for its local call n (chancall/caller.go). *)
Inductive hook := Between | Inside (f : name) | Waits (f : name) (c : nat) | WaitsOwn (f : name) (n : nat).

Section Hooks.
Context {O : Type}.
Variables (black : list Z) (raddr : nat -> name) (ws : option nat -> wsize) (code : name -> nat).
Variable T : nat -> name -> ChanModel.target O gval.
Notation hstep := (hstep black raddr ws code T).

(* dock.go:34-41, slot.go:31-39, and these goroutines *)
Record hooked := mkHooked { hh : harbor O; at_ : who -> hook }.
(* newDock, dock.go:17-32 *)
Definition kinit (carried : nat -> list (name * bool)) (o0 : nat -> name -> O) : hooked := mkHooked (hinit carried o0) (fun _ => Between).
(* dock.go:43-53, 218-222: w goes on *)
Definition moved (w : who) (x : hook) (s : hooked) (h : harbor O) : hooked := mkHooked h (fun w' => if who_eq w' w then x else at_ s w').

(* The steps of dock.go:43-53, 218-222, of the code of features, and all others. *)
Inductive klab :=
| KAct (l : hlab)                                                    (* any other goroutine, HarborModel.v *)
| KEnter (w : who) (f : name)                                        (* dock.go:45, 220: OnStart or OnDestroy of f is called *)
| KLeave (w : who)                                                   (* and returns *)
| KCall (w : who) (f m : name) (args : list gval) (res : bool) (x : Z) (* a call it makes, slot.go:53-59, of a feature elsewhere *)
| KGot (w : who)                                                     (* which has returned *)
| KOwn (w : who) (f m : name) (args : list gval) (res : bool)        (* a call of a feature of the dock itself, dock.go:226-227, 237-238 *)
| KOwnGot (w : who).                                                 (* which has returned *)

(* dock.go:45, 220 *)
Definition enter (w : who) (f : name) : hlab := match w with Starter i j => HFleet (FDock i (TStart j f)) | Closer i => HFleet (FDock i (LDestroy f)) end.
(* dock.go:43-53, 218-222: OnStart and OnDestroy are called by [KEnter]; the goroutine that closes
   the dock goes on when they have returned *)
Definition others (s : hooked) (l : hlab) : bool :=
  match l with
  | HFleet (FDock _ (TStart _ _)) | HFleet (FDock _ (LDestroy _)) => false
  | HFleet (FDock i KStep) => match at_ s (Closer i) with Between => true | _ => false end
  | _ => true
  end.
(* rpc.go:41, 57, chancall/caller.go:23-28, 52-57: the call made has returned *)
Definition returned (s : harbor O) (i c : nat) : bool := match nth_error (calls (bd (fb (hf s)) i)) c with Some r => match c_pc r with CDone _ => true | _ => false end | None => false end.
Definition own_returned (s : harbor O) (i n : nat) : bool :=
  match nth_error (locals s i) n with
  | Some x => match ChanModel.gor (feat s i (l_feature x)) (local_id n) with ChanModel.GIdle => true | _ => false end
  | None => false
  end.

(* dock.go:43-53, 218-222, slot.go:53-59 *)
Definition kstep (s : hooked) (l : klab) : option hooked :=
  match l with
  | KAct l => if others s l then option_map (fun h => mkHooked h (at_ s)) (hstep (hh s) l) else None
  | KEnter w f => match at_ s w with Between => option_map (moved w (Inside f) s) (hstep (hh s) (enter w f)) | _ => None end
  | KLeave w => match at_ s w with Inside _ => if up (home w) (hh s) then Some (moved w Between s (hh s)) else None | _ => None end
  | KCall w f m args res x =>
      match at_ s w with
      | Inside g => option_map (moved w (Waits g (length (calls (bd (fb (hf (hh s))) (home w))))) s) (hstep (hh s) (HFleet (FDock (home w) (LCall f m args res x))))
      | _ => None
      end
  | KGot w => match at_ s w with Waits g c => if up (home w) (hh s) && returned (hh s) (home w) c then Some (moved w (Inside g) s (hh s)) else None | _ => None end
  | KOwn w f m args res =>
      match at_ s w with
      | Inside g => option_map (moved w (WaitsOwn g (length (locals (hh s) (home w)))) s) (hstep (hh s) (HLocal (home w) f m args res))
      | _ => None
      end
  | KOwnGot w => match at_ s w with WaitsOwn g n => if up (home w) (hh s) && own_returned (hh s) (home w) n then Some (moved w (Inside g) s (hh s)) else None | _ => None end
  end.
End Hooks.
Arguments hooked : clear implicits.
