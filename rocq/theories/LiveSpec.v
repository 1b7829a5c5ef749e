(* Vocabulary of the theorems about endless runs of networks whose connections are dialled. *)
From Verif Require Import Lts GoVal Tables DockModel DockSpec SysModel SysSpec WorldModel WorldSpec.
From Verif Require HubModel HubSpec.
From Coq Require Import Arith Bool List ZArith.
Import ListNotations.
Open Scope nat_scope.

Section Spec.
Context {V : Type}.
Variables (carried : nat -> list (name * bool)) (carry : nat -> nat -> list V -> option (list V)) (black : list Z) (raddr : nat -> name).
Implicit Types w : world V.
Notation step := (wstep carry black raddr).

(* The state at each moment, and the step then taken, if any. *)
Record endless (r : nat -> world V) (lab : nat -> option (wlab V)) : Prop := {
  e_start : r 0 = winit carried;
  e_step : forall n, match lab n with Some l => step (r n) l = Some (r (S n)) | None => r (S n) = r n end }.

(* The goroutines, and the packets and connections on their way: each goes on by itself. *)
Inductive task :=
| TDeliver (i p : nat)     (* the next packet reaches peer p of dock i *)
| TAccept (j q : nat)      (* dock j accepts connection q *)
| THandler (i p : nat)     (* the receive routine of peer p of dock i *)
| TAnnounce (i j : nat)    (* dock i announces its slots on a new connection *)
| TCall (i c : nat)        (* call c of dock i *)
| TServe (i k : nat)       (* dock i serves the k-th request *)
| TBack (i b : nat)        (* dock i hands over the b-th response *)
| THubDeliver (h : nat)    (* the next packet reaches peer h of the hub *)
| THub (h : nat)           (* the receive routine of peer h of the hub *)
| TQuery (t : nat).        (* the hub polls for query t *)
Definition of_task (T : task) (l : wlab V) : Prop :=
  match T with
  | TDeliver i p => l = WDeliver i p
  | TAccept j q => l = WAccept j q
  | THandler i p =>
      match l with
      | WDock i' (HGo p') | WDock i' (HPick p' _) | WDock i' (HCommit p' _) | WDock i' (HSend p' _ _) => i' = i /\ p' = p
      | WListen i' p' _ | WConnect i' p' _ _ | WFail i' p' => i' = i /\ p' = p
      | _ => False end
  | TAnnounce i j => exists ns acc, l = WDock i (LAnnounce j ns acc)
  | TCall i c => exists acc, l = WDock i (CStep c acc)
  | TServe i k => (exists res err, l = WDock i (SExec k res err)) \/ exists acc, l = WDock i (SSend k acc)
  | TBack i b => l = WDock i (BStep b)
  | THubDeliver h => l = WHubDeliver h
  | THub h => l = WHub (HubModel.HStep h)
  | TQuery t => l = WHub (HubModel.QStep t)
  end.
(* task T has nothing to do *)
Definition resting (T : task) w : Prop := forall l, of_task T l -> step w l = None.
(* A task that never rests from some moment on takes a step (weak fairness): time and again
   every task rests or takes a step. *)
Definition fair (r : nat -> world V) (lab : nat -> option (wlab V)) : Prop :=
  forall T n, exists m, n <= m /\ (resting T (r m) \/ exists l, lab m = Some l /\ of_task T l).

(* The receive routine ranges over the calls that have not returned (dock.go:87-91). *)
Definition ranging (h : hpc) : Prop := match h with RIter _ _ _ | RTested _ _ _ _ | RCommit _ _ _ _ => True | _ => False end.
(* Such a range ends.  A range over a Go map visits no entry twice, but may visit entries
   added meanwhile; it ends unless calls keep coming and are visited. *)
Definition ranges_end (r : nat -> world V) : Prop := forall i p n, exists m, n <= m /\ ~ ranging (handlers (sd (ws (r m)) i) p).

(* Nothing is lost and nothing breaks. *)
Definition undisturbed (r : nat -> world V) (lab : nat -> option (wlab V)) : Prop :=
  (forall n, match lab n with Some (WLose _ _ _) | Some (WHubLose _ _) => False | _ => True end) /\ (forall n, healthy (ws (r n))).
End Spec.
