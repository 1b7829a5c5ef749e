(* Vocabulary of the theorems about endless runs of package chancall. *)
From Verif Require Import Lts GoInt GoFloat ChanModel ChanSpec.
From Coq Require Import Arith Bool List ZArith.
Import ListNotations.
Open Scope nat_scope.

Section Spec.
Context {O V : Type} (T : target O V).
Implicit Types (run : nat -> chan O V) (lab : nat -> option (label V)).
Notation step := (cstep T).

(* The state at each moment, and the step then taken, if any. *)
Record endless (o : O) run lab : Prop := {
  e_start : run 0 = new_chan o;
  e_step : forall n, match lab n with Some l => step (run n) l = Some (run (S n)) | None => run (S n) = run n end }.
(* the steps taken before moment n *)
Definition schedule lab (n : nat) : list (label V) := flat_map (fun k => match lab k with Some l => [l] | None => [] end) (seq 0 n).

(* What goes on by itself: the method being executed, the handler goroutine otherwise, the
   timer of request r, and goroutine g waiting for an answer. *)
Inductive task := KMethod | KHandler | KTimer (r : nat) | KReceive (g : nat).
Definition of_task (k : task) (l : label V) : Prop :=
  match k, l with
  | KMethod, LEnd => True
  | KHandler, (LPick | LLock | LCheck | LDone | LRespond | LUnlock) => True
  | KTimer r, (TSleep q | TLock q | TCheck q | TDone q | TRespond q | TRelease q) => q = r
  | KReceive g, LReceive g' => g' = g
  | _, _ => False
  end.
Definition resting (k : task) (s : chan O V) : Prop := forall l, of_task k l -> step s l = None.
(* Task k is not held up for ever (weak fairness): time and again it rests or takes a step. *)
Definition goes_on run lab (k : task) : Prop :=
  forall n, exists m, n <= m /\ (resting k (run m) \/ exists l, lab m = Some l /\ of_task k l).
(* No goroutine is passed over for ever at the queue (strong fairness; a Go channel serves
   blocked senders in the order of their arrival): it enters, unless from some moment on
   there is no more room for it. *)
Definition turns run lab : Prop := forall g n,
  exists m, n <= m /\ (lab m = Some (LEnqueue g) \/ forall k, m <= k -> step (run k) (LEnqueue g) = None).
(* each caller object is used by one goroutine at a time *)
Definition disciplined lab : Prop := forall n, one_goroutine_per_caller (schedule lab n).
(* no method panics *)
Definition no_panic run : Prop := forall n, crashed (run n) = false.
(* time goes on *)
Definition clock_advances run : Prop := forall z, exists n, (z <= now (run n))%Z.
End Spec.
