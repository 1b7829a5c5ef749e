(* Methods that call: callees of package chancall (ChanModel.v), one per feature, whose
   handler goroutines make calls themselves while they run a method.  dock.go:224-233, 235-244:
   a call of a feature of the same dock makes a caller of its callee and blocks on it
   (chancall/caller.go:16-44); a call of a feature of another dock blocks on its rpc, and a
   goroutine over there makes the caller (dock.go:146-154), later.
   Simplifications: methods make one call at a time; whether a method calls, and what, is
   arbitrary, and what it does afterwards does not depend on the answer; the way of a
   request to the other dock may take any time, that of the response is part of the return; every
   callee has a clock of its own. *)
From Verif Require Import Lts.
From Verif Require ChanModel.
From Coq Require Import Arith Bool List ZArith.
Import ListNotations.
Open Scope nat_scope.

Section Nest.
Context {O V : Type}.
Variables (T : nat -> ChanModel.target O V) (o0 : nat -> O). (* of callee i *)

(* chancall/callee.go:37 in which a method is at dock.go:227, 231, 238 or 242. *)
(* The handler goroutine of a callee: it is in no call; in call n, of callee j, not there
   yet; in call n, there. *)
Inductive wait := WNone | WAsked (j n m : nat) (args : list V) | WSent (j n : nat).
(* The callees (chancall/callee.go:12-16), with what their goroutines wait for. *)
Record nest := mkNest { ch : nat -> ChanModel.chan O V; waits : nat -> wait; ncalls : nat }.
(* NewCallee, chancall/API.go:26-34 *)
Definition ninit : nest := mkNest (fun i => ChanModel.new_chan (o0 i)) (fun _ => WNone) 0.

(* NewCaller, dock.go:147, 227, 238: *)
(* The goroutine in, and the caller made for, call n; other goroutines have even numbers. *)
Definition nid (n : nat) : nat := 2 * n + 1.
(* Field updates of [nest]: a callee's state (chancall/callee.go:12-16), what its goroutine
   waits for (callee.go:37). *)
Definition put (i : nat) (c : ChanModel.chan O V) (s : nest) : nest := mkNest (ChanModel.upd (ch s) i c) (waits s) (ncalls s).
Definition set_wait (i : nat) (w : wait) (s : nest) : nest := mkNest (ch s) (ChanModel.upd (waits s) i w) (ncalls s).

(* The steps: those of chancall/; dock.go:224-244 in a method: call, send (caller.go:54), return
   (caller.go:27, 42). *)
Inductive nlab :=
| NChan (i : nat) (l : ChanModel.label V)    (* a step of callee i, its timers, or other goroutines *)
| NCall (i j m : nat) (args : list V)        (* the method callee i runs calls method m of callee j *)
| NSend (i : nat) | NReturn (i : nat).

(* chancall/callee.go:37: *)
(* A method ends only outside its calls. *)
Definition free (s : nest) (i : nat) (l : ChanModel.label V) : bool :=
  match l with
  | ChanModel.LCall g c _ _ => Nat.even g && (g =? c)
  | ChanModel.LReceive g => Nat.even g
  | ChanModel.LEnd => match waits s i with WNone => true | _ => false end
  | _ => true
  end.
(* chancall/callee.go:26-78, caller.go:16-64, dock.go:224-244 *)
Definition nstep (s : nest) (l : nlab) : option nest :=
  match l with
  | NChan i l => if free s i l then option_map (fun c => put i c s) (ChanModel.cstep (T i) (ch s i) l) else None
  | NCall i j m args =>
      match ChanModel.handler (ch s i), waits s i with
      | ChanModel.HRun _, WNone => Some (mkNest (ch s) (ChanModel.upd (waits s) i (WAsked j (ncalls s) m args)) (S (ncalls s)))
      | _, _ => None
      end
  | NSend i =>
      match waits s i with
      | WAsked j n m args =>
          option_map (fun c => set_wait i (WSent j n) (put j c s)) (ChanModel.cstep (T j) (ch s j) (ChanModel.LCall (nid n) (nid n) m args))
      | _ => None
      end
  | NReturn i =>
      match waits s i with
      | WSent j n => option_map (fun c => set_wait i WNone (put j c s)) (ChanModel.cstep (T j) (ch s j) (ChanModel.LReceive (nid n)))
      | _ => None
      end
  end.
End Nest.
Arguments nest : clear implicits. Arguments wait : clear implicits. Arguments nlab : clear implicits.
