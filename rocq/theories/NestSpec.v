(* Vocabulary for methods that call. *)
From Verif Require Import Lts NestModel.
From Verif Require ChanModel ChanSpec.
From Coq Require Import Arith List ZArith.
Import ListNotations.
Open Scope nat_scope.

Section Spec.
Context {O V : Type}.
(* the callee and the number of the call that the method callee i runs is in *)
Definition nested (s : nest O V) (i : nat) : option (nat * nat) :=
  match waits s i with WNone => None | WAsked j n _ _ => Some (j, n) | WSent j n => Some (j, n) end.
(* requests of callee i that have been picked up *)
Definition picked (s : nest O V) (i : nat) : list nat := ChanSpec.started (ChanModel.hist (ch s i)).
(* the method callee i runs waits for callee j, which has not picked its request up *)
Definition blocked (s : nest O V) (i j : nat) : Prop :=
  exists n, nested s i = Some (j, n) /\
    forall r c m args, In (ChanModel.EIssue r (nid n) c m args) (ChanModel.hist (ch s j)) -> ~ In r (picked s j).
(* what happens by itself: not the clock, SetTimeout, and new calls *)
Definition by_itself (l : nlab V) : bool :=
  match l with
  | NChan _ (ChanModel.LTick _) | NChan _ (ChanModel.LSetTimeout _ _) | NChan _ (ChanModel.LCall _ _ _ _) | NCall _ _ _ _ => false
  | _ => true
  end.
Definition new_call (l : nlab V) : bool := match l with NChan _ (ChanModel.LCall _ _ _ _) | NCall _ _ _ _ => true | _ => false end.
Definition number (p : nlab V -> bool) (ls : list (nlab V)) : nat := length (filter p ls).
Definition quiet (T : nat -> ChanModel.target O V) (s : nest O V) : Prop := forall l, by_itself l = true -> nstep T s l = None.
(* the timeout of every request picked up is over *)
Definition time_over (s : nest O V) : Prop :=
  forall i r u, ChanModel.timer (ch s i) r = ChanModel.TAsleep u -> (u <= ChanModel.now (ch s i))%Z.
End Spec.
