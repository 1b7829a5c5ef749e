(* Vocabulary of the theorems about how many connections a call opens. *)
From Verif Require Import GoVal DockModel SysModel WorldModel.
From Coq Require Import Arith Bool List ZArith.
Import ListNotations.
Open Scope nat_scope.

Section Spec.
Context {V : Type}.
(* dials to other docks, good or bad *)
Definition dials (i : nat) (ls : list (wlab V)) : nat :=
  length (filter (fun l => match l with WConnect i' _ _ _ | WFail i' _ => i' =? i | _ => false end) ls).
(* connections to other docks that dock i dialled *)
Definition connections (i : nat) (ls : list (wlab V)) : nat :=
  length (filter (fun l => match l with WConnect i' _ _ _ => i' =? i | _ => false end) ls).
(* queries sent *)
Definition asked (h : list (event V)) : nat := length (filter (fun e => match e with EQuery _ _ => true | _ => false end) h).
End Spec.

(* the steps taken before moment n of an endless run *)
Definition labels {V} (lab : nat -> option (wlab V)) (n : nat) : list (wlab V) :=
  flat_map (fun k => match lab k with Some l => [l] | None => [] end) (seq 0 n).
