(* Vocabulary of the theorems about greetings and failures of the network. *)
From Verif Require Import GoVal DockModel.
From Coq Require Import Arith Bool List ZArith.
Import ListNotations.
Open Scope nat_scope.

Section Spec.
Context {V : Type}.
(* how often the dock announced itself to peer p *)
Definition greetings (p : nat) (h : list (event V)) : nat :=
  length (filter (fun e => match e with ESend p' (KRegister _) _ => p' =? p | _ => false end) h).
(* how often peer p connected *)
Definition connected (p : nat) (ls : list (label V)) : nat :=
  length (filter (fun l => match l with LConnected p' => p' =? p | _ => false end) ls).
(* Listen or Dial reported an error *)
Definition net_failure (l : label V) : Prop := match l with HNet _ false | LDial false => True | _ => False end.
End Spec.
