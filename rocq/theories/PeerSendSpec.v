(* Reading a peer's log. *)
From Verif Require Import Lts PeerSendModel.
From Coq Require Import Arith Bool.

Section Spec.
Context {P : Type}.
Implicit Type evs : list (pevent P).

Definition written evs : list P := flat_map (fun e => match e with EWrite p => [p] | _ => [] end) evs.
Definition failed evs : list P := flat_map (fun e => match e with EFail p => [p] | _ => [] end) evs.
Definition pushed evs : list (option P) := flat_map (fun e => match e with EPush _ x => [x] | _ => [] end) evs.
Definition popped evs : list (option P) := flat_map (fun e => match e with EPop x => [x] | _ => [] end) evs.
(* what goroutine t sent, put into the queue, and saw dropped *)
Definition sends_of t evs : list (option P) :=
  flat_map (fun e => match e with EDrop u x | EAdmit u x => if t =? u then [x] else [] | _ => [] end) evs.
Definition admitted_of t evs : list (option P) :=
  flat_map (fun e => match e with EAdmit u x => if t =? u then [x] else [] | _ => [] end) evs.
Definition pushed_of t evs : list (option P) :=
  flat_map (fun e => match e with EPush u x => if t =? u then [x] else [] | _ => [] end) evs.
Definition admitted evs : list (option P) := flat_map (fun e => match e with EAdmit _ x => [x] | _ => [] end) evs.

(* nothing left to do *)
Definition quiet (s : peer P) : Prop := queue s = [] /\ pending s = [] /\ routine s = WWaiting.
End Spec.
