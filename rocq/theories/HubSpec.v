(* Vocabulary for the hub theorems: functions of the history. *)
From Verif Require Import Lts GoVal Tables HubModel.
From Coq Require Import Arith Bool List ZArith.
Import ListNotations.
Open Scope nat_scope.

(* ports handed out to a host, in order *)
Definition allocs (host : name) (h : list event) : list Z :=
  flat_map (fun e => match e with EAlloc _ _ x port => if zlist_eqb x host then [port] else [] | _ => [] end) h.
(* registrations of feature f in order: who, host, port *)
Definition registrations (f : name) (h : list event) : list (nat * name * Z) :=
  flat_map (fun e => match e with EPush g p host port => if zlist_eqb g f then [(p, host, port)] else [] | _ => [] end) h.
(* answers to the query received at t *)
Definition answers (t : nat) (h : list event) : list (nat * name * Z) :=
  flat_map (fun e => match e with EAnswer u p _ _ host port => if u =? t then [(p, host, port)] else [] | _ => [] end) h.
(* steps of query t in a schedule *)
Definition turns (t : nat) (ls : list label) : nat :=
  length (filter (fun l => match l with QStep u => u =? t | _ => false end) ls).

(* of one peer, in order: the feature lists of its registration packets, the ports
   allocated for it, the registrations made, the replies given to it *)
Definition requests (p : nat) (h : list event) : list (list name) :=
  flat_map (fun e => match e with ERecv q (PRegister slots) => if q =? p then [slots] else [] | _ => [] end) h.
Definition granted (p : nat) (h : list event) : list Z :=
  flat_map (fun e => match e with EAlloc _ q _ port => if q =? p then [port] else [] | _ => [] end) h.
Definition recorded (p : nat) (h : list event) : list (name * Z) :=
  flat_map (fun e => match e with EPush f q _ port => if q =? p then [(f, port)] else [] | _ => [] end) h.
Definition replies (p : nat) (h : list event) : list Z :=
  flat_map (fun e => match e with EReply q port => if q =? p then [port] else [] | _ => [] end) h.
(* what the registrations should record *)
Definition records (slots : list (list name)) (ports : list Z) : list (name * Z) :=
  flat_map (fun x => map (fun f => (f, snd x)) (fst x)) (combine slots ports).
(* who registered feature f, in order *)
Definition registrants (f : name) (h : list event) : list nat := map (fun x => fst (fst x)) (registrations f h).
Definition first_at (p : nat) (l : list nat) (k : nat) : Prop := nth_error l k = Some p /\ forall j, j < k -> nth_error l j <> Some p.
