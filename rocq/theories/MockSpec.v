(* What the mock network should do, in terms of the history of calls. *)
From Verif Require Import MockModel.
From Coq Require Import Arith List ZArith.
Import ListNotations.
Open Scope nat_scope.

Definition mexec := exec mstep minit.

(* The slices written on conn c, in order; None: nil, which stands for a Close. *)
Definition sent (c : nat) (h : list mev) : list slice :=
  flat_map (fun e => match e with EWrote x _ b => if x =? c then [b] else [] | _ => [] end) h.
(* The Reads on conn d, in order: buffer size and result. *)
Definition reads (d : nat) (h : list mev) : list (nat * slice) :=
  flat_map (fun e => match e with ERead x n r => if x =? d then [(n, r)] else [] | _ => [] end) h.

(* The two conns are the ends of one connection. *)
Definition ends (h : list mev) (c d : nat) : Prop := exists l, In (ELinked l c d) h \/ In (ELinked l d c) h.

(* A Read into n bytes of a slice written: an error for nil, else the first n bytes. *)
Definition read_of (w : slice) (nr : nat * slice) : Prop :=
  match w with
  | None => snd nr = None
  | Some b => exists r rest, snd nr = Some r /\ b = r ++ rest /\
                             (length b <= fst nr -> rest = []) /\ (fst nr < length b -> length r = fst nr)
  end.

(* The part of an address after its last ':' (58), all of it when there is none. *)
Definition port_of (a t : name) : Prop := ~ In 58%Z t /\ (a = t \/ exists h, a = h ++ 58%Z :: t).
Definition same_port (a b : name) : Prop := exists t, port_of a t /\ port_of b t.

(* Listener l is the last one made for the port of a, in the calls ls, with no Reset since. *)
Definition listening (ls : list mlab) (a : name) (l : nat) : Prop :=
  exists l1 b l2, ls = l1 ++ MListen b :: l2 /\ same_port a b /\
    l = length (filter (fun x => match x with MListen _ => true | _ => false end) l1) /\
    ~ In MReset l2 /\ forall b', In (MListen b') l2 -> ~ same_port a b'.
