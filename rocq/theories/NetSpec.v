(* Specification for C70, on what the program did ([hist]). *)
From Verif Require Import Lts GoVal Tables NetModel.
From Coq Require Import Arith Bool List ZArith.
Import ListNotations.
Open Scope nat_scope.

Definition made (h : list event) : Prop := exists k n, In (ENew k n) h.
(* x is the last serializer the program registered as n *)
Definition last_registered (h : list event) (n : name) (x : ser) : Prop :=
  exists h1 h2, h = h1 ++ EExtend n x :: h2 /\ forall y, ~ In (EExtend n y) h2.
(* ... since the first socket was made *)
Definition last_registered_since (h : list event) (n : name) (x : ser) : Prop :=
  exists h1 h2, h = h1 ++ EExtend n x :: h2 /\ made h1 /\ forall y, ~ In (EExtend n y) h2.
Definition never_registered (h : list event) (n : name) : Prop := forall x, ~ In (EExtend n x) h.
(* The serializer of a socket made as n after h. *)
Definition chosen (h : list event) (n : name) (o : option ser) : Prop :=
  if zlist_eqb n nTxt then
    o = Some STxt /\ (forall x, ~ last_registered_since h n x) \/ (exists x, o = Some x /\ last_registered_since h n x)
  else o = None /\ never_registered h n \/ (exists x, o = Some x /\ last_registered h n x).
Definition mocked (h : list event) : Prop := In (EMock nTcp) h.
(* Every name is registered before a socket is made with it, as in hub.go:139-141 and
   dock.go:200-202. *)
Definition registered_first (ls : list label) : Prop :=
  forall l1 n b l2, ls = l1 ++ PNew n b :: l2 -> n <> nTxt -> exists x, In (PExtend n x) l1.
