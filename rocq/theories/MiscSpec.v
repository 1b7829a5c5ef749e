(* Specification of the set, of Visit and of the instance list. *)
From Verif Require Import MiscModel.
From Coq Require Import Arith List ZArith.
Import ListNotations.
Open Scope nat_scope.

(* The item of an operation. *)
Definition item (o : sop) : gval := match o with SAdd x => x | SRemove x => x end.
(* An ordinary item: usable as a map key and equal to itself. *)
Definition ordinary (x : gval) : Prop := hashable x = true /\ key_eqb x x = true.
(* Is x a member after ops?  The last operation on an item equal to x decides. *)
Definition present (x : gval) (ops : list sop) : bool :=
  fold_left (fun b o => if key_eqb (item o) x then match o with SAdd _ => true | SRemove _ => false end else b) ops false.
(* Number of members of a listing equal to x. *)
Definition copies (x : gval) (out : list gval) : nat := length (filter (fun y => key_eqb y x) out).
Definition odd_item (x : gval) : bool := negb (key_eqb x x).

(* Visits of f on slot s never overlap: one begins only after the earlier ones returned. *)
Definition serial (s : nat) (f : name) (h : list vev) : Prop :=
  forall a b c g g', h = a ++ EStart g s f :: b ++ EStart g' s f :: c -> exists r, In (EVisit g s f r) b.
(* The latest registration for f. *)
Definition latest (f : name) (h : list vev) : maker :=
  fold_left (fun m e => match e with ERegister f' m' => if zlist_eqb f' f then m' else m | _ => m end) h MNil.

(* The instances waiting to be closed: appended since the last completed destroy. *)
Definition waiting (h : list rev_) : list nat :=
  fold_left (fun l e => match e with EWait i => l ++ [i] | EDestroyed _ => [] | _ => l end) h [].
