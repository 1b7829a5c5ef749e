(* misc/set.go, registry.go, slot.go Visit, runtime.go. *)
From Verif Require Export GoVal Tables Lts.
From Coq Require Import Arith List ZArith Permutation.
Import ListNotations.
Open Scope nat_scope.

(* ---- misc/set.go ---- *)

(* set.data, misc/set.go:27-29, as the list of its keys in the order of insertion; the
   code only ever stores true, so a key is in the map iff its value is true. *)
Definition sdata := list gval.

(* s.data[item]: misc/set.go:32,41.  None: the panic "hash of unhashable type". *)
Definition set_get (d : sdata) (x : gval) : option bool :=
  if hashable x then Some (existsb (fun y => key_eqb y x) d) else None.

(* set.Add, misc/set.go:31-38.  The write happens only for a key not in the map, so it
   appends an entry. *)
Definition set_add (d : sdata) (x : gval) : option (bool * sdata) :=
  match set_get d x with
  | None => None
  | Some true => Some (false, d)
  | Some false => Some (true, d ++ [x])
  end.

(* set.Remove, misc/set.go:40-47; delete removes the entry with an equal key. *)
Definition set_remove (d : sdata) (x : gval) : option (bool * sdata) :=
  match set_get d x with
  | None => None
  | Some true => Some (true, filter (fun y => negb (key_eqb y x)) d)
  | Some false => Some (false, d)
  end.

(* set.ToSlice, misc/set.go:49-56: range over a map visits its entries in any order. *)
Definition to_slice (d : sdata) (out : list gval) : Prop := Permutation out d.

Inductive sop := SAdd (x : gval) | SRemove (x : gval).
Definition set_op (d : sdata) (o : sop) : option (bool * sdata) :=
  match o with SAdd x => set_add d x | SRemove x => set_remove d x end.
(* A sequence of calls on a set; None when one of them panics.  ToSlice changes nothing. *)
Fixpoint set_run (d : sdata) (ops : list sop) : option (list bool * sdata) :=
  match ops with
  | [] => Some ([], d)
  | o :: r => match set_op d o with
              | None => None
              | Some (b, d1) => match set_run d1 r with None => None | Some (bs, d2) => Some (b :: bs, d2) end
              end
  end.
(* NewSet, misc/set.go:20-25. *)
Definition new_set : sdata := [].

(* ---- registry.go and slot.Visit ---- *)

(* A registered maker, registry.go:7-10: nil, a func(ISlot) interface{}, or any value of
   another type (the parameter is an interface{}). *)
Inductive maker := MNil | MFunc (m : nat) | MWrong.

(* What is left of a Visit call, slot.go:44-54: nothing; the cache had nothing; the maker
   returned v (None: nil) and the cache is written next. *)
Inductive vpc := VIdle | VMiss (s : nat) (f : name) | VMade (s : nat) (f : name) (v : option nat).

Inductive vev :=
| ERegister (f : name) (m : maker)
| EStart (g s : nat) (f : name)                         (* goroutine g calls Visit(f) on slot s *)
| EMade (g s : nat) (f : name) (m : nat) (v : option nat) (* maker m ran and returned v *)
| EVisit (g s : nat) (f : name) (r : option nat).       (* the call returned r *)

(* reg: registry, registry.go:7.  vis: slot.visiters of every slot, slot.go:39, a nil entry
   and no entry being the same to the reader.  Each map operation is atomic. *)
Record vst := mkV { reg : name -> maker; vis : nat -> name -> option nat; pc : nat -> vpc; vcrash : bool; vhist : list vev }.
Definition vinit : vst := mkV (fun _ => MNil) (fun _ _ => None) (fun _ => VIdle) false [].

Inductive vlab :=
| LRegister (f : name) (m : maker)
| LVisit (g s : nat) (f : name)
| LTry (g : nat) (v : option nat)   (* v: what the maker, which is user code, returns *)
| LStore (g : nat).

Definition vstep (st : vst) (l : vlab) : option vst :=
  if vcrash st then None else
  match l with
  | LRegister f m => (* register, registry.go:9-11 *)
      Some (mkV (updn (reg st) f m) (vis st) (pc st) false (vhist st ++ [ERegister f m]))
  | LVisit g s f => (* slot.go:45-46 *)
      match pc st g with
      | VIdle => match vis st s f with
                 | Some v => Some (mkV (reg st) (vis st) (pc st) false (vhist st ++ [EStart g s f; EVisit g s f (Some v)]))
                 | None => Some (mkV (reg st) (vis st) (updp (pc st) g (VMiss s f)) false (vhist st ++ [EStart g s f]))
                 end
      | _ => None
      end
  | LTry g v => (* tryMake, registry.go:13-20, called at slot.go:48 *)
      match pc st g with
      | VMiss s f =>
          match reg st f with
          | MNil => Some (mkV (reg st) (vis st) (updp (pc st) g VIdle) false (vhist st ++ [EVisit g s f None]))
          | MFunc m => Some (mkV (reg st) (vis st) (updp (pc st) g (VMade s f v)) false (vhist st ++ [EMade g s f m v]))
          | MWrong => Some (mkV (reg st) (vis st) (pc st) true (vhist st))   (* failed type assertion, registry.go:16 *)
          end
      | _ => None
      end
  | LStore g => (* slot.go:49,53 *)
      match pc st g with
      | VMade s f v => Some (mkV (reg st) (updp (vis st) s (updn (vis st s) f v)) (updp (pc st) g VIdle) false
                                 (vhist st ++ [EVisit g s f v]))
      | _ => None
      end
  end.

(* ---- runtime.go ---- *)

(* A destroy call, runtime.go:30-35: not running; about to close insts[i-1]
   (i = 0: about to empty the list). *)
Inductive dpc := DIdle | DAt (i : nat).
Inductive rev_ :=
| EWait (i : nat)             (* wait(i) appended i *)
| EDestroy (g : nat)          (* goroutine g calls destroy *)
| EClose (g i : nat)          (* g closed instance i *)
| EDestroyed (g : nat).       (* g's destroy returns *)
Record rst := mkR { insts : list nat; dpcs : nat -> dpc; rcrash : bool; rhist : list rev_ }.
Definition rinit : rst := mkR [] (fun _ => DIdle) false [].
Inductive rlab := LWait (i : nat) | LDestroy (g : nat) | LClose (g : nat).

(* Every goroutine in wait stays blocked on the signal channel, runtime.go:23-25; only its
   append is modelled.  Close of an instance is one step. *)
Definition rstep (st : rst) (l : rlab) : option rst :=
  if rcrash st then None else
  match l with
  | LWait i => Some (mkR (insts st ++ [i]) (dpcs st) false (rhist st ++ [EWait i]))   (* runtime.go:20-21 *)
  | LDestroy g =>  (* runtime.go:31, i := len(insts) - 1 *)
      match dpcs st g with
      | DIdle => Some (mkR (insts st) (updp (dpcs st) g (DAt (length (insts st)))) false (rhist st ++ [EDestroy g]))
      | _ => None
      end
  | LClose g =>
      match dpcs st g with
      | DAt (S i) =>  (* runtime.go:32 *)
          match nth_error (insts st) i with
          | Some x => Some (mkR (insts st) (updp (dpcs st) g (DAt i)) false (rhist st ++ [EClose g x]))
          | None => Some (mkR (insts st) (dpcs st) true (rhist st))   (* index out of range *)
          end
      | DAt O => Some (mkR [] (updp (dpcs st) g DIdle) false (rhist st ++ [EDestroyed g]))   (* runtime.go:34 *)
      | DIdle => None
      end
  end.
