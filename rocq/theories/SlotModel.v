(* Model of slot.go and of the tables of methods of chancall/meta.go: what a feature put in a
   slot lets others call.
   Simplifications: a Go type is the list of its methods; of a method's type the parameters
   and the number of results; names are ASCII as far as their first letter goes; methods with a
   variable number of parameters are not modelled, as in MetaModel.v. *)
From Verif Require Import Lts GoInt GoVal MetaModel.
From Verif Require ChanModel.
From Coq Require Import List Bool.
Import ListNotations.
Open Scope Z_scope.

(* ferry.go:10, 13 *)
Definition onStart : list Z := [79; 110; 83; 116; 97; 114; 116].
Definition onDestroy : list Z := [79; 110; 68; 101; 115; 116; 114; 111; 121].
(* ferry.go:17-29: the interface type ISlot, among the types MetaModel.v does not describe *)
Definition islot : gtype := TyOther 0.

(* For reflect's Convert at chancall/meta.go:49: *)
(* the types without methods: the predeclared ones, []interface{} and
   map[interface{}]interface{} *)
Definition bare (v : gval) : bool :=
  match v with
  | VNil => true
  | VBool t _ | VF32 t _ | VF64 t _ | VUint t _ _ | VInt t _ _ | VStr t _ => t =? 0
  | VArr ASliceIface _ => true
  | VMap ifc _ => ifc
  | _ => false
  end.
(* chancall/meta.go:49, ferry.go:17-29: a value converts to ISlot only if its type has the
   methods of ISlot; Convert panics otherwise *)
Definition with_islot (open : open_conversion) : open_conversion :=
  fun ty v => match ty with TyOther 0 => if bare v then None else open ty v | _ => open ty v end.

Section Slot.
Context {O : Type}.
(* A method of the feature's type, as reflect shows it (chancall/meta.go:32-41). *)
Record method := mkMethod { m_name : list Z; m_params : list gtype; m_results : nat; m_body : O -> list gval -> option (O * list gval) }.

(* Go's rule for reflect's NumMethod and Method (chancall/meta.go:34-36): a name beginning with
   a capital *)
Definition exported (n : list Z) : bool := match n with c :: _ => (65 <=? c) && (c <=? 90) | [] => false end.
(* chancall/meta.go:31-42 *)
Definition collect (ms : list method) : table O :=
  fold_left (fun funcs m => (m_name m, mkFcall (m_params m) (m_body m)) :: filter (fun e => negb (zlist_eqb (fst e) (m_name m))) funcs)
    (filter (fun m => exported (m_name m)) ms) [].
(* slot.go:16, ferry.go:8-14: feature.(IFeature) *)
Definition takes_slot (m : method) : bool := match m_params m, m_results m with [TyOther 0], 0%nat => true | _, _ => false end.
Definition is_feature (ms : list method) : bool :=
  forallb (fun n => existsb (fun m => zlist_eqb (m_name m) n && takes_slot m) ms) [onStart; onDestroy].
(* slot.go:31-39, the table of methods and the flag *)
Record slot := mkSlot { sl_table : table O; sl_discoverable : bool }.
(* slot.go:15-29, chancall/API.go:26-34, chancall/meta.go:11-18, ferry.go:52-54; None: panic *)
Definition new_slot (ms : list method) (discoverable : bool) : option slot :=
  if is_feature ms then Some (mkSlot (collect ms) discoverable) else None.

(* ferry.go:62-72 *)
Definition feature_base : list method := [mkMethod onStart [islot] 0 (fun o _ => Some (o, [])); mkMethod onDestroy [islot] 0 (fun o _ => Some (o, []))].
(* ferry.go:62-64: the methods of a struct in which Feature is embedded; its own hide those of
   Feature *)
Definition embed (own : list method) : list method :=
  own ++ filter (fun m => negb (existsb (fun m' => zlist_eqb (m_name m') (m_name m)) own)) feature_base.

(* The callee of a slot (slot.go:24), for ChanModel.v: methods go by numbers there, [decode]
   gives the name.  chancall/meta.go:44-62: a name not in the table gives nil; a panic while the
   arguments are converted ends the process like one in the method. *)
Definition slot_target (ws : wsize) (open : open_conversion) (decode : nat -> list Z) (sl : slot) : ChanModel.target O gval :=
  ChanModel.mkTarget
    (fun n => match lookup (sl_table sl) (decode n) with Some _ => true | None => false end)
    (fun o n args => match meta_call ws (with_islot open) (sl_table sl) o (decode n) args with
                     | Ran _ _ o' r => Some (o', r)
                     | Unknown => Some (o, [])
                     | NotRun | RanPanic _ _ => None
                     end).
End Slot.
Arguments method : clear implicits. Arguments slot : clear implicits.
