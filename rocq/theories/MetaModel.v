(* Model of chancall/meta.go: the method table of a feature and the dispatch of a call
   by name, with the part of package reflect it uses. *)
From Verif Require Import GoInt GoFloat GoVal.
From Coq Require Import List.
Import ListNotations.

(* Parameter types, in the classification of GoVal.v (t: which defined type; 0 the
   predeclared one).  [TyAny] is interface{}; [TyArr ASliceIface] is []interface{};
   [TyMap true] is map[interface{}]interface{}; [TyOther] any type not listed. *)
Inductive gtype :=
| TyAny | TyBool (t : Z) | TyF32 (t : Z) | TyF64 (t : Z) | TyUint (t : Z) (k : ukind) | TyInt (t : Z) (k : ikind)
| TyStr (t : Z) | TyArr (k : akind) | TyMap (ifc : bool) | TyOther (id : Z).

(* Sizes of the types for reflect's Convert (meta.go:49). *)
Definition ubits (ws : wsize) (k : ukind) : Z := match k with U8 => 8 | U16 => 16 | U32 => 32 | U64 => 64 | _ => wbits ws end.
Definition ibits (ws : wsize) (k : ikind) : Z := match k with I8 => 8 | I16 => 16 | I32 => 32 | I64 => 64 | IInt => wbits ws end.

(* In reflect's Convert (meta.go:49): *)
(* string(rune): UTF-8, U+FFFD for what is not a code point (Go spec, "Conversions") *)
Definition rune_string (z : Z) : list Z :=
  if (0 <=? z) && (z <? 128) then [z]
  else if (0 <=? z) && (z <? 2048) then [192 + z / 64; 128 + z mod 64]
  else if (0 <=? z) && (z <? 65536) && negb ((55296 <=? z) && (z <? 57344)) then [224 + z / 4096; 128 + z / 64 mod 64; 128 + z mod 64]
  else if (65536 <=? z) && (z <? 1114112) then [240 + z / 262144; 128 + z / 4096 mod 64; 128 + z / 64 mod 64; 128 + z mod 64]
  else [239; 191; 189].

(* Conversions the model leaves open: between integers and floats (rounding, and
   implementation-defined out of range), strings and byte/rune slices, and everything
   with a type the model does not describe.  None: reflect panics. *)
Definition open_conversion := gtype -> gval -> option gval.

(* reflect.Value.Convert as used in meta.go:49: reflect.ValueOf(v).Convert(ty).
   reflect.ValueOf(nil) is the zero Value, whose Convert panics. *)
Definition convert (ws : wsize) (open : open_conversion) (ty : gtype) (v : gval) : option gval :=
  match v with
  | VNil => None
  | _ =>
    match ty, v with
    | TyAny, _ => Some v
    | TyBool t, VBool _ b => Some (VBool t b)
    | TyF32 t, VF32 _ b => Some (VF32 t b)
    | TyF32 t, VF64 _ b => Some (VF32 t (f64_narrow b))
    | TyF64 t, VF64 _ b => Some (VF64 t b)
    | TyF64 t, VF32 _ b => Some (VF64 t (f32_widen b))
    | TyUint t k, VUint _ _ n => Some (VUint t k (uwrap (ubits ws k) n))
    | TyUint t k, VInt _ _ z => Some (VUint t k (uwrap (ubits ws k) z))
    | TyInt t k, VInt _ _ z => Some (VInt t k (swrap (ibits ws k) z))
    | TyInt t k, VUint _ _ n => Some (VInt t k (swrap (ibits ws k) n))
    | TyStr t, VStr _ s => Some (VStr t s)
    | TyStr t, VInt _ _ z => Some (VStr t (rune_string z))
    | TyStr t, VUint _ _ n => Some (VStr t (rune_string n))
    | TyArr ASliceIface, VArr ASliceIface l => Some (VArr ASliceIface l)
    | TyMap true, VMap true l => Some (VMap true l)
    (* bool converts to and from bool only; maps and []interface{} to nothing else *)
    | TyBool _, _ | (TyF32 _ | TyF64 _ | TyUint _ _ | TyInt _ _ | TyStr _ | TyArr _ | TyMap _), VBool _ _ => None
    | (TyF32 _ | TyF64 _ | TyUint _ _ | TyInt _ _ | TyStr _ | TyMap _), VArr ASliceIface _ => None
    | (TyF32 _ | TyF64 _ | TyUint _ _ | TyInt _ _ | TyStr _ | TyArr _), VMap _ _ => None
    | (TyF32 _ | TyF64 _ | TyUint _ _ | TyInt _ _ | TyMap _), VStr _ _ => None
    | TyStr _, (VF32 _ _ | VF64 _ _) => None
    | (TyArr _ | TyMap _), (VF32 _ _ | VF64 _ _ | VUint _ _ _ | VInt _ _ _) => None
    | _, _ => open ty v
    end
  end.

Section Meta.
Context {O : Type}.
(* An element of meta.funcs, meta.go:25-29: parameter types and the bound method.  The
   body maps object and arguments to the new object and the results; None is a panic.
   Variadic methods are not modelled. *)
Record fcall := mkFcall { params : list gtype; body : O -> list gval -> option (O * list gval) }.
(* meta.go:20-23, 31-42.  A Go map: keys are distinct. *)
Definition table := list (list Z * fcall).

Fixpoint lookup (tbl : table) (name : list Z) : option fcall :=
  match tbl with [] => None | (n, f) :: r => if zlist_eqb n name then Some f else lookup r name end.

(* meta.go:47-50: f.ft.In(i) panics from i = NumIn() on *)
Fixpoint convert_args (ws : wsize) (open : open_conversion) (ps : list gtype) (args : list gval) : option (list gval) :=
  match args with
  | [] => Some []
  | a :: args' =>
      match ps with
      | [] => None
      | p :: ps' =>
          match convert ws open p a with
          | Some c => match convert_args ws open ps' args' with Some r => Some (c :: r) | None => None end
          | None => None
          end
      end
  end.

(* meta.go:44-62.  [Ran f o r]: the method f was entered (with the arguments recorded)
   and left object o and results r; [RanPanic]: it was entered and panicked; [Unknown]:
   nil result; [NotRun]: panic before the method was entered.  reflect's Call panics when
   given too few arguments. *)
Inductive outcome := Ran (f : fcall) (given : list gval) (o : O) (r : list gval) | RanPanic (f : fcall) (given : list gval) | Unknown | NotRun.
Definition meta_call (ws : wsize) (open : open_conversion) (tbl : table) (o : O) (name : list Z) (args : list gval) : outcome :=
  match lookup tbl name with
  | None => Unknown
  | Some f =>
      match convert_args ws open (params f) args with
      | None => NotRun
      | Some ps =>
          if (length ps <? length (params f))%nat then NotRun
          else match body f o ps with Some (o', r) => Ran f ps o' r | None => RanPanic f ps end
      end
  end.
End Meta.
Arguments fcall : clear implicits. Arguments table : clear implicits. Arguments outcome : clear implicits.
