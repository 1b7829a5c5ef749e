(* Go values as the code under study can see them through interface{} and
   package reflect: a dynamic type and a value. *)
From Verif Require Import GoInt GoFloat.

(* Size of int/uint on the platform: unsafe.Sizeof, codec/encoder.go:67,106. *)
Inductive wsize := W32 | W64.
Definition wbits (ws : wsize) : Z := match ws with W32 => 32 | W64 => 64 end.

Inductive ukind := U8 | U16 | U32 | U64 | UInt | UPtr.
Inductive ikind := I8 | I16 | I32 | I64 | IInt.

(* Slice/array flavours: a slice whose dynamic type is exactly []interface{},
   any other slice type, an array type (comparable, hence usable as a map key;
   the Z distinguishes array types). *)
Inductive akind := ASliceIface | ASliceOther | AArray (t : Z).

(* [t : Z] is the identity of the dynamic type among the types of that kind:
   0 is the predeclared type (int8, string, ...), any other number is a defined
   type such as cProtoType (protocol.go:13).
   [VNil] is the nil interface value (reflect: the invalid Value).
   An interface-typed element, e.g. of []interface{}, is represented by its
   dynamic value.  [VOther]: struct, pointer, func, chan, complex,
   unsafe.Pointer; the bool says whether it is usable as a map key.
   Strings are byte strings, as in Go.  A map is the list of its entries in the
   order in which reflect.Value.MapKeys happens to return them.  A nil slice or
   map is represented as an empty one. *)
Inductive gval :=
| VNil
| VBool (t : Z) (b : bool)
| VF32 (t : Z) (bits : Z)
| VF64 (t : Z) (bits : Z)
| VUint (t : Z) (k : ukind) (n : Z)
| VInt (t : Z) (k : ikind) (z : Z)
| VStr (t : Z) (s : list Z)
| VArr (k : akind) (l : list gval)
| VMap (ifc : bool) (l : list (gval * gval))   (* ifc: exactly map[interface{}]interface{} *)
| VOther (hashable : bool) (id : Z).

(* Induction principle reaching into lists. *)
Fixpoint gval_rect' (P : gval -> Prop)
  (Hnil : P VNil) (Hb : forall t b, P (VBool t b)) (H32 : forall t b, P (VF32 t b))
  (H64 : forall t b, P (VF64 t b)) (Hu : forall t k n, P (VUint t k n))
  (Hi : forall t k z, P (VInt t k z)) (Hs : forall t s, P (VStr t s))
  (Ha : forall k l, Forall P l -> P (VArr k l))
  (Hm : forall i l, Forall (fun kv => P (fst kv) /\ P (snd kv)) l -> P (VMap i l))
  (Ho : forall h i, P (VOther h i)) (v : gval) : P v :=
  match v with
  | VNil => Hnil
  | VBool t b => Hb t b
  | VF32 t b => H32 t b
  | VF64 t b => H64 t b
  | VUint t k n => Hu t k n
  | VInt t k z => Hi t k z
  | VStr t s => Hs t s
  | VArr k l => Ha k l
      ((fix go l : Forall P l :=
          match l with
          | [] => Forall_nil _
          | x :: r => Forall_cons x (gval_rect' P Hnil Hb H32 H64 Hu Hi Hs Ha Hm Ho x) (go r)
          end) l)
  | VMap i l => Hm i l
      ((fix go l : Forall (fun kv => P (fst kv) /\ P (snd kv)) l :=
          match l with
          | [] => Forall_nil _
          | x :: r => Forall_cons x
              (conj (gval_rect' P Hnil Hb H32 H64 Hu Hi Hs Ha Hm Ho (fst x))
                    (gval_rect' P Hnil Hb H32 H64 Hu Hi Hs Ha Hm Ho (snd x))) (go r)
          end) l)
  | VOther h i => Ho h i
  end.

Definition ukind_eqb (a b : ukind) : bool :=
  match a, b with
  | U8, U8 | U16, U16 | U32, U32 | U64, U64 | UInt, UInt | UPtr, UPtr => true
  | _, _ => false
  end.
Definition ikind_eqb (a b : ikind) : bool :=
  match a, b with
  | I8, I8 | I16, I16 | I32, I32 | I64, I64 | IInt, IInt => true
  | _, _ => false
  end.

Fixpoint zlist_eqb (a b : list Z) : bool :=
  match a, b with
  | [], [] => true
  | x :: a', y :: b' => (x =? y) && zlist_eqb a' b'
  | _, _ => false
  end.

(* Go spec, "Comparison operators"/"Map types": which dynamic values may be map
   keys; using another one panics ("hash of unhashable type"). *)
Fixpoint hashable (v : gval) : bool :=
  match v with
  | VArr (AArray _) l => forallb hashable l
  | VArr _ _ => false
  | VMap _ _ => false
  | VOther h _ => h
  | _ => true
  end.

(* Equality of two hashable keys: same dynamic type and equal value. *)
Fixpoint key_eqb (a b : gval) {struct a} : bool :=
  match a, b with
  | VNil, VNil => true
  | VBool t x, VBool t' y => (t =? t') && Bool.eqb x y
  | VF32 t x, VF32 t' y => (t =? t') && f32_eqb x y
  | VF64 t x, VF64 t' y => (t =? t') && f64_eqb x y
  | VUint t k n, VUint t' k' n' => (t =? t') && ukind_eqb k k' && (n =? n')
  | VInt t k z, VInt t' k' z' => (t =? t') && ikind_eqb k k' && (z =? z')
  | VStr t s, VStr t' s' => (t =? t') && zlist_eqb s s'
  | VArr (AArray t) l, VArr (AArray t') l' =>
      (t =? t') &&
      (fix go l l' := match l, l' with
                      | [], [] => true
                      | x :: r, y :: r' => key_eqb x y && go r r'
                      | _, _ => false
                      end) l l'
  | VOther _ i, VOther _ i' => i =? i'
  | _, _ => false
  end.

(* m[k] = v on a map held as its entry list: an existing equal key is replaced,
   otherwise the entry is appended. *)
Fixpoint map_put (m : list (gval * gval)) (k v : gval) : list (gval * gval) :=
  match m with
  | [] => [(k, v)]
  | (k', v') :: r => if key_eqb k' k then (k, v) :: r else (k', v') :: map_put r k v
  end.

Lemma ukind_eqb_eq a b : ukind_eqb a b = true <-> a = b.
Proof. destruct a, b; simpl; split; congruence. Qed.
Lemma ikind_eqb_eq a b : ikind_eqb a b = true <-> a = b.
Proof. destruct a, b; simpl; split; congruence. Qed.
Lemma zlist_eqb_eq a b : zlist_eqb a b = true <-> a = b.
Proof.
  revert b; induction a as [|x a IH]; destruct b as [|y b]; simpl; split; try congruence.
  - rewrite andb_true_iff, Z.eqb_eq, IH. intros [-> ->]; reflexivity.
  - intros H; injection H as -> ->. rewrite Z.eqb_refl. simpl. apply IH; reflexivity.
Qed.
