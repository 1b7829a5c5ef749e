(* Specification vocabulary for the codec properties.  Nothing here refers to the
   encoder or decoder of CodecModel.v. *)
From Verif Require Import GoInt GoFloat GoVal.

(* --- which Go values exist: every number in the range of its type --- *)
Definition ubits (ws : wsize) (k : ukind) : Z :=
  match k with U8 => 8 | U16 => 16 | U32 => 32 | U64 => 64 | UInt | UPtr => wbits ws end.
Definition ibits (ws : wsize) (k : ikind) : Z :=
  match k with I8 => 8 | I16 => 16 | I32 => 32 | I64 => 64 | IInt => wbits ws end.

Definition small_len {A} (l : list A) : bool := Z.of_nat (length l) <? 2 ^ 32.

(* Also: strings and containers are shorter than 2^32, the limit of the format. *)
Fixpoint go_value (ws : wsize) (v : gval) : bool :=
  match v with
  | VNil => true
  | VBool _ _ => true
  | VF32 _ b => in_ub 32 b
  | VF64 _ b => in_ub 64 b
  | VUint _ k n => in_ub (ubits ws k) n
  | VInt _ k z => in_sb (ibits ws k) z
  | VStr _ s => forallb (in_ub 8) s && small_len s
  | VArr _ l => forallb (go_value ws) l && small_len l
  | VMap _ l => forallb (fun kv => go_value ws (fst kv) && go_value ws (snd kv)) l && small_len l
  | VOther _ _ => true
  end.

(* --- supported kinds, at every depth the encoder descends to --- *)
(* A NaN key (not equal to itself) hides the value stored under it. *)
Fixpoint supported (v : gval) : bool :=
  match v with
  | VArr _ l => forallb supported l
  | VMap _ l => forallb (fun kv => supported (fst kv) && (negb (key_eqb (fst kv) (fst kv)) || supported (snd kv))) l
  | VOther _ _ => false
  | _ => true
  end.

(* --- the values the decoder can produce --- *)
Fixpoint wire_universe (v : gval) : bool :=
  match v with
  | VNil => true
  | VBool t _ => t =? 0
  | VF32 t b => (t =? 0) && in_ub 32 b
  | VF64 t b => (t =? 0) && in_ub 64 b
  | VUint t k n => (t =? 0) && match k with UInt | UPtr => false | _ => in_ub (ubits W64 k) n end
  | VInt t k z => (t =? 0) && match k with IInt => false | _ => in_sb (ibits W64 k) z end
  | VStr t s => (t =? 0) && forallb (in_ub 8) s
  | VArr k l => match k with ASliceIface => true | _ => false end && forallb wire_universe l
  | VMap i l => i && forallb (fun kv => hashable (fst kv) && wire_universe (fst kv) && wire_universe (snd kv)) l
  | VOther _ _ => false
  end.

(* --- the wire format (MsgPack subset), big-endian --- *)
Definition fmt_uint (n : Z) : list Z :=
  if n <? 2 ^ 8 then 0xcc :: be_bytes 1 n
  else if n <? 2 ^ 16 then 0xcd :: be_bytes 2 n
  else if n <? 2 ^ 32 then 0xce :: be_bytes 4 n
  else 0xcf :: be_bytes 8 n.
Definition fmt_int (z : Z) : list Z :=
  if (- 2 ^ 7 <? z) && (z <? 2 ^ 7) then 0xd0 :: be_bytes 1 z
  else if (- 2 ^ 15 <? z) && (z <? 2 ^ 15) then 0xd1 :: be_bytes 2 z
  else if (- 2 ^ 31 <? z) && (z <? 2 ^ 31) then 0xd2 :: be_bytes 4 z
  else 0xd3 :: be_bytes 8 z.
Definition fmt_len (tag : Z) (n : nat) : list Z := tag :: be_bytes 4 (Z.of_nat n).
Definition fmt_f64 (b : Z) : list Z := 0xcb :: fmt_uint b.
Definition fmt_f32 (b : Z) : list Z := 0xca :: fmt_uint b.

(* inside a container, or a top level value of a type without its own case *)
Fixpoint fmt (v : gval) : list Z :=
  match v with
  | VNil => [0xc0]
  | VBool _ b => [if b then 0xc3 else 0xc2]
  | VF32 _ b => fmt_f64 (f32_widen b)
  | VF64 _ b => fmt_f64 b
  | VUint _ _ n => fmt_uint n
  | VInt _ _ z => fmt_int z
  | VStr _ s => fmt_len 0xdb (length s) ++ s
  | VArr _ l => fmt_len 0xdd (length l) ++ flat_map fmt l
  | VMap _ l => fmt_len 0xdf (length l) ++
      flat_map (fun kv => fmt (fst kv) ++ (if key_eqb (fst kv) (fst kv) then fmt (snd kv) else [0xc0])) l
  | VOther _ _ => []
  end.

(* top level: float32 keeps its own code; a sized integer never takes more bytes
   than its own type *)
Definition fmt_top (v : gval) : list Z :=
  match v with
  | VF32 0 b => fmt_f32 b
  | VInt 0 I8 z => 0xd0 :: be_bytes 1 z
  | VInt 0 I16 z => if (- 2 ^ 7 <? z) && (z <? 2 ^ 7) then 0xd0 :: be_bytes 1 z else 0xd1 :: be_bytes 2 z
  | VInt 0 I32 z => if z =? - 2 ^ 31 then 0xd2 :: be_bytes 4 z else fmt_int z
  | _ => fmt v
  end.
(* int on a 32-bit platform behaves as int32 *)
Definition fmt_top_ws (ws : wsize) (v : gval) : list Z :=
  match ws, v with
  | W32, VInt 0 IInt z => fmt_top (VInt 0 I32 z)
  | _, _ => fmt_top v
  end.

(* --- what a value becomes by crossing the wire --- *)
Definition narrow_u (n : Z) : ukind :=
  if n <? 2 ^ 8 then U8 else if n <? 2 ^ 16 then U16 else if n <? 2 ^ 32 then U32 else U64.
Definition narrow_s (z : Z) : ikind :=
  if (- 2 ^ 7 <? z) && (z <? 2 ^ 7) then I8
  else if (- 2 ^ 15 <? z) && (z <? 2 ^ 15) then I16
  else if (- 2 ^ 31 <? z) && (z <? 2 ^ 31) then I32 else I64.

Definition opt_map {A B} (f : A -> option B) : list A -> option (list B) :=
  fix go l :=
  match l with
  | [] => Some []
  | x :: r => match f x with
              | None => None
              | Some y => match go r with None => None | Some t => Some (y :: t) end
              end
  end.

(* None: decoding the encoding of this value panics.  A float whose bit pattern is
   so small that the integer code narrows is fatal; so is a map key that is not
   hashable once decoded. *)
Fixpoint wire (v : gval) : option gval :=
  match v with
  | VNil => Some VNil
  | VBool _ b => Some (VBool 0 b)
  | VF32 _ b => if f32_widen b <? 2 ^ 32 then None else Some (VF64 0 (f32_widen b))
  | VF64 _ b => if b <? 2 ^ 32 then None else Some (VF64 0 b)
  | VUint _ _ n => Some (VUint 0 (narrow_u n) n)
  | VInt _ _ z => Some (VInt 0 (narrow_s z) z)
  | VStr _ s => Some (VStr 0 s)
  | VArr _ l => match opt_map wire l with None => None | Some l' => Some (VArr ASliceIface l') end
  | VMap _ l =>
      match (fix go (l : list (gval * gval)) (m : list (gval * gval)) : option (list (gval * gval)) :=
        match l with
        | [] => Some m
        | (k, x) :: r =>
            match wire k with
            | None => None
            | Some k' =>
                match (if key_eqb k k then wire x else Some VNil) with
                | None => None
                | Some x' => if hashable k' then go r (map_put m k' x') else None
                end
            end
        end) l [] with
      | None => None
      | Some m => Some (VMap true m)
      end
  | VOther _ _ => None
  end.

Definition wire_top (ws : wsize) (v : gval) : option gval :=
  match v with
  | VF32 0 b => if b <? 2 ^ 16 then None else if b <? 2 ^ 32 then Some (VF32 0 b) else None
  | VInt 0 I8 z => Some (VInt 0 I8 z)
  | VInt 0 I16 z => Some (VInt 0 (if (- 2 ^ 7 <? z) && (z <? 2 ^ 7) then I8 else I16) z)
  | VInt 0 I32 z => Some (VInt 0 (if z =? - 2 ^ 31 then I32 else narrow_s z) z)
  | VInt 0 IInt z =>
      Some (VInt 0 (match ws with W32 => if z =? - 2 ^ 31 then I32 else narrow_s z | W64 => narrow_s z end) z)
  | _ => wire v
  end.

(* --- the reader-friendly relation: same value up to the wire's types --- *)
Inductive same_value : gval -> gval -> Prop :=
| sv_nil : same_value VNil VNil
| sv_bool t b : same_value (VBool t b) (VBool 0 b)
| sv_f32 t b : same_value (VF32 t b) (VF32 0 b)
| sv_f32w t b : same_value (VF32 t b) (VF64 0 (f32_widen b))
| sv_f64 t b : same_value (VF64 t b) (VF64 0 b)
| sv_uint t k k' n : in_u (ubits W64 k') n -> same_value (VUint t k n) (VUint 0 k' n)
| sv_int t k k' z : in_s (ibits W64 k') z -> same_value (VInt t k z) (VInt 0 k' z)
| sv_str t s : same_value (VStr t s) (VStr 0 s)
| sv_arr k l l' : Forall2 same_value l l' -> same_value (VArr k l) (VArr ASliceIface l')
| sv_map i l l' :
    Forall2 (fun a b => same_value (fst a) (fst b) /\ same_value (snd a) (snd b)) l l' ->
    same_value (VMap i l) (VMap true l').

(* No float in the value has a bit pattern on which the decoder panics; no map
   key is NaN, an array, or equal to another key after narrowing. *)
Definition float_ok (v : gval) : bool :=
  match v with
  | VF32 _ b => 2 ^ 32 <=? f32_widen b
  | VF64 _ b => 2 ^ 32 <=? b
  | _ => true
  end.
Fixpoint distinct_keys (l : list gval) : bool :=
  match l with
  | [] => true
  | k :: r => forallb (fun k' => negb (key_eqb k k')) r && distinct_keys r
  end.
Fixpoint safe (v : gval) : bool :=
  match v with
  | VArr _ l => forallb safe l
  | VMap _ l =>
      forallb (fun kv => safe (fst kv) && safe (snd kv)) l &&
      (* every key survives narrowing as a hashable, self-equal key, and the
         narrowed keys are pairwise different *)
      forallb (fun kv => match fst kv with VArr _ _ | VMap _ _ | VOther _ _ => false | _ => true end
                         && key_eqb (fst kv) (fst kv)) l &&
      match opt_map wire (map fst l) with None => false | Some ks => distinct_keys ks end
  | VOther _ _ => false
  | _ => float_ok v
  end.

(* --- the encoding cut into the pieces a decoder asks for one at a time --- *)
Definition pieces_uint (n : Z) : list (list Z) :=
  if n <? 2 ^ 8 then [[0xcc]; be_bytes 1 n]
  else if n <? 2 ^ 16 then [[0xcd]; be_bytes 2 n]
  else if n <? 2 ^ 32 then [[0xce]; be_bytes 4 n]
  else [[0xcf]; be_bytes 8 n].
Definition pieces_int (z : Z) : list (list Z) :=
  if (- 2 ^ 7 <? z) && (z <? 2 ^ 7) then [[0xd0]; be_bytes 1 z]
  else if (- 2 ^ 15 <? z) && (z <? 2 ^ 15) then [[0xd1]; be_bytes 2 z]
  else if (- 2 ^ 31 <? z) && (z <? 2 ^ 31) then [[0xd2]; be_bytes 4 z]
  else [[0xd3]; be_bytes 8 z].
Definition pieces_str (s : list Z) : list (list Z) :=
  [0xdb] :: be_bytes 4 (Z.of_nat (length s)) :: match s with [] => [] | _ => [s] end.
Fixpoint pieces (v : gval) : list (list Z) :=
  match v with
  | VNil => [[0xc0]]
  | VBool _ b => [[if b then 0xc3 else 0xc2]]
  | VF32 _ b => [0xcb] :: pieces_uint (f32_widen b)
  | VF64 _ b => [0xcb] :: pieces_uint b
  | VUint _ _ n => pieces_uint n
  | VInt _ _ z => pieces_int z
  | VStr _ s => pieces_str s
  | VArr _ l => [0xdd] :: be_bytes 4 (Z.of_nat (length l)) :: flat_map pieces l
  | VMap _ l => [0xdf] :: be_bytes 4 (Z.of_nat (length l)) ::
      flat_map (fun kv => pieces (fst kv) ++ (if key_eqb (fst kv) (fst kv) then pieces (snd kv) else [[0xc0]])) l
  | VOther _ _ => []
  end.

(* a value free of floats, at any depth *)
Fixpoint no_float (v : gval) : bool :=
  match v with
  | VF32 _ _ | VF64 _ _ => false
  | VArr _ l => forallb no_float l
  | VMap _ l => forallb (fun kv => no_float (fst kv) && no_float (snd kv)) l
  | _ => true
  end.

(* top level, see [fmt_top] *)
Definition pieces_top (ws : wsize) (v : gval) : list (list Z) :=
  let int32 z := if z =? - 2 ^ 31 then [[0xd2]; be_bytes 4 z] else pieces_int z in
  match v with
  | VF32 0 b => [0xca] :: pieces_uint b
  | VInt 0 I8 z => [[0xd0]; be_bytes 1 z]
  | VInt 0 I16 z => if (- 2 ^ 7 <? z) && (z <? 2 ^ 7) then [[0xd0]; be_bytes 1 z] else [[0xd1]; be_bytes 2 z]
  | VInt 0 I32 z => int32 z
  | VInt 0 IInt z => match ws with W32 => int32 z | W64 => pieces_int z end
  | _ => pieces v
  end.

(* the predeclared kind a top level value must have not to be refused by Decode *)
Definition safe_top (v : gval) : bool :=
  match v with VF32 0 b => 2 ^ 16 <=? b | _ => safe v end.

(* payload bytes of a wire integer code *)
Definition uwidth (k : ukind) : nat := match k with U8 => 1 | U16 => 2 | U32 => 4 | _ => 8 end.
Definition iwidth (k : ikind) : nat := match k with I8 => 1 | I16 => 2 | I32 => 4 | _ => 8 end.

(* MsgPack codes the format uses *)
Definition known_tags : list Z := [0xc0; 0xc2; 0xc3; 0xca; 0xcb; 0xcc; 0xcd; 0xce; 0xcf; 0xd0; 0xd1; 0xd2; 0xd3; 0xdb; 0xdd; 0xdf].

(* bytes an integer takes on the wire; bytes its static type would take *)
Definition usize (n : Z) : nat := if n <? 2 ^ 8 then 2 else if n <? 2 ^ 16 then 3 else if n <? 2 ^ 32 then 5 else 9.
Definition isize (z : Z) : nat :=
  if Z.abs z <? 2 ^ 7 then 2 else if Z.abs z <? 2 ^ 15 then 3 else if Z.abs z <? 2 ^ 31 then 5 else 9.
Definition own_size (ws : wsize) (k : ikind) : nat := S (Z.to_nat (ibits ws k / 8)).

(* values whose dynamic type IAny recognises *)
Definition any_native (v : gval) : bool :=
  match v with
  | VBool t _ | VStr t _ | VF32 t _ | VF64 t _ => t =? 0
  | VUint t k _ => (t =? 0) && match k with UInt | UPtr => false | _ => true end
  | VInt t k _ => (t =? 0) && match k with IInt => false | _ => true end
  | VArr ASliceIface _ => true
  | VMap i _ => i
  | _ => false
  end.
Definition scalar_value (v : gval) : bool := match v with VArr _ _ | VMap _ _ => false | _ => true end.

(* a map entry and what it becomes on the wire *)
Definition entry_wire (kv e : gval * gval) : Prop :=
  wire (fst kv) = Some (fst e) /\
  (if key_eqb (fst kv) (fst kv) then wire (snd kv) else Some VNil) = Some (snd e).
