(* Model of package codec: encoder.go, decoder.go, code.go, any.go, API.go. *)
From Verif Require Import GoInt GoFloat GoVal.

(* codec/code.go:8-40 *)
Definition cNil := 0xc0.    Definition cFalse := 0xc2.   Definition cTrue := 0xc3.
Definition cFloat32 := 0xca. Definition cFloat64 := 0xcb.
Definition cUint8 := 0xcc.  Definition cUint16 := 0xcd.
Definition cUint32 := 0xce. Definition cUint64 := 0xcf.
Definition cInt8 := 0xd0.   Definition cInt16 := 0xd1.
Definition cInt32 := 0xd2.  Definition cInt64 := 0xd3.
Definition cStr32 := 0xdb.  Definition cArr32 := 0xdd.   Definition cMap32 := 0xdf.

(* codec/code.go:42-56; 2 << (8-1) etc. *)
Definition cUint8Max := Z.shiftl 2 (8 - 1).
Definition cUint16Max := Z.shiftl 2 (16 - 1).
Definition cUint32Max := Z.shiftl 2 (32 - 1).
Definition cInt8Max := Z.shiftl 2 (8 - 2).
Definition cInt8Min := - cInt8Max.
Definition cInt16Max := Z.shiftl 2 (16 - 2).
Definition cInt16Min := - cInt16Max.
Definition cInt32Max := Z.shiftl 2 (32 - 2).
Definition cInt32Min := - cInt32Max.

(* The error a codec function returns; None is nil. *)
Inductive eerr := EWrite | EUnsupported.

(* ------------------------------------------------------------------ *)
(* Encoder, over an arbitrary io.Writer: [wr bs w] is writer.Write(bs), giving
   whether the error is nil and the writer's new state.  The byte counts n that
   the Go functions also return are discarded by IAny.Encode (any.go:247) and are
   not modelled. *)
Section Encoder.
Context {W : Type} (wr : list Z -> W -> bool * W).

Definition wres : Type := option eerr * W.

(* return writer.Write(bs) *)
Definition write (bs : list Z) (w : W) : wres :=
  let (ok, w') := wr bs w in (if ok then None else Some EWrite, w').

(* "if nil != err { return }" sequencing *)
Definition andThen (x : wres) (k : W -> wres) : wres :=
  match x with (None, w) => k w | (Some e, w) => (Some e, w) end.

(* encoder.go:16-18 *)
Definition encodeNil (w : W) : wres := write [cNil] w.

(* encoder.go:20-26 *)
Definition encodeBool (b : bool) (w : W) : wres :=
  if b then write [cTrue] w else write [cFalse] w.

(* encoder.go:38-40 *)
Definition encodeUint8 (v : Z) (w : W) : wres := write [cUint8; byte_of v] w.

(* encoder.go:42-48 *)
Definition encodeUint16 (v : Z) (w : W) : wres :=
  if v <? cUint8Max then encodeUint8 (uwrap 8 v) w
  else write [cUint16; byte_of (Z.shiftr v 8); byte_of v] w.

(* encoder.go:50-56 *)
Definition encodeUint32 (v : Z) (w : W) : wres :=
  if v <? cUint16Max then encodeUint16 (uwrap 16 v) w
  else write [cUint32; byte_of (Z.shiftr v 24); byte_of (Z.shiftr v 16);
              byte_of (Z.shiftr v 8); byte_of v] w.

(* encoder.go:58-64 *)
Definition encodeUint64 (v : Z) (w : W) : wres :=
  if v <? cUint32Max then encodeUint32 (uwrap 32 v) w
  else write [cUint64; byte_of (Z.shiftr v 56); byte_of (Z.shiftr v 48);
              byte_of (Z.shiftr v 40); byte_of (Z.shiftr v 32);
              byte_of (Z.shiftr v 24); byte_of (Z.shiftr v 16);
              byte_of (Z.shiftr v 8); byte_of v] w.

(* encoder.go:66-75; the reinterpreting pointer cast is the identity at equal
   size; the os.ErrNotExist branch is unreachable for sizes 4 and 8. *)
Definition encodeUint (ws : wsize) (v : Z) (w : W) : wres :=
  match ws with W32 => encodeUint32 v w | W64 => encodeUint64 v w end.

(* encoder.go:28-31: the error of the first Write is ignored *)
Definition encodeFloat32 (bits : Z) (w : W) : wres :=
  let (_, w') := wr [cFloat32] w in encodeUint32 bits w'.

(* encoder.go:33-36 *)
Definition encodeFloat64 (bits : Z) (w : W) : wres :=
  let (_, w') := wr [cFloat64] w in encodeUint64 bits w'.

(* encoder.go:77-79 *)
Definition encodeInt8 (v : Z) (w : W) : wres := write [cInt8; byte_of v] w.

(* encoder.go:81-87 *)
Definition encodeInt16 (v : Z) (w : W) : wres :=
  if (cInt8Min <? v) && (v <? cInt8Max) then encodeInt8 (swrap 8 v) w
  else write [cInt16; byte_of (Z.shiftr (uwrap 16 v) 8); byte_of v] w.

(* encoder.go:89-95 *)
Definition encodeInt32 (v : Z) (w : W) : wres :=
  if (cInt16Min <? v) && (v <? cInt16Max) then encodeInt16 (swrap 16 v) w
  else write [cInt32; byte_of (Z.shiftr (uwrap 32 v) 24); byte_of (Z.shiftr (uwrap 32 v) 16);
              byte_of (Z.shiftr (uwrap 32 v) 8); byte_of v] w.

(* encoder.go:97-103 *)
Definition encodeInt64 (v : Z) (w : W) : wres :=
  if (cInt32Min <? v) && (v <? cInt32Max) then encodeInt32 (swrap 32 v) w
  else write [cInt64; byte_of (Z.shiftr (uwrap 64 v) 56); byte_of (Z.shiftr (uwrap 64 v) 48);
              byte_of (Z.shiftr (uwrap 64 v) 40); byte_of (Z.shiftr (uwrap 64 v) 32);
              byte_of (Z.shiftr (uwrap 64 v) 24); byte_of (Z.shiftr (uwrap 64 v) 16);
              byte_of (Z.shiftr (uwrap 64 v) 8); byte_of v] w.

(* encoder.go:105-114 *)
Definition encodeInt (ws : wsize) (v : Z) (w : W) : wres :=
  match ws with W32 => encodeInt32 v w | W64 => encodeInt64 v w end.

(* the five-byte headers of encoder.go:119,130,150 *)
Definition header (c len : Z) : list Z :=
  [c; byte_of (Z.shiftr len 24); byte_of (Z.shiftr len 16); byte_of (Z.shiftr len 8); byte_of len].

(* encoder.go:116-126 *)
Definition encodeString (s : list Z) (w : W) : wres :=
  andThen (write (header cStr32 (Z.of_nat (length s))) w) (fun w1 => write s w1).

(* encoder.go:172-202, with encodeArray (128-145) and encodeMap (147-170) inlined
   as the two inner loops.  The reflect.Interface case (192-198) is the identity
   on this representation of interface-typed elements.  encodeMap looks each key
   up again with value.MapIndex(k): for a key equal to itself that is the entry's
   own value (keys of a Go map are distinct); for a key not equal to itself (NaN)
   it is the invalid Value, encoded as nil. *)
Fixpoint encodeValue (v : gval) (w : W) {struct v} : wres :=
  match v with
  | VNil => encodeNil w
  | VBool _ b => encodeBool b w
  | VF32 _ bits => encodeFloat64 (f32_widen bits) w
  | VF64 _ bits => encodeFloat64 bits w
  | VUint _ _ n => encodeUint64 n w
  | VInt _ _ z => encodeInt64 z w
  | VStr _ s => encodeString s w
  | VArr _ l =>
      andThen (write (header cArr32 (Z.of_nat (length l))) w)
        ((fix loop (l : list gval) (w : W) {struct l} : wres :=
            match l with
            | [] => (None, w)
            | x :: r => andThen (encodeValue x w) (loop r)
            end) l)
  | VMap _ l =>
      andThen (write (header cMap32 (Z.of_nat (length l))) w)
        ((fix loop (l : list (gval * gval)) (w : W) {struct l} : wres :=
            match l with
            | [] => (None, w)
            | (k, x) :: r =>
                andThen (encodeValue k w) (fun w1 =>
                andThen (if key_eqb k k then encodeValue x w1 else encodeNil w1) (loop r))
            end) l)
  | VOther _ _ => (Some EUnsupported, w)
  end.

(* encoder.go:204-243: the type switch matches predeclared types only; uintptr
   and everything else goes through reflection. *)
Definition encode (ws : wsize) (v : gval) (w : W) : wres :=
  match v with
  | VNil => encodeNil w
  | VBool t b => if t =? 0 then encodeBool b w else encodeValue v w
  | VF32 t bits => if t =? 0 then encodeFloat32 bits w else encodeValue v w
  | VF64 t bits => if t =? 0 then encodeFloat64 bits w else encodeValue v w
  | VUint t k n =>
      if t =? 0 then
        match k with
        | U8 => encodeUint8 n w
        | U16 => encodeUint16 n w
        | U32 => encodeUint32 n w
        | U64 => encodeUint64 n w
        | UInt => encodeUint ws n w
        | UPtr => encodeValue v w
        end
      else encodeValue v w
  | VInt t k z =>
      if t =? 0 then
        match k with
        | I8 => encodeInt8 z w
        | I16 => encodeInt16 z w
        | I32 => encodeInt32 z w
        | I64 => encodeInt64 z w
        | IInt => encodeInt ws z w
        end
      else encodeValue v w
  | VStr t s => if t =? 0 then encodeString s w else encodeValue v w
  | _ => encodeValue v w
  end.
End Encoder.

(* The io.Writer of codec/encoder.go in serializer.go and in codec/API_test.go. *)
(* bytes.Buffer as a writer: Write appends and never fails. *)
Definition buf_wr (bs : list Z) (w : list Z) : bool * list Z := (true, w ++ bs).

(* ------------------------------------------------------------------ *)
(* Decoder, over an arbitrary io.Reader: [rd n r] is reader.Read(buf) with
   len(buf) = n: None is a non-nil error, Some bs the bytes stored (at most n). *)
Section Decoder.
Context {R : Type} (rd : Z -> R -> option (list Z) * R).

(* DErr carries what a.s is set to (any.go:253) and the reader; DPanic is a Go
   run-time panic; DFuel cannot happen with enough fuel (proved). *)
Inductive dres (A : Type) : Type :=
| DOk (a : A) (r : R)
| DErr (dflt : gval) (r : R)
| DPanic
| DFuel.
Arguments DOk {A}. Arguments DErr {A}. Arguments DPanic {A}. Arguments DFuel {A}.

Definition dbind {A B} (x : dres A) (k : A -> R -> dres B) : dres B :=
  match x with
  | DOk a r => k a r
  | DErr d r => DErr VNil r
  | DPanic => DPanic
  | DFuel => DFuel
  end.

(* data[i] of the zero-initialised array the bytes were read into *)
Definition at_ (bs : list Z) (i : nat) : Z := nth i bs 0.

(* decoder.go:15-23 *)
Definition readByte (r : R) : dres Z :=
  match rd 1 r with
  | (None, r') => DErr VNil r'
  | (Some d, r') => DOk (at_ d 0) r'
  end.

(* decoder.go:25-33 *)
Definition readUint16 (r : R) : dres Z :=
  match rd 2 r with
  | (None, r') => DErr VNil r'
  | (Some d, r') => DOk (Z.lor (Z.shiftl (at_ d 0) 8) (at_ d 1)) r'
  end.

(* decoder.go:35-43 *)
Definition readUint32 (r : R) : dres Z :=
  match rd 4 r with
  | (None, r') => DErr VNil r'
  | (Some d, r') =>
      DOk (Z.lor (Z.lor (Z.lor (Z.shiftl (at_ d 0) 24) (Z.shiftl (at_ d 1) 16))
                        (Z.shiftl (at_ d 2) 8)) (at_ d 3)) r'
  end.

(* decoder.go:45-53 *)
Definition readUint64 (r : R) : dres Z :=
  match rd 8 r with
  | (None, r') => DErr VNil r'
  | (Some d, r') =>
      DOk (Z.lor (Z.lor (Z.lor (Z.lor (Z.lor (Z.lor (Z.lor
             (Z.shiftl (at_ d 0) 56) (Z.shiftl (at_ d 1) 48)) (Z.shiftl (at_ d 2) 40))
             (Z.shiftl (at_ d 3) 32)) (Z.shiftl (at_ d 4) 24)) (Z.shiftl (at_ d 5) 16))
             (Z.shiftl (at_ d 6) 8)) (at_ d 7)) r'
  end.

(* decoder.go:55-63; int16(x) << 8 wraps, and | on signed integers is Z.lor *)
Definition readInt16 (r : R) : dres Z :=
  match rd 2 r with
  | (None, r') => DErr VNil r'
  | (Some d, r') => DOk (Z.lor (swrap 16 (Z.shiftl (at_ d 0) 8)) (at_ d 1)) r'
  end.

(* decoder.go:65-73 *)
Definition readInt32 (r : R) : dres Z :=
  match rd 4 r with
  | (None, r') => DErr VNil r'
  | (Some d, r') =>
      DOk (Z.lor (Z.lor (Z.lor (swrap 32 (Z.shiftl (at_ d 0) 24)) (Z.shiftl (at_ d 1) 16))
                        (Z.shiftl (at_ d 2) 8)) (at_ d 3)) r'
  end.

(* decoder.go:75-83 *)
Definition readInt64 (r : R) : dres Z :=
  match rd 8 r with
  | (None, r') => DErr VNil r'
  | (Some d, r') =>
      DOk (Z.lor (Z.lor (Z.lor (Z.lor (Z.lor (Z.lor (Z.lor
             (swrap 64 (Z.shiftl (at_ d 0) 56)) (Z.shiftl (at_ d 1) 48)) (Z.shiftl (at_ d 2) 40))
             (Z.shiftl (at_ d 3) 32)) (Z.shiftl (at_ d 4) 24)) (Z.shiftl (at_ d 5) 16))
             (Z.shiftl (at_ d 6) 8)) (at_ d 7)) r'
  end.

(* a decoded scalar: readX, then "return data, nil" *)
Definition dmap {A B} (f : A -> B) (x : dres A) : dres B := dbind x (fun a r => DOk (f a) r).

(* decoder.go:121-264 (decode), 85-98 (decodeArray), 100-119 (decodeMap).  One
   unit of fuel per call and per loop iteration.  A count read from the wire stays
   a Z.  A failed nested array/map makes decode return a typed nil slice/map
   beside the error (lines 250, 259), hence the [DErr] values. *)
Fixpoint decode (fuel : nat) (r : R) {struct fuel} : dres gval :=
  match fuel with
  | O => DFuel
  | S f =>
      dbind (readByte r) (fun c r =>
      if c =? cNil then DOk VNil r
      else if c =? cFalse then DOk (VBool 0 false) r
      else if c =? cTrue then DOk (VBool 0 true) r
      else if c =? cFloat32 then
        dbind (decode f r) (fun d r =>
          match d with VUint 0 U32 n => DOk (VF32 0 n) r | _ => DPanic end)
      else if c =? cFloat64 then
        dbind (decode f r) (fun d r =>
          match d with VUint 0 U64 n => DOk (VF64 0 n) r | _ => DPanic end)
      else if c =? cUint8 then dmap (VUint 0 U8) (readByte r)
      else if c =? cUint16 then dmap (VUint 0 U16) (readUint16 r)
      else if c =? cUint32 then dmap (VUint 0 U32) (readUint32 r)
      else if c =? cUint64 then dmap (VUint 0 U64) (readUint64 r)
      else if c =? cInt8 then dmap (fun b => VInt 0 I8 (swrap 8 b)) (readByte r)
      else if c =? cInt16 then dmap (VInt 0 I16) (readInt16 r)
      else if c =? cInt32 then dmap (VInt 0 I32) (readInt32 r)
      else if c =? cInt64 then dmap (VInt 0 I64) (readInt64 r)
      else if c =? cStr32 then
        dbind (readUint32 r) (fun n r =>
          if n =? 0 then DOk (VStr 0 []) r
          else match rd n r with
               | (None, r') => DErr VNil r'
               | (Some d, r') =>
                   DOk (VStr 0 (d ++ repeat 0 (Z.to_nat (n - Z.of_nat (length d))))) r'
               end)
      else if c =? cArr32 then
        dbind (readUint32 r) (fun n r =>
          match decodeArray f n r with
          | DOk l r' => DOk (VArr ASliceIface l) r'
          | DErr _ r' => DErr (VArr ASliceIface []) r'
          | DPanic => DPanic
          | DFuel => DFuel
          end)
      else if c =? cMap32 then
        dbind (readUint32 r) (fun n r =>
          match decodeMap f n [] r with
          | DOk m r' => DOk (VMap true m) r'
          | DErr _ r' => DErr (VMap true []) r'
          | DPanic => DPanic
          | DFuel => DFuel
          end)
      else DErr VNil r)
  end
with decodeArray (fuel : nat) (n : Z) (r : R) {struct fuel} : dres (list gval) :=
  match fuel with
  | O => DFuel
  | S f =>
      if n <=? 0 then DOk [] r
      else dbind (decode f r) (fun v r =>
           dbind (decodeArray f (n - 1) r) (fun l r => DOk (v :: l) r))
  end
with decodeMap (fuel : nat) (n : Z) (m : list (gval * gval)) (r : R) {struct fuel}
  : dres (list (gval * gval)) :=
  match fuel with
  | O => DFuel
  | S f =>
      if n <=? 0 then DOk m r
      else dbind (decode f r) (fun k r =>
           dbind (decode f r) (fun v r =>
           if hashable k then decodeMap f (n - 1) (map_put m k v) r else DPanic))
  end.
End Decoder.
Arguments DOk {R A}. Arguments DErr {R A}. Arguments DPanic {R A}. Arguments DFuel {R A}.

(* The io.Reader of codec/decoder.go in serializer.go. *)
(* bytes.Buffer.Read / bytes.Reader.Read with a non-empty destination: io.EOF on
   an empty buffer, otherwise as many bytes as there are, up to n, and no error. *)
Definition buf_rd (n : Z) (b : list Z) : option (list Z) * list Z :=
  match b with
  | [] => (None, [])
  | _ => let k := Z.to_nat (Z.min n (Z.of_nat (length b))) in
         (Some (firstn k b), skipn k b)
  end.

(* Enough fuel for any input of this length (proved in CodecProof.v). *)
Definition buf_fuel (b : list Z) : nat := S (S (length b)).
(* decode, codec/decoder.go:121-264, on such a buffer *)
Definition bdecode (b : list Z) : dres gval := decode buf_rd (buf_fuel b) b.

(* The io.Reader of codec/decoder.go:15-120 in general. *)
(* A reader that hands out the given chunks one Read at a time (io.Reader
   contract: 0 < k <= n bytes), EOF when none is left. *)
Fixpoint chunk_rd (n : Z) (cs : list (list Z)) : option (list Z) * list (list Z) :=
  match cs with
  | [] => (None, [])
  | [] :: r => chunk_rd n r
  | c :: r =>
      let k := Z.to_nat (Z.min n (Z.of_nat (length c))) in
      (Some (firstn k c), match skipn k c with [] => r | t => t :: r end)
  end.
(* decode, codec/decoder.go:121-264, on such a reader *)
Definition cdecode (cs : list (list Z)) : dres gval :=
  decode chunk_rd (buf_fuel (concat cs)) cs.

(* The io.Writer of codec/encoder.go in general. *)
(* A writer whose i-th Write fails after storing the first k bytes if the i-th
   element of the schedule is Some k (after the schedule, all writes succeed). *)
Definition flaky : Type := list (option nat) * list Z.
Definition flaky_wr (bs : list Z) (w : flaky) : bool * flaky :=
  match w with
  | (Some k :: s, out) => (false, (s, out ++ firstn k bs))
  | (None :: s, out) => (true, (s, out ++ bs))
  | ([], out) => (true, ([], out ++ bs))
  end.

(* ------------------------------------------------------------------ *)
(* any.go:15-31 *)
Definition aNil := 0x00.   Definition aBool := 0x01.   Definition aString := 0x02.
Definition aInt8 := 0x03.  Definition aUint8 := 0x04.  Definition aInt16 := 0x05.
Definition aUint16 := 0x06. Definition aInt32 := 0x07. Definition aUint32 := 0x08.
Definition aInt64 := 0x0a. Definition aUint64 := 0x0b. Definition aFloat32 := 0x0c.
Definition aFloat64 := 0x0d. Definition aArr := 0x0e.  Definition aMap := 0x0f.

(* any.go:33-36 *)
Record any := mkAny { a_s : gval; a_tp : Z }.

(* any.go:263-302.  For a predeclared type only (t = 0); int, uint, uintptr,
   defined types and unsupported kinds leave tp as it was. *)
Definition normalize (a : any) : any :=
  let tp0 := match a_s a with VNil => aNil | _ => a_tp a end in
  let tp1 :=
    match a_s a with
    | VBool t _ => if t =? 0 then aBool else tp0
    | VStr t _ => if t =? 0 then aString else tp0
    | VInt t k _ =>
        if t =? 0 then
          match k with I8 => aInt8 | I16 => aInt16 | I32 => aInt32 | I64 => aInt64 | IInt => tp0 end
        else tp0
    | VUint t k _ =>
        if t =? 0 then
          match k with U8 => aUint8 | U16 => aUint16 | U32 => aUint32 | U64 => aUint64
                     | UInt => tp0 | UPtr => tp0 end
        else tp0
    | VF32 t _ => if t =? 0 then aFloat32 else tp0
    | VF64 t _ => if t =? 0 then aFloat64 else tp0
    | VArr _ _ => aArr
    | VMap _ _ => aMap
    | VNil | VOther _ _ => tp0
    end in
  mkAny (a_s a) tp1.

(* API.go:72-77 *)
Definition NewAny (v : gval) : any := normalize (mkAny v aNil).

(* Result of an accessor: value, non-nil error, or panic of a type assertion. *)
Inductive ares (A : Type) : Type := AOk (a : A) | AErr | APanic.
Arguments AOk {A}. Arguments AErr {A}. Arguments APanic {A}.

(* any.go:38-40 *)
Definition acc_Any (a : any) : gval := a_s a.

(* any.go:42-48 *)
Definition acc_Bool (a : any) : ares bool :=
  if a_tp a =? aBool then match a_s a with VBool 0 b => AOk b | _ => APanic end else AErr.

(* any.go:50-56 *)
Definition acc_String (a : any) : ares (list Z) :=
  if a_tp a =? aString then match a_s a with VStr 0 s => AOk s | _ => APanic end else AErr.

(* any.go:58-131: Int (w = word size), Int8, Int16, Int32, Int64 (w = 8..64) have
   the same body; intW(x) truncates to w bits. *)
Definition acc_IntW (w : Z) (a : any) : ares Z :=
  if a_tp a =? aInt8 then match a_s a with VInt 0 I8 z => AOk (swrap w z) | _ => APanic end
  else if a_tp a =? aInt16 then match a_s a with VInt 0 I16 z => AOk (swrap w z) | _ => APanic end
  else if a_tp a =? aInt32 then match a_s a with VInt 0 I32 z => AOk (swrap w z) | _ => APanic end
  else if a_tp a =? aInt64 then match a_s a with VInt 0 I64 z => AOk (swrap w z) | _ => APanic end
  else AErr.
Definition acc_Int (ws : wsize) := acc_IntW (wbits ws).
Definition acc_Int8 := acc_IntW 8.    Definition acc_Int16 := acc_IntW 16.
Definition acc_Int32 := acc_IntW 32.  Definition acc_Int64 := acc_IntW 64.

(* any.go:133-206: Uint, Uint8, Uint16, Uint32, Uint64 *)
Definition acc_UintW (w : Z) (a : any) : ares Z :=
  if a_tp a =? aUint8 then match a_s a with VUint 0 U8 n => AOk (uwrap w n) | _ => APanic end
  else if a_tp a =? aUint16 then match a_s a with VUint 0 U16 n => AOk (uwrap w n) | _ => APanic end
  else if a_tp a =? aUint32 then match a_s a with VUint 0 U32 n => AOk (uwrap w n) | _ => APanic end
  else if a_tp a =? aUint64 then match a_s a with VUint 0 U64 n => AOk (uwrap w n) | _ => APanic end
  else AErr.
Definition acc_Uint (ws : wsize) := acc_UintW (wbits ws).
Definition acc_Uint8 := acc_UintW 8.    Definition acc_Uint16 := acc_UintW 16.
Definition acc_Uint32 := acc_UintW 32.  Definition acc_Uint64 := acc_UintW 64.

(* any.go:208-217; results are bit patterns *)
Definition acc_Float32 (a : any) : ares Z :=
  if a_tp a =? aFloat32 then match a_s a with VF32 0 b => AOk b | _ => APanic end
  else if a_tp a =? aFloat64 then match a_s a with VF64 0 b => AOk (f64_narrow b) | _ => APanic end
  else AErr.

(* any.go:219-228 *)
Definition acc_Float64 (a : any) : ares Z :=
  if a_tp a =? aFloat32 then match a_s a with VF32 0 b => AOk (f32_widen b) | _ => APanic end
  else if a_tp a =? aFloat64 then match a_s a with VF64 0 b => AOk b | _ => APanic end
  else AErr.

(* any.go:230-236: a.s.([]interface{}) *)
Definition acc_Arr (a : any) : ares (list gval) :=
  if a_tp a =? aArr then match a_s a with VArr ASliceIface l => AOk l | _ => APanic end else AErr.

(* any.go:238-244: a.s.(map[interface{}]interface{}) *)
Definition acc_Map (a : any) : ares (list (gval * gval)) :=
  if a_tp a =? aMap then match a_s a with VMap true l => AOk l | _ => APanic end else AErr.

(* The accessors of interface IAny that can fail (API.go:14-62), by name; the result
   is put back into an interface value. *)
Inductive accessor :=
| GetBool | GetString | GetInt | GetInt8 | GetInt16 | GetInt32 | GetInt64
| GetUint | GetUint8 | GetUint16 | GetUint32 | GetUint64
| GetFloat32 | GetFloat64 | GetArr | GetMap.

Definition amap {A B} (f : A -> B) (x : ares A) : ares B :=
  match x with AOk a => AOk (f a) | AErr => AErr | APanic => APanic end.

Definition access (ws : wsize) (c : accessor) (a : any) : ares gval :=
  match c with
  | GetBool => amap (VBool 0) (acc_Bool a)
  | GetString => amap (VStr 0) (acc_String a)
  | GetInt => amap (VInt 0 IInt) (acc_Int ws a)
  | GetInt8 => amap (VInt 0 I8) (acc_Int8 a)
  | GetInt16 => amap (VInt 0 I16) (acc_Int16 a)
  | GetInt32 => amap (VInt 0 I32) (acc_Int32 a)
  | GetInt64 => amap (VInt 0 I64) (acc_Int64 a)
  | GetUint => amap (VUint 0 UInt) (acc_Uint ws a)
  | GetUint8 => amap (VUint 0 U8) (acc_Uint8 a)
  | GetUint16 => amap (VUint 0 U16) (acc_Uint16 a)
  | GetUint32 => amap (VUint 0 U32) (acc_Uint32 a)
  | GetUint64 => amap (VUint 0 U64) (acc_Uint64 a)
  | GetFloat32 => amap (VF32 0) (acc_Float32 a)
  | GetFloat64 => amap (VF64 0) (acc_Float64 a)
  | GetArr => amap (VArr ASliceIface) (acc_Arr a)
  | GetMap => amap (VMap true) (acc_Map a)
  end.

(* any.go:246-249 *)
Definition any_encode {W} (wr : list Z -> W -> bool * W) (ws : wsize) (a : any) (w : W)
  : option eerr * W := encode wr ws (a_s a) w.

(* any.go:251-261.  Result: new object, error flag and reader; None is a panic. *)
Inductive decres (R : Type) : Type :=
| DecOk (a : any) (r : R)
| DecErr (a : any) (r : R)
| DecPanic
| DecFuel.
Arguments DecOk {R}. Arguments DecErr {R}. Arguments DecPanic {R}. Arguments DecFuel {R}.

Definition any_decode_with {R} (a : any) (d : dres (R:=R) gval) : decres R :=
  match d with
  | DOk v r => DecOk (normalize (mkAny v (a_tp a))) r
  | DErr v r => DecErr (mkAny v (a_tp a)) r
  | DPanic => DecPanic
  | DFuel => DecFuel
  end.

(* codec/any.go:251-261 *)
(* Decode from a bytes.Buffer / bytes.Reader *)
Definition any_decode (a : any) (b : list Z) : decres (list Z) := any_decode_with a (bdecode b).
(* codec/any.go:251-261 on any reader *)
Definition any_decode_chunks (a : any) (cs : list (list Z)) : decres (list (list Z)) :=
  any_decode_with a (cdecode cs).
