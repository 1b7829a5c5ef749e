(* Model of protocol.go and serializer.go. *)
From Verif Require Import GoInt GoFloat GoVal CodecModel.

Definition bytes := list Z.

(* protocol.go:16-24 *)
Definition idError := 0x0.            Definition idHeartbeat := 0x1.
Definition idReady := 0x2.            Definition idRegisterRequest := 0x3.
Definition idRegisterResponse := 0x4. Definition idQueryRequest := 0x5.
Definition idQueryResponse := 0x6.    Definition idRpcRequest := 0x7.
Definition idRpcResponse := 0x8.

(* protocol.go:53-55, 73-74, 85-87, 114-116, 143-145, 163-165, 183-185, 203-209,
   292-298: the message structs.  A nil argument slice is the empty list (the
   encoder does not distinguish them). *)
Inductive proto :=
| PError (e : bytes)
| PHeartbeat
| PReady (slots : list bytes)
| PRegisterRequest (slots : list bytes)
| PRegisterResponse (port : Z)
| PQueryRequest (slot : bytes)
| PQueryResponse (addr : bytes)
| PRpcRequest (index : Z) (slot method : bytes) (args : list gval) (withResult : bool)
| PRpcResponse (index : Z) (slot method : bytes) (result : list gval) (err : bytes).

(* serializer.go:16-19 *)
Record packer := mkPacker { p_id : Z; p_p : proto }.

(* Go type number used for the defined type cProtoType (protocol.go:13) *)
Definition tProtoType := 1.

Section WithPlatform.
Variable ws : wsize.

(* codec.NewAny(v).Encode(writer) on a bytes.Buffer *)
Definition put (v : gval) (w : bytes) : option eerr * bytes := any_encode buf_wr ws (NewAny v) w.

(* []string as a value *)
Definition strings (l : list bytes) : gval := VArr ASliceOther (map (VStr 0) l).

(* protocol.go:57-59, 76-78, 89-91, 118-120, 147-149, 167-169, 187-189, 211-238,
   300-327: the Marshal methods *)
Definition proto_marshal (p : proto) (w : bytes) : option eerr * bytes :=
  match p with
  | PError e => put (VStr 0 e) w
  | PHeartbeat => (None, w)
  | PReady l => put (strings l) w
  | PRegisterRequest l => put (strings l) w
  | PRegisterResponse n => put (VInt 0 IInt n) w
  | PQueryRequest s => put (VStr 0 s) w
  | PQueryResponse s => put (VStr 0 s) w
  | PRpcRequest i s m a r =>
      andThen (put (VInt 0 I64 i) w) (fun w =>
      andThen (put (VStr 0 s) w) (fun w =>
      andThen (put (VStr 0 m) w) (fun w =>
      andThen (put (VArr ASliceIface a) w) (fun w =>
      put (VBool 0 r) w))))
  | PRpcResponse i s m a e =>
      andThen (put (VInt 0 I64 i) w) (fun w =>
      andThen (put (VStr 0 s) w) (fun w =>
      andThen (put (VStr 0 m) w) (fun w =>
      andThen (put (VArr ASliceIface a) w) (fun w =>
      put (VStr 0 e) w))))
  end.

(* The (value, error) results of the Unmarshal methods of protocol.go. *)
(* Result of an Unmarshal step: value and remaining input, non-nil error, panic.
   [UFuel] is the model's own "decoder ran out of fuel", never reached. *)
Inductive ures (A : Type) : Type := UOk (x : A) (r : bytes) | UErr | UPanic | UFuel.
Arguments UOk {A}. Arguments UErr {A}. Arguments UPanic {A}. Arguments UFuel {A}.

(* if err != nil { return err }, as after each Decode of protocol.go *)
Definition ubind {A B} (x : ures A) (k : A -> bytes -> ures B) : ures B :=
  match x with UOk a r => k a r | UErr => UErr | UPanic => UPanic | UFuel => UFuel end.

(* err = any.Decode(reader); if err return err; x, err = any.Get(); if err return err *)
Definition field {A} (get : any -> ares A) (a : any) (b : bytes) : ures (A * any) :=
  match any_decode a b with
  | DecOk a' r => match get a' with AOk x => UOk (x, a') r | AErr => UErr | APanic => UPanic end
  | DecErr _ _ => UErr
  | DecPanic => UPanic
  | DecFuel => UFuel
  end.

(* protocol.go:105-108 and 134-137: iv.(string) for each element *)
Fixpoint as_strings (l : list gval) : option (list bytes) :=
  match l with
  | [] => Some []
  | VStr 0 s :: r => match as_strings r with Some t => Some (s :: t) | None => None end
  | _ => None
  end.

Definition unmarshal_slots (mk : list bytes -> proto) (b : bytes) : ures proto :=
  ubind (field acc_Arr (NewAny VNil) b) (fun x r =>
    match as_strings (fst x) with Some l => UOk (mk l) r | None => UPanic end).
Definition unmarshal_string (mk : bytes -> proto) (b : bytes) : ures proto :=
  ubind (field acc_String (NewAny VNil) b) (fun x r => UOk (mk (fst x)) r).

(* protoMaker, protocol.go:27-50, composed with the Unmarshal methods at 61-70,
   80-82, 93-111, 122-140, 151-160, 171-180, 191-200, 240-289, 329-378.  An id
   without a maker gives a nil IProto; calling Unmarshal on it panics. *)
Definition proto_unmarshal (id : Z) (b : bytes) : ures proto :=
  if id =? idError then unmarshal_string PError b
  else if id =? idHeartbeat then UOk PHeartbeat b
  else if id =? idRegisterRequest then unmarshal_slots PRegisterRequest b
  else if id =? idRegisterResponse then
    ubind (field (acc_Int ws) (NewAny VNil) b) (fun x r => UOk (PRegisterResponse (fst x)) r)
  else if id =? idReady then unmarshal_slots PReady b
  else if id =? idQueryRequest then unmarshal_string PQueryRequest b
  else if id =? idQueryResponse then unmarshal_string PQueryResponse b
  else if id =? idRpcRequest then
    ubind (field acc_Int64 (NewAny VNil) b) (fun i r =>
    ubind (field acc_String (snd i) r) (fun s r =>
    ubind (field acc_String (snd s) r) (fun m r =>
    ubind (field acc_Arr (snd m) r) (fun a r =>
    ubind (field acc_Bool (snd a) r) (fun w r =>
    UOk (PRpcRequest (fst i) (fst s) (fst m) (fst a) (fst w)) r)))))
  else if id =? idRpcResponse then
    ubind (field acc_Int64 (NewAny VNil) b) (fun i r =>
    ubind (field acc_String (snd i) r) (fun s r =>
    ubind (field acc_String (snd s) r) (fun m r =>
    ubind (field acc_Arr (snd m) r) (fun a r =>
    ubind (field acc_String (snd a) r) (fun e r =>
    UOk (PRpcResponse (fst i) (fst s) (fst m) (fst a) (fst e)) r)))))
  else UPanic.

(* Result of the serializer: log.Fatal ends the process, a panic in the calling
   goroutine ends it as well. *)
Inductive sres (A : Type) : Type := SOk (x : A) | SFatal | SPanic | SFuel.
Arguments SOk {A}. Arguments SFatal {A}. Arguments SPanic {A}. Arguments SFuel {A}.

(* serializer.go:31-65 for obj of type *packer (any other type is log.Fatal) *)
Definition marshal (p : packer) : sres bytes :=
  match put (VUint tProtoType U8 (p_id p)) [] with
  | (Some _, _) => SFatal
  | (None, w) =>
      match proto_marshal (p_p p) w with
      | (Some _, _) => SFatal
      | (None, data) =>
          let length := Z.of_nat (length data) in
          let header := [byte_of length; byte_of (Z.shiftr length 8);
                         byte_of (Z.shiftr length 16); byte_of (Z.shiftr length 24)] in
          SOk (header ++ data)
      end
  end.

(* int(d[0]) | int(d[1])<<8 | int(d[2])<<16 | int(d[3])<<24, at the platform's int *)
Definition header_length (d : bytes) : Z :=
  let int x := swrap (wbits ws) x in
  Z.lor (Z.lor (Z.lor (int (nth 0 d 0)) (int (Z.shiftl (nth 1 d 0) 8)))
    (int (Z.shiftl (nth 2 d 0) 16))) (int (Z.shiftl (nth 3 d 0) 24)).

(* serializer.go:98-109 *)
Definition slice (source : bytes) : Z :=
  if Z.of_nat (length source) <? 4 then 0
  else let total := swrap (wbits ws) (4 + header_length source) in
       if Z.of_nat (length source) <? total then 0 else total.

(* serializer.go:67-96.  data[i] and data[4:4+length] panic out of bounds. *)
Definition unmarshal (data : bytes) : sres packer :=
  if Z.of_nat (length data) <? 4 then SPanic
  else
    let hi := swrap (wbits ws) (4 + header_length data) in
    if (hi <? 4) || (Z.of_nat (length data) <? hi) then SPanic
    else
      let body := firstn (Z.to_nat (hi - 4)) (skipn 4 data) in
      match field acc_Uint8 (NewAny VNil) body with
      | UErr => SFatal
      | UPanic => SPanic
      | UFuel => SFuel
      | UOk (id, _) r =>
          match proto_unmarshal id r with
          | UOk p _ => SOk (mkPacker id p)
          | UErr => SFatal
          | UPanic => SPanic
          | UFuel => SFuel
          end
      end.
End WithPlatform.
Arguments UOk {A}. Arguments UErr {A}. Arguments UPanic {A}. Arguments UFuel {A}.
Arguments SOk {A}. Arguments SFatal {A}. Arguments SPanic {A}. Arguments SFuel {A}.
