(* Vocabulary for stating codec properties: sequences of API calls, and the names
   of the accessors that belong to a type.  No proofs and nothing from the Go code. *)
From Verif Require Import GoInt GoFloat GoVal CodecModel.

(* NewAny(v).Encode(&buf) on an empty bytes.Buffer *)
Definition encoded (ws : wsize) (v : gval) (bs : list Z) : Prop :=
  any_encode buf_wr ws (NewAny v) [] = (None, bs).

(* for _, v := range vs { NewAny(v).Encode(&buf) } *)
Fixpoint encode_all (ws : wsize) (vs : list gval) (w : list Z) : option (list Z) :=
  match vs with
  | [] => Some w
  | v :: r => match any_encode buf_wr ws (NewAny v) w with
              | (None, w') => encode_all ws r w'
              | (Some _, _) => None
              end
  end.

(* n times: a := NewAny(nil); a.Decode(&buf); a.Any() *)
Fixpoint decode_all (n : nat) (b : list Z) : option (list gval * list Z) :=
  match n with
  | O => Some ([], b)
  | S m => match any_decode (NewAny VNil) b with
           | DecOk a r => match decode_all m r with
                          | Some (vs, r') => Some (acc_Any a :: vs, r')
                          | None => None
                          end
           | _ => None
           end
  end.

(* one hop: decode a message that is exactly one value, encode it again *)
Definition relay1 (ws : wsize) (b : list Z) : option (list Z) :=
  match any_decode (NewAny VNil) b with
  | DecOk a [] => match any_encode buf_wr ws a [] with (None, b') => Some b' | _ => None end
  | _ => None
  end.
(* hops given by the word sizes of the relaying machines *)
Fixpoint relay (hops : list wsize) (b : list Z) : option (list Z) :=
  match hops with
  | [] => Some b
  | ws :: h => match relay1 ws b with Some b' => relay h b' | None => None end
  end.

(* a sequence of successful Decode calls on one object *)
Inductive decode_history : any -> list (list Z) -> any -> Prop :=
| dh_nil a : decode_history a [] a
| dh_cons a b a1 r bs a2 : any_decode a b = DecOk a1 r -> decode_history a1 bs a2 ->
    decode_history a (b :: bs) a2.

(* the accessor named after a type *)
Definition int_getter (k : ikind) : accessor :=
  match k with I8 => GetInt8 | I16 => GetInt16 | I32 => GetInt32 | I64 => GetInt64 | IInt => GetInt end.
Definition uint_getter (k : ukind) : option accessor :=
  match k with U8 => Some GetUint8 | U16 => Some GetUint16 | U32 => Some GetUint32 | U64 => Some GetUint64
             | UInt => Some GetUint | UPtr => None end.
Definition own_getter (v : gval) : option accessor :=
  match v with
  | VBool _ _ => Some GetBool
  | VF32 _ _ => Some GetFloat32
  | VF64 _ _ => Some GetFloat64
  | VUint _ k _ => uint_getter k
  | VInt _ k _ => Some (int_getter k)
  | VStr _ _ => Some GetString
  | VArr _ _ => Some GetArr
  | VMap _ _ => Some GetMap
  | VNil | VOther _ _ => None
  end.
Definition signed_getter (c : accessor) : bool :=
  match c with GetInt | GetInt8 | GetInt16 | GetInt32 | GetInt64 => true | _ => false end.
Definition unsigned_getter (c : accessor) : bool :=
  match c with GetUint | GetUint8 | GetUint16 | GetUint32 | GetUint64 => true | _ => false end.

Definition getter_width (ws : wsize) (c : accessor) : Z :=
  match c with
  | GetInt | GetUint => wbits ws
  | GetInt8 | GetUint8 => 8
  | GetInt16 | GetUint16 => 16
  | GetInt32 | GetUint32 => 32
  | GetInt64 | GetUint64 => 64
  | _ => 0
  end.
Definition getter_ikind (c : accessor) : ikind :=
  match c with GetInt8 => I8 | GetInt16 => I16 | GetInt32 => I32 | GetInt64 => I64 | _ => IInt end.
Definition getter_ukind (c : accessor) : ukind :=
  match c with GetUint8 => U8 | GetUint16 => U16 | GetUint32 => U32 | GetUint64 => U64 | _ => UInt end.
(* the bytes a failing writer received, and the failures still to come *)
Definition received (w : flaky) : list Z := snd w.
