(* Properties of whole calls: C48 (remote equals local) and C49 (generated proxies). *)
From Verif Require Import GoInt GoFloat GoVal CodecSpec ProtoModel ProtoSpec MetaModel CallModel CallSpec CallProof.
From Coq Require Import List Lia.
Import ListNotations.

(* a feature with a counter: "Add" (int64, float64, string) counts and returns its
   arguments; "Len" (interface{}) returns an int; "Half" (float32) returns a float64;
   "Keep" (int) returns nothing and stores its argument *)
Definition one := 4607182418800017408. (* 1.0 *)
Definition nAdd : list Z := [65; 100; 100].
Definition nLen : list Z := [76; 101; 110].
Definition nHalf : list Z := [72; 97; 108; 102].
Definition nKeep : list Z := [75; 101; 101; 112].
Definition fAdd : fcall Z := mkFcall [TyInt 0 I64; TyF64 0; TyStr 0] (fun o a => Some (o + 1, a)).
Definition fLen : fcall Z := mkFcall [TyAny] (fun o a => Some (o + 1, [VInt 0 IInt 3])).
Definition fHalf : fcall Z := mkFcall [TyF32 0] (fun o a => Some (o + 1, [VF64 0 one])).
Definition fKeep : fcall Z := mkFcall [TyInt 0 IInt] (fun o a => match a with [VInt _ _ z] => Some (z, []) | _ => None end).
Definition feature : table Z := [(nAdd, fAdd); (nLen, fLen); (nHalf, fHalf); (nKeep, fKeep)].
Definition iface : list Z := [73; 77]. (* the slot "IM" *)
Definition none : open_conversion := fun _ _ => None.
Fixpoint bytewise (f : list Z) : list (list Z) := match f with [] => [] | c :: r => [c] :: bytewise r end.
Definition atonce (f : list Z) : list (list Z) := [f].

Ltac short_case := intros ?f ?E; vm_compute in E; injection E as <-; vm_compute; reflexivity.

(* C48: with parameters of scalar types and arguments of exactly those types, the method
   is given the same arguments as in a local call and the caller gets results of equal
   value, however the connection cuts the bytes.  The result list is empty without
   [w] (withResult). *)
Theorem C48_remote_call_equals_local : forall {O : Type} ws ws' open open' cut cut' (tbl : table O) o index slot m f args w o' r,
  in_s 64 index -> str_ok slot = true -> str_ok m = true -> whole cut -> whole cut' ->
  NoDup (map fst tbl) -> In (m, f) tbl -> Forall2 of_type (params f) args -> Forall quiet args ->
  carried ws args -> carried ws' args -> short ws ws' (PRpcRequest index slot m args w) ->
  body f o args = Some (o', r) -> carried ws' (if w then r else []) -> short ws' ws (PRpcResponse index slot m (if w then r else []) []) ->
  local_call ws open tbl o m args w = Returned o' (if w then r else []) [] /\
  exists r', remote_call ws ws' open' cut cut' tbl o index slot m args w = Returned o' r' [] /\ Forall2 same_value (if w then r else []) r'.
Proof. intros O. exact (@remote_equals_local O). Qed.
Print Assumptions C48_remote_call_equals_local.
Example C48_remote_call_case :
  local_call W64 none feature 7 nAdd [VInt 0 I64 (-5); VF64 0 one; VStr 0 [104; 105]] true
    = Returned 8 [VInt 0 I64 (-5); VF64 0 one; VStr 0 [104; 105]] [] /\
  remote_call W64 W32 none bytewise atonce feature 7 99 iface nAdd [VInt 0 I64 (-5); VF64 0 one; VStr 0 [104; 105]] true
    = Returned 8 [VInt 0 I8 (-5); VF64 0 one; VStr 0 [104; 105]] [] /\
  Forall2 of_type (params fAdd) [VInt 0 I64 (-5); VF64 0 one; VStr 0 [104; 105]] /\
  short W64 W32 (PRpcRequest 99 iface nAdd [VInt 0 I64 (-5); VF64 0 one; VStr 0 [104; 105]] true) /\
  carried W32 [VInt 0 I64 (-5); VF64 0 one; VStr 0 [104; 105]].
Proof.
  split; [vm_compute; reflexivity|]. split; [vm_compute; reflexivity|]. split; [repeat constructor|]. split; [short_case|].
  split; vm_compute; reflexivity.
Qed.

(* ... and with interface{}, []interface{} and map[interface{}]interface{} parameters as
   well, the method is given values equal up to the wire's types. *)
Theorem C48_remote_call_any_arguments : forall {O : Type} ws ws' open' cut cut' (tbl : table O) o index slot m f args w,
  in_s 64 index -> str_ok slot = true -> str_ok m = true -> whole cut -> whole cut' ->
  NoDup (map fst tbl) -> In (m, f) tbl -> Forall2 accepts (params f) args -> Forall quiet args ->
  carried ws args -> carried ws' args -> short ws ws' (PRpcRequest index slot m args w) ->
  exists given,
    Forall2 (fun pa c => received (fst pa) (snd pa) c) (combine (params f) args) given /\
    (Forall2 of_type (params f) args -> given = args) /\
    forall o' r, body f o given = Some (o', r) -> carried ws' (if w then r else []) ->
      short ws' ws (PRpcResponse index slot m (if w then r else []) []) ->
      exists r', remote_call ws ws' open' cut cut' tbl o index slot m args w = Returned o' r' [] /\
        opt_map wire (if w then r else []) = Some r' /\ Forall2 same_value (if w then r else []) r'.
Proof. intros O. exact (@remote_runs O). Qed.
Print Assumptions C48_remote_call_any_arguments.
Example C48_any_case :
  Forall2 accepts (params fLen) [VArr ASliceIface [VInt 0 IInt 1; VStr 0 []]] /\
  remote_call W64 W64 none atonce bytewise feature 7 99 iface nLen [VArr ASliceIface [VInt 0 IInt 1; VStr 0 []]] true
    = Returned 8 [VInt 0 I8 3] [].
Proof. split; [constructor; [right; left; split; [reflexivity|discriminate]|constructor]|vm_compute; reflexivity]. Qed.

(* The complete account, when the messages fit: *)
Theorem C48_remote_call_exactly : forall {O : Type} ws ws' open cut cut' (tbl : table O) o index slot m args w,
  in_s 64 index -> str_ok slot = true -> str_ok m = true -> whole cut -> whole cut' ->
  forall args', go_value ws (VArr ASliceIface args) = true -> supported (VArr ASliceIface args) = true ->
  short ws ws' (PRpcRequest index slot m args w) -> opt_map wire args = Some args' ->
  (forall o' r, local_call ws' open tbl o m args' w = Returned o' r [] ->
     go_value ws' (VArr ASliceIface r) = true /\ short ws' ws (PRpcResponse index slot m r [])) ->
  remote_call ws ws' open cut cut' tbl o index slot m args w =
  match local_call ws' open tbl o m args' w with
  | Returned o' r _ =>
      if supported (VArr ASliceIface r) then
        match opt_map wire r with Some r' => Returned o' r' [] | None => CallerDown end
      else CalleeDown
  | x => x
  end.
Proof. intros O. exact (@call_served O). Qed.
Print Assumptions C48_remote_call_exactly.
(* an unknown method gives no results and no error; the wrong number of arguments ends
   the serving process *)
Example C48_exactly_case :
  remote_call W64 W64 none atonce atonce feature 7 99 iface iface [] true = Returned 7 [] [] /\
  remote_call W64 W64 none atonce atonce feature 7 99 iface nAdd [] true = CalleeDown.
Proof. split; vm_compute; reflexivity. Qed.

(* arguments of a kind the codec does not know end the calling process *)
Theorem C48_unsupported_argument_kills_caller : forall {O : Type} ws ws' open cut cut' (tbl : table O) o index slot m args w,
  in_s 64 index -> str_ok slot = true -> str_ok m = true ->
  supported (VArr ASliceIface args) = false ->
  remote_call ws ws' open cut cut' tbl o index slot m args w = CallerDown.
Proof. intros O. exact (@call_unsupported O). Qed.
Print Assumptions C48_unsupported_argument_kills_caller.
Example C48_unsupported_case : supported (VArr ASliceIface [VInt 0 IInt 1; VOther false 3]) = false.
Proof. reflexivity. Qed.

(* arguments whose encoding the decoder cannot read end the serving process *)
Theorem C48_poison_argument_kills_callee : forall {O : Type} ws ws' open cut cut' (tbl : table O) o index slot m args w,
  in_s 64 index -> str_ok slot = true -> str_ok m = true -> whole cut ->
  go_value ws (VArr ASliceIface args) = true -> supported (VArr ASliceIface args) = true ->
  short ws ws' (PRpcRequest index slot m args w) -> opt_map wire args = None ->
  remote_call ws ws' open cut cut' tbl o index slot m args w = CalleeDown.
Proof. intros O. exact (@call_poison O). Qed.
Print Assumptions C48_poison_argument_kills_callee.
Example C48_poison_case : opt_map wire [VInt 0 IInt 1; VF64 0 0] = None /\ short W64 W64 (PRpcRequest 99 iface nHalf [VInt 0 IInt 1; VF64 0 0] true).
Proof. split; [reflexivity|short_case]. Qed.

(* Without the restriction on floats the statement is false: the argument 0.0 *)
Theorem C48_zero_float_refuted : exists (f : fcall Z) args,
  In (nHalf, f) feature /\ Forall2 of_type (params f) args /\ go_value W64 (VArr ASliceIface args) = true /\
  local_call W64 none feature 7 nHalf args true = Returned 8 [VF64 0 one] [] /\
  forall cut', whole cut' -> remote_call W64 W64 none atonce cut' feature 7 99 iface nHalf args true = CalleeDown.
Proof.
  exists fHalf, [VF32 0 0]. split; [cbn; tauto|]. split; [repeat constructor|]. split; [reflexivity|]. split; [vm_compute; reflexivity|].
  intros cut' _. vm_compute. reflexivity.
Qed.
Print Assumptions C48_zero_float_refuted.

(* Nor does it hold for int between a 64-bit and a 32-bit dock: the method gets another
   number. *)
Theorem C48_int_width_refuted : exists (f : fcall Z) args,
  In (nKeep, f) feature /\ Forall2 of_type (params f) args /\ carried W64 args /\
  local_call W64 none feature 7 nKeep args false = Returned (2 ^ 32 + 1) [] [] /\
  remote_call W64 W32 none atonce atonce feature 7 99 iface nKeep args false = Returned 1 [] [].
Proof.
  exists fKeep, [VInt 0 IInt (2 ^ 32 + 1)]. split; [cbn; tauto|]. split; [repeat constructor|]. split; [split; reflexivity|].
  split; vm_compute; reflexivity.
Qed.
Print Assumptions C48_int_width_refuted.

(* C49: a proxy in front of a local feature returns the results; in front of a remote one
   it returns the same if every result is [plain] and panics otherwise.  It never returns
   anything else. *)
Theorem C49_proxy_local_and_remote : forall {O : Type} ws ws' open open' cut cut' (tbl : table O) o index slot m f args,
  in_s 64 index -> str_ok slot = true -> str_ok m = true -> whole cut -> whole cut' ->
  NoDup (map fst tbl) -> In (m, f) tbl -> Forall2 of_type (params f) args -> Forall quiet args ->
  carried ws args -> carried ws' args -> short ws ws' (PRpcRequest index slot m args true) ->
  forall tys o' r,
  body f o args = Some (o', r) -> Forall2 of_type tys r -> carried ws' r -> short ws' ws (PRpcResponse index slot m r []) ->
  proxy_call tys (local_call ws open tbl o m args true) = PReturns r /\
  proxy_call tys (remote_call ws ws' open' cut cut' tbl o index slot m args true) = if forallb plain r then PReturns r else PPanics.
Proof. intros O. exact (@proxy_same O). Qed.
Print Assumptions C49_proxy_local_and_remote.
Definition C49_args := [VInt 0 I64 (2 ^ 40); VF64 0 one; VStr 0 [104; 105]].
Example C49_proxy_case :
  proxy_call [TyInt 0 I64; TyF64 0; TyStr 0] (local_call W64 none feature 7 nAdd C49_args true) = PReturns C49_args /\
  proxy_call [TyInt 0 I64; TyF64 0; TyStr 0] (remote_call W64 W32 none bytewise atonce feature 7 99 iface nAdd C49_args true) = PReturns C49_args /\
  forallb plain C49_args = true /\
  proxy_call [TyInt 0 I64; TyF64 0; TyStr 0]
    (remote_call W64 W32 none bytewise atonce feature 7 99 iface nAdd [VInt 0 I64 5; VF64 0 one; VStr 0 []] true) = PPanics.
Proof. split; [vm_compute; reflexivity|]. split; [vm_compute; reflexivity|]. split; vm_compute; reflexivity. Qed.

(* which results are plain: every bool, string and float64 ... *)
Theorem C49_always_plain : forall v, of_type (TyBool 0) v \/ of_type (TyStr 0) v \/ of_type (TyF64 0) v -> plain v = true.
Proof. exact always_plain. Qed.
Print Assumptions C49_always_plain.
Example C49_always_plain_case : of_type (TyStr 0) (VStr 0 [104]).
Proof. constructor. Qed.
(* ... no int, uint, uintptr or float32, and nothing of a defined type ... *)
Theorem C49_never_plain : forall v t, of_type (TyInt t IInt) v \/ of_type (TyUint t UInt) v \/ of_type (TyUint t UPtr) v \/ of_type (TyF32 t) v
  \/ (t <> 0 /\ exists k, of_type (TyInt t k) v \/ exists k', of_type (TyUint t k') v \/ of_type (TyBool t) v \/ of_type (TyStr t) v \/ of_type (TyF64 t) v) ->
  plain v = false.
Proof. exact never_plain. Qed.
Print Assumptions C49_never_plain.
Example C49_never_plain_case : of_type (TyInt 0 IInt) (VInt 0 IInt 3).
Proof. constructor. Qed.
(* ... and a sized integer exactly when it fits in no narrower type (-128, -32768 and
   -2147483648 count as not fitting in their own type) *)
Theorem C49_sized_integer_plain : forall z n,
  (plain (VInt 0 I8 z) = true <-> -128 < z < 128) /\
  (plain (VInt 0 I16 z) = true <-> - 2 ^ 15 < z < 2 ^ 15 /\ ~ -128 < z < 128) /\
  (plain (VInt 0 I32 z) = true <-> - 2 ^ 31 < z < 2 ^ 31 /\ ~ - 2 ^ 15 < z < 2 ^ 15) /\
  (plain (VInt 0 I64 z) = true <-> ~ - 2 ^ 31 < z < 2 ^ 31) /\
  (plain (VUint 0 U8 n) = true <-> n < 2 ^ 8) /\
  (plain (VUint 0 U16 n) = true <-> 2 ^ 8 <= n < 2 ^ 16) /\
  (plain (VUint 0 U32 n) = true <-> 2 ^ 16 <= n < 2 ^ 32) /\
  (plain (VUint 0 U64 n) = true <-> 2 ^ 32 <= n).
Proof. exact sized_plain. Qed.
Print Assumptions C49_sized_integer_plain.
Example C49_sized_case : plain (VInt 0 I16 200) = true /\ plain (VInt 0 I16 100) = false /\ plain (VInt 0 I8 (-128)) = false.
Proof. repeat split. Qed.

(* results declared with an interface type: a nil one makes the proxy panic, local or remote *)
Theorem C49_interface_results : forall {O : Type} ws ws' open open' cut cut' (tbl : table O) o index slot m f args,
  in_s 64 index -> str_ok slot = true -> str_ok m = true -> whole cut -> whole cut' ->
  NoDup (map fst tbl) -> In (m, f) tbl -> Forall2 of_type (params f) args -> Forall quiet args ->
  carried ws args -> carried ws' args -> short ws ws' (PRpcRequest index slot m args true) ->
  forall tys o' r,
  body f o args = Some (o', r) -> Forall (eq TyAny) tys -> length tys = length r -> carried ws' r -> short ws' ws (PRpcResponse index slot m r []) ->
  (In VNil r -> proxy_call tys (local_call ws open tbl o m args true) = PPanics /\
                proxy_call tys (remote_call ws ws' open' cut cut' tbl o index slot m args true) = PPanics) /\
  (~ In VNil r -> proxy_call tys (local_call ws open tbl o m args true) = PReturns r /\
                  exists r', proxy_call tys (remote_call ws ws' open' cut cut' tbl o index slot m args true) = PReturns r' /\ Forall2 same_value r r').
Proof. intros O. exact (@proxy_interface O). Qed.
Print Assumptions C49_interface_results.
Definition fPair : fcall Z := mkFcall [TyStr 0] (fun o a => Some (o, [VStr 0 [104]; VNil])).
Definition C49_pair : table Z := [(nLen, fPair)].
Example C49_interface_case : body fPair 7 [VStr 0 []] = Some (7, [VStr 0 [104]; VNil]) /\ Forall2 of_type (params fPair) [VStr 0 []] /\
  carried W32 [VStr 0 [104]; VNil] /\ short W32 W64 (PRpcResponse 99 iface nLen [VStr 0 [104]; VNil] []) /\
  proxy_call [TyAny; TyAny] (remote_call W64 W32 none bytewise atonce C49_pair 7 99 iface nLen [VStr 0 []] true) = PPanics /\
  proxy_call [TyAny] (remote_call W64 W32 none bytewise atonce feature 7 99 iface nLen [VStr 0 []] true) = PReturns [VInt 0 I8 3].
Proof. split; [reflexivity|]. split; [repeat constructor|]. split; [split; reflexivity|]. split; [short_case|]. split; vm_compute; reflexivity. Qed.

(* a proxy for a method the feature does not have *)
Theorem C49_unknown_method_panics : forall {O : Type} ws ws' open open' cut cut' (tbl : table O) o index slot m args,
  in_s 64 index -> str_ok slot = true -> str_ok m = true -> whole cut -> whole cut' ->
  forall tys, ~ In m (map fst tbl) -> (0 < length tys)%nat -> carried ws args ->
  short ws ws' (PRpcRequest index slot m args true) -> short ws' ws (PRpcResponse index slot m [] []) ->
  proxy_call tys (local_call ws open tbl o m args true) = PPanics /\
  proxy_call tys (remote_call ws ws' open' cut cut' tbl o index slot m args true) = PPanics.
Proof. intros O. exact (@proxy_unknown O). Qed.
Print Assumptions C49_unknown_method_panics.
Example C49_unknown_case : ~ In iface (map fst feature) /\ short W64 W64 (PRpcResponse 99 iface iface [] []).
Proof. split; [cbn; intuition discriminate|short_case]. Qed.

(* "a generated proxy returns the same value whether the feature is local or remote" *)
Theorem C49_same_value_refuted : exists (f : fcall Z) args,
  In (nLen, f) feature /\ Forall2 accepts (params f) args /\ carried W64 args /\
  proxy_call [TyInt 0 IInt] (local_call W64 none feature 7 nLen args true) = PReturns [VInt 0 IInt 3] /\
  proxy_call [TyInt 0 IInt] (remote_call W64 W64 none atonce atonce feature 7 99 iface nLen args true) = PPanics.
Proof.
  exists fLen, [VStr 0 [104]]. split; [cbn; tauto|]. split; [constructor; [right; left; split; [reflexivity|discriminate]|constructor]|].
  split; [split; reflexivity|]. split; vm_compute; reflexivity.
Qed.
Print Assumptions C49_same_value_refuted.
