(* What the generated proxies should be: the meaning of an interface declaration, and a
   reader for the Go text the generator writes (Go specification: semicolons, declarations,
   parameter lists, calls).  Nothing here mentions how the generator works. *)
From Verif Require Import GenModel.
From Coq Require Import String Ascii Arith Bool List Permutation.
Import ListNotations.
Open Scope nat_scope.
Open Scope list_scope.

(* ---- interfaces ---- *)

(* A field stands for one parameter (result) per name, and for one when it has no name. *)
Definition expand (f : afield) : list texpr :=
  match f_names f with [] => [f_type f] | ns => map (fun _ => f_type f) ns end.
(* The methods an interface body declares: name, parameter types, result types. *)
Record msig := mkSig { s_name : string; s_params : list texpr; s_results : list texpr }.
Definition declared (body : list elem) : list msig :=
  flat_map (fun e => match e with
                     | Method n ps rs => [mkSig n (flat_map expand ps) (flat_map expand rs)]
                     | Embedded => []
                     end) body.

(* The interfaces of the sources that are declared alone in their type declaration, in
   order; files are the ones whose name ends in .go and does not contain proxy.gen.go. *)
Definition suffix_of (t s : string) : Prop := exists h, s = String.append h t.
Definition inside (t s : string) : Prop := exists h u, s = String.append h (String.append t u).
Definition is_source (file : string) : Prop := suffix_of ".go" file /\ ~ inside "proxy.gen.go" file.
Inductive decls_of : list (string * source) -> list decl -> Prop :=
| do_nil : decls_of [] []
| do_take f s r ds : is_source f -> decls_of r ds -> decls_of ((f, s) :: r) (s ++ ds)
| do_drop f s r ds : ~ is_source f -> decls_of r ds -> decls_of ((f, s) :: r) ds.
Definition alone (d : decl) : list (string * list elem) :=
  match d with TypeDecl [Iface n body] => [(n, body)] | _ => [] end.
Definition interfaces (ds : list decl) : list (string * list elem) := flat_map alone ds.

(* One name per parameter, at most one per result, identifier types, no embedding. *)
Definition ident_type (t : texpr) : Prop := exists n, t = Ident n.
Definition tidy (e : elem) : Prop :=
  match e with
  | Embedded => False
  | Method _ ps rs =>
      Forall (fun f => length (f_names f) = 1 /\ ident_type (f_type f)) ps /\
      Forall (fun f => length (f_names f) <= 1 /\ ident_type (f_type f)) rs
  end.
(* Go's rule that method names are unique in an interface. *)
Definition elem_names (body : list elem) : list string :=
  flat_map (fun e => match e with Method n _ _ => [n] | Embedded => [] end) body.

(* ---- reading Go ---- *)

(* Automatic semicolons: a line break is one after an identifier, a literal, return, or a
   closing bracket. *)
Definition ends (t : token) : bool :=
  match t with
  | TId _ | TStr _ | TNum _ | RP | RB | RK => true
  | Word s => String.eqb s "return"
  | _ => false
  end.
Fixpoint semis (b : bool) (l : list token) : list token :=
  match l with
  | [] => []
  | NL :: r => if b then Semi :: semis false r else semis false r
  | t :: r => t :: semis (ends t) r
  end.

Definition token_eq_dec (a b : token) : {a = b} + {a <> b}.
Proof. decide equality; try apply string_dec; apply Nat.eq_dec. Defined.

Definition reader (A : Type) := list token -> option (A * list token).
Fixpoint eat (want l : list token) : option (list token) :=
  match want, l with
  | [], _ => Some l
  | w :: ws, x :: r => if token_eq_dec w x then eat ws r else None
  | _, _ => None
  end.

(* name Type, name Type, ... ) with an optional comma at the end. *)
Fixpoint read_params (l : list token) : option (list (string * string) * list token) :=
  match l with
  | RP :: r => Some ([], r)
  | TId n :: TId t :: RP :: r => Some ([(n, t)], r)
  | TId n :: TId t :: Comma :: r =>
      match read_params r with Some (ps, u) => Some ((n, t) :: ps, u) | None => None end
  | _ => None
  end.
(* a, b, ... ) with an optional comma at the end: a result list, or arguments. *)
Fixpoint read_idents (l : list token) : option (list string * list token) :=
  match l with
  | RP :: r => Some ([], r)
  | TId n :: RP :: r => Some ([n], r)
  | TId n :: Comma :: r =>
      match read_idents r with Some (ps, u) => Some (n :: ps, u) | None => None end
  | _ => None
  end.

Inductive gexpr := EId (s : string) | ENum (n : nat) | EAssert (k : nat) (t : string).
Definition read_expr (l : list token) : option (gexpr * list token) :=
  match l with
  | TId r :: LK :: TNum k :: RK :: Dot :: LP :: TId t :: RP :: u =>
      if String.eqb r "results" then Some (EAssert k t, u) else None
  | TId s :: u => Some (EId s, u)
  | TNum n :: u => Some (ENum n, u)
  | _ => None
  end.
(* e, e, ... ; without a comma at the end. *)
Fixpoint read_more (fuel : nat) (l : list token) : option (list gexpr * list token) :=
  match fuel with
  | O => None
  | S fuel =>
      match read_expr l with
      | Some (e, Semi :: u) => Some ([e], u)
      | Some (e, Comma :: u) =>
          match read_more fuel u with Some (es, v) => Some (e :: es, v) | None => None end
      | _ => None
      end
  end.
(* return e, e, ... ; or return ; *)
Definition read_return (l : list token) : option (list gexpr * list token) :=
  match l with
  | Word w :: Semi :: u => if String.eqb w "return" then Some ([], u) else None
  | Word w :: u => if String.eqb w "return" then read_more (length u) u else None
  | _ => None
  end.

(* A method of a proxy: func (p *recv) name(params) (results) {
     [results,] err := p.slot.Call[WithResult](iface, method, args)
     if nil != err { return on_error }
     [return on_success]
   } *)
Record pmethod := mkPMethod
  { pm_recv : string; pm_name : string; pm_params : list (string * string); pm_results : list string;
    pm_request : bool; pm_iface : string; pm_method : string; pm_args : list string;
    pm_fail : list gexpr; pm_done : list gexpr }.

Definition read_call (l : list token) : option (bool * list token) :=
  match eat [TId "results"; Comma; TId "err"; Define; TId "p"; Dot; TId "slot"; Dot; TId "CallWithResult"; LP] l with
  | Some u => Some (true, u)
  | None => match eat [TId "err"; Define; TId "p"; Dot; TId "slot"; Dot; TId "Call"; LP] l with
            | Some u => Some (false, u)
            | None => None
            end
  end.

(* The part of a method after "func (p *". *)
Definition read_method (l : list token) : option (pmethod * list token) :=
  match l with
  | TId recv :: RP :: TId name :: LP :: l =>
    match read_params l with None => None | Some (ps, l) =>
    match (match l with LP :: u => read_idents u | _ => Some ([], l) end) with None => None | Some (rs, l) =>
    match eat [LB] l with None => None | Some l =>
    match read_call l with None => None | Some (req, l) =>
    match l with
    | TStr i :: Comma :: TStr m :: Comma :: l =>
      match read_idents l with None => None | Some (args, l) =>
      match eat [Semi; Word "if"; TId "nil"; Neq; TId "err"; LB] l with None => None | Some l =>
      match read_return l with None => None | Some (fail, l) =>
      match eat [RB; Semi] l with None => None | Some l =>
      match (if req then read_return l else Some ([], l)) with None => None | Some (done, l) =>
      match eat [RB; Semi] l with None => None | Some l =>
        Some (mkPMethod recv name ps rs req i m args fail done, l)
      end end end end end end
    | _ => None
    end end end end end
  | _ => None
  end.

(* ferry.Register("Name", func(slot ferry.ISlot) interface{} { return &proxy{slot: slot} });
   ... up to the brace closing init. *)
Fixpoint read_registers (l : list token) : option (list (string * string)) :=
  match l with
  | [RB; Semi] => Some []
  | TId a :: Dot :: TId b :: LP :: TStr n :: Comma ::
    Word c :: LP :: TId d :: TId e :: Dot :: TId f :: RP :: Word g :: LB :: RB :: LB ::
    Word h :: Amp :: TId p :: LB :: TId i :: Colon :: TId j :: RB :: RB :: RP :: Semi :: r =>
      if list_eq_dec string_dec [a; b; c; d; e; f; g; h; i; j]
           ["ferry"; "Register"; "func"; "slot"; "ferry"; "ISlot"; "interface"; "return"; "slot"; "slot"]%string
      then match read_registers r with Some rs => Some ((n, p) :: rs) | None => None end
      else None
  | _ => None
  end.

(* A generated file: the proxy types, the methods, what init registers. *)
Record pfile := mkPFile
  { pf_types : list string; pf_methods : list pmethod; pf_registered : list (string * string) }.
Fixpoint read_decls (fuel : nat) (l : list token) : option pfile :=
  match fuel with
  | O => None
  | S fuel =>
      match eat [Word "func"; TId "init"; LP; RP; LB] l with
      | Some u => match read_registers u with Some rs => Some (mkPFile [] [] rs) | None => None end
      | None =>
          match eat [Word "func"; LP; TId "p"; Star] l with
          | Some u =>
              match read_method u with
              | Some (m, v) =>
                  match read_decls fuel v with
                  | Some f => Some (mkPFile (pf_types f) (m :: pf_methods f) (pf_registered f))
                  | None => None
                  end
              | None => None
              end
          | None =>
              match l with
              | Word w :: TId p :: u =>
                  if String.eqb w "type" then
                  match eat [Word "struct"; LB; TId "slot"; TId "ferry"; Dot; TId "ISlot"; Semi; RB; Semi] u with
                  | Some v =>
                      match read_decls fuel v with
                      | Some f => Some (mkPFile (p :: pf_types f) (pf_methods f) (pf_registered f))
                      | None => None
                      end
                  | None => None
                  end else None
              | _ => None
              end
          end
      end
  end.
Definition read_file (text : list token) : option pfile :=
  let l := semis false text in
  match eat [Word "package"; TId "main"; Semi;
             Word "import"; LP; TStr "github.com/muguangyi/ferry"; Semi; RP; Semi] l with
  | Some u => read_decls (length u) u
  | None => None
  end.

(* ---- what a proxy method must be ---- *)

Definition psig (m : pmethod) : msig :=
  mkSig (pm_name m) (map (fun p => Ident (snd p)) (pm_params m)) (map Ident (pm_results m)).

(* It calls the method of the interface with its own parameters in order, asks for a
   result exactly when it has one, and returns the results in order, each asserted to the
   declared type. *)
Definition forwards (m : pmethod) : Prop :=
  pm_method m = pm_name m /\
  pm_args m = map fst (pm_params m) /\
  (pm_request m = true <-> pm_results m <> []) /\
  pm_done m = map (fun kt => EAssert (fst kt) (snd kt)) (combine (seq 0 (length (pm_results m))) (pm_results m)) /\
  length (pm_fail m) = length (pm_results m).

(* ---- is it legal Go? ---- *)

(* Assignability of an untyped constant or nil to a type given by its name: the numeric
   types take 0, bool takes false; nil is no value of a predeclared type other than error.
   For a type the program declares (nil may or may not be a value of it) this says yes. *)
Definition numeric : list string :=
  ["int"; "int8"; "int16"; "int32"; "int64"; "uint"; "uint8"; "uint16"; "uint32"; "uint64"; "uintptr";
   "byte"; "rune"; "float32"; "float64"; "complex64"; "complex128"]%string.
Definition assignable (e : gexpr) (t : string) : Prop :=
  match e with
  | ENum _ => In t numeric
  | EId s => (s = "false" /\ t = "bool")%string \/
             (s = "nil" /\ ~ In t ("bool" :: "string" :: numeric))%string
  | EAssert _ u => t = u
  end.
(* Every return statement of the method gives values of the result types. *)
Definition returns_fit (m : pmethod) : Prop :=
  Forall2 assignable (pm_fail m) (pm_results m) /\
  (pm_request m = true -> Forall2 assignable (pm_done m) (pm_results m)).

(* Scoping: receiver and parameters are distinct (blanks aside), the blank identifier is
   no value, and := declares at least one new variable. *)
Definition not_blank (s : string) : bool := negb (String.eqb s "_").
Definition names_ok (m : pmethod) : Prop :=
  NoDup (filter not_blank ("p"%string :: map fst (pm_params m))) /\
  ~ In "_"%string (pm_args m) /\
  exists v, In v (if pm_request m then ["results"; "err"] else ["err"])%string /\
            ~ In v ("p"%string :: map fst (pm_params m)).

(* The name of the proxy type: that of the interface followed by proxy, capitals (A-Z,
   65-90) made small. *)
Definition small (c d : ascii) : Prop :=
  (65 <= nat_of_ascii c <= 90 /\ nat_of_ascii d = nat_of_ascii c + 32) \/
  (~ 65 <= nat_of_ascii c <= 90 /\ d = c).
Definition lowered (a b : string) : Prop := Forall2 small (list_ascii_of_string a) (list_ascii_of_string b).
Definition proxy_name (n p : string) : Prop := lowered (String.append n "proxy") p.

(* What the generator cannot take: embedded interfaces, parameters without a name, types
   that are no identifiers. *)
Definition unfit (e : elem) : Prop :=
  match e with
  | Embedded => True
  | Method _ ps rs =>
      Exists (fun f => f_names f = [] \/ ~ ident_type (f_type f)) ps \/
      Exists (fun f => ~ ident_type (f_type f)) rs
  end.
(* A parameter or result list with two names for one type: (x, y T). *)
Definition grouped (e : elem) : Prop :=
  match e with
  | Embedded => False
  | Method _ ps rs => Exists (fun f => 2 <= length (f_names f)) ps \/ Exists (fun f => 2 <= length (f_names f)) rs
  end.
(* The result types for which nil, the value the generator falls back on, is no value. *)
Definition nil_unfit : list string := ["string"; "byte"; "rune"; "uintptr"; "complex64"; "complex128"]%string.
