(* tool/ferry.gen.go: the generator of proxies.
   Strings are byte strings (Coq's string).  Not modelled: reading the directory tree and
   the files (go/parser is taken to deliver the declarations of a syntactically correct
   file), the comments of the generated file, the layout chosen by go/format, and the HTML
   escaping of html/template, which leaves identifiers alone. *)
From Coq Require Import String Ascii Arith Bool List.
Import ListNotations.
Open Scope nat_scope.
Open Scope list_scope.

(* ---- the parsed sources (go/ast) ---- *)

(* As read by tool/ferry.gen.go:118-156. *)
(* ast.Expr in type position: an *ast.Ident, or anything else ( *T, []T, pkg.T, ...T, a
   func, map, chan, struct or interface type). *)
Inductive texpr := Ident (n : string) | Other.
(* ast.Field of a parameter or result list: (x, y T) is one field with two names. *)
Record afield := mkField { f_names : list string; f_type : texpr }.
(* ast.Field of an interface body: a method, or an embedded interface, which has no name.
   ftype.Results is nil or a list; both are read alike (ferry.gen.go:140-156), so nil is []. *)
Inductive elem := Method (n : string) (params results : list afield) | Embedded.
(* ast.TypeSpec: its name and type; only interface types matter (ferry.gen.go:108). *)
Inductive tspec := Iface (n : string) (body : list elem) | NotIface (n : string).
(* ast.GenDecl: a type declaration with its specs, or an import, const or var one. *)
Inductive decl := TypeDecl (specs : list tspec) | OtherDecl.
(* A file: the GenDecls in the order ast.Inspect meets them (ferry.gen.go:80-91), those
   inside function bodies included. *)
Definition source := list decl.

(* ---- parseFile ---- *)

(* astField, astMethod and astTarget, ferry.gen.go:231-249.  Source is only used in a
   comment and left out. *)
Record gfield := mkGField { g_name : string; g_type : string }.
Record gmethod := mkGMethod
  { gm_name : string; pcount : nat; gm_params : list gfield; rcount : nat; gm_results : list gfield }.
(* Methods is a map from the name; the template ranges over it in the order of the keys, so
   it is the list of its values in that order. *)
Record target := mkTarget { t_name : string; t_proxy : string; t_methods : list gmethod }.

(* ferry.gen.go:131-136: param.Names[0].Name and param.Type.( *ast.Ident).Name.  None: the
   index or the type assertion panics. *)
Fixpoint parse_params (l : list afield) : option (list gfield) :=
  match l with
  | [] => Some []
  | mkField (n :: _) (Ident t) :: r =>
      match parse_params r with Some gs => Some (mkGField n t :: gs) | None => None end
  | _ => None
  end.

(* ferry.gen.go:143-154. *)
Fixpoint parse_results (l : list afield) : option (list gfield) :=
  match l with
  | [] => Some []
  | mkField ns (Ident t) :: r =>
      match parse_results r with Some gs => Some (mkGField (hd EmptyString ns) t :: gs) | None => None end
  | _ => None
  end.

(* ferry.gen.go:120-156: one turn of the loop over the interface body; None: a panic. *)
Definition parse_elem (e : elem) : option gmethod :=
  match e with
  | Embedded => None                                  (* field.Names[0], line 122 *)
  | Method n ps rs =>
      match parse_params ps, parse_results rs with
      | Some gp, Some gr => Some (mkGMethod n (length ps) gp (length rs) gr)
      | _, _ => None
      end
  end.

(* target.Methods[m.Name] = m, ferry.gen.go:158, on the list in key order. *)
Fixpoint put_method (m : gmethod) (l : list gmethod) : list gmethod :=
  match l with
  | [] => [m]
  | x :: r => match String.compare (gm_name m) (gm_name x) with
              | Lt => m :: l
              | Eq => m :: r
              | Gt => x :: put_method m r
              end
  end.

(* The loop of ferry.gen.go:120-159. *)
Fixpoint parse_body (l : list elem) (acc : list gmethod) : option (list gmethod) :=
  match l with
  | [] => Some acc
  | e :: r => match parse_elem e with Some m => parse_body r (put_method m acc) | None => None end
  end.

(* strings.ToLower on ASCII; names with other letters are not modelled. *)
Definition lower_char (c : ascii) : ascii :=
  let n := nat_of_ascii c in
  if andb (65 <=? n) (n <=? 90) then ascii_of_nat (n + 32) else c.
(* ferry.gen.go:117 *)
Fixpoint lower (s : string) : string :=
  match s with EmptyString => EmptyString | String c r => String (lower_char c) (lower r) end.

Inductive parsed := Target (t : target) | Skip | Panic.
(* parseFile, ferry.gen.go:96-162. *)
Definition parse_decl (d : decl) : parsed :=
  match d with
  | OtherDecl => Skip                                 (* lines 97-100 *)
  | TypeDecl (_ :: _ :: _) => Skip                    (* lines 102-105 *)
  | TypeDecl [] => Panic                              (* decl.Specs[0], line 107 *)
  | TypeDecl [NotIface _] => Skip                     (* lines 108-111 *)
  | TypeDecl [Iface n body] =>
      match parse_body body [] with
      | Some ms => Target (mkTarget n (lower (n ++ "proxy")) ms)
      | None => Panic
      end
  end.

(* scanFile, ferry.gen.go:73-94; None: a panic. *)
Fixpoint scan (f : source) : option (list target) :=
  match f with
  | [] => Some []
  | d :: r => match parse_decl d with
              | Panic => None
              | Skip => scan r
              | Target t => match scan r with Some ts => Some (t :: ts) | None => None end
              end
  end.

(* ---- ignore ---- *)

(* ferry.gen.go:61 *)
(* path.Ext: the suffix starting at the last dot after the last slash, or "".  The
   recursion carries the best suffix so far. *)
Fixpoint path_ext (s best : string) : string :=
  match s with
  | EmptyString => best
  | String c r => if Ascii.eqb c "/" then path_ext r EmptyString
                  else if Ascii.eqb c "." then path_ext r s
                  else path_ext r best
  end.
(* strings.Contains. *)
Fixpoint contains (s sub : string) : bool :=
  orb (prefix sub s) (match s with EmptyString => false | String _ r => contains r sub end).
(* ignore, ferry.gen.go:60-71. *)
Definition ignore (file : string) : bool :=
  if negb (String.eqb (path_ext file EmptyString) ".go") then true else contains file "proxy.gen.go".

(* The sources main hands on, ferry.gen.go:36-47: the files of the walk that are not
   ignored.  None: a panic. *)
Fixpoint scan_files (fs : list (string * source)) : option (list target) :=
  match fs with
  | [] => Some []
  | (file, f) :: r =>
      if ignore file then scan_files r
      else match scan f with
           | None => None
           | Some ts => match scan_files r with Some us => Some (ts ++ us) | None => None end
           end
  end.

(* ---- genProxyCode: the text, as tokens ---- *)

(* The tokens of the Go text the template produces; NL is a line break (it matters for
   the automatic semicolons), Semi a semicolon.  TNum is an integer literal. *)
Inductive token :=
| Word (s : string) (* a keyword *) | TId (s : string) | TStr (s : string) | TNum (n : nat)
| LP | RP | LB | RB | LK | RK (* parentheses, braces, brackets *)
| Comma | Dot | Star | Amp | Colon | Define (* := *) | Neq | NL | Semi.

(* The template function comma, ferry.gen.go:170-176. *)
Definition comma (index len : nat) : list token := if index + 1 <? len then [Comma] else [].

(* The template function default, ferry.gen.go:176-207. *)
Definition default (t : string) : list token :=
  if String.eqb t "bool" then [TId "false"]
  else if existsb (String.eqb t)
            ["int"; "int8"; "int16"; "int32"; "int64"; "uint"; "uint8"; "uint16"; "uint32";
             "uint64"; "float32"; "float64"]%string then [TNum 0]
  else [TId "nil"].

(* {{range $k, $x := l}}: the body for each element with its index. *)
Fixpoint range {A} (body : nat -> A -> list token) (k : nat) (l : list A) : list token :=
  match l with [] => [] | x :: r => body k x ++ range body (S k) r end.

(* The method of the template, ferry.gen.go:273-282. *)
Definition method_text (t : target) (m : gmethod) : list token :=
  [Word "func"; LP; TId "p"; Star; TId (t_proxy t); RP; TId (gm_name m); LP]
  ++ range (fun j p => [TId (g_name p); TId (g_type p)] ++ (if j <=? pcount m then [Comma] else []))
       0 (gm_params m)
  ++ [RP]
  ++ (if 0 <? rcount m
      then [LP] ++ range (fun k r => [TId (g_type r)] ++ comma k (rcount m)) 0 (gm_results m) ++ [RP]
      else [])
  ++ [LB; NL]
  ++ (if 0 <? rcount m
      then [TId "results"; Comma; TId "err"; Define; TId "p"; Dot; TId "slot"; Dot; TId "CallWithResult"]
      else [TId "err"; Define; TId "p"; Dot; TId "slot"; Dot; TId "Call"])
  ++ [LP; TStr (t_name t); Comma; TStr (gm_name m); Comma]
  ++ range (fun j p => [TId (g_name p)] ++ comma j (pcount m)) 0 (gm_params m)
  ++ [RP; NL; NL]
  ++ [Word "if"; TId "nil"; Neq; TId "err"; LB; NL; Word "return"]
  ++ range (fun k r => default (g_type r) ++ comma k (rcount m)) 0 (gm_results m)
  ++ [NL; RB]
  ++ (if 0 <? rcount m
      then [NL; NL; Word "return"]
           ++ range (fun k r => [TId "results"; LK; TNum k; RK; Dot; LP; TId (g_type r); RP]
                                ++ comma k (rcount m)) 0 (gm_results m)
      else [])
  ++ [NL; RB; NL].

(* One target, ferry.gen.go:266-285. *)
Definition target_text (t : target) : list token :=
  [NL; Word "type"; TId (t_proxy t); Word "struct"; LB; NL;
   TId "slot"; TId "ferry"; Dot; TId "ISlot"; NL; RB; NL; NL]
  ++ flat_map (fun m => [NL] ++ method_text t m) (t_methods t) ++ [NL; NL].

(* One line of init, ferry.gen.go:289. *)
Definition register_text (t : target) : list token :=
  [TId "ferry"; Dot; TId "Register"; LP; TStr (t_name t); Comma;
   Word "func"; LP; TId "slot"; TId "ferry"; Dot; TId "ISlot"; RP; Word "interface"; LB; RB; LB;
   Word "return"; Amp; TId (t_proxy t); LB; TId "slot"; Colon; TId "slot"; RB; RB; RP; NL].

(* gencode, ferry.gen.go:251-292. *)
Definition file_text (ts : list target) : list token :=
  [NL; Word "package"; TId "main"; NL; NL; Word "import"; LP; NL;
   TStr "github.com/muguangyi/ferry"; NL; RP; NL; NL]
  ++ flat_map target_text ts
  ++ [NL; NL; Word "func"; TId "init"; LP; RP; LB; NL]
  ++ flat_map register_text ts
  ++ [NL; RB; NL].

(* main, ferry.gen.go:29-58: the generated file, None when nothing is generated; Crash when
   the generator panics first. *)
Inductive made := Crash | Nothing | File (text : list token).
Definition generate (fs : list (string * source)) : made :=
  match scan_files fs with
  | None => Crash
  | Some [] => Nothing
  | Some ts => File (file_text ts)
  end.
