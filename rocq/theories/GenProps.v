(* C50: the generated proxies. *)
From Verif Require Import GenModel GenSpec GenProof GenProof2.
From Coq Require Import String Ascii Arith Bool List Permutation Lia.
Import ListNotations.
Open Scope nat_scope.
Open Scope list_scope.

(* Concrete sources for the examples. *)
Definition par (n t : string) : afield := mkField [n] (Ident t).
Definition res (t : string) : afield := mkField [] (Ident t).
Definition imath : decl := TypeDecl [Iface "IMath"
  [Method "Sub" [par "x" "int"; par "y" "int"] [res "int"; res "bool"]; Method "Add" [par "a" "int"] [res "int"];
   Method "Ping" [] []]].
Definition ilog : decl := TypeDecl [Iface "ILog" [Method "Print" [par "s" "string"; par "p" "int"] [res "string"]]].
Definition ex_files : list (string * source) :=
  [("main.go"%string, [OtherDecl; imath]); ("README.md"%string, [TypeDecl []]);
   ("lib/log.go"%string, [TypeDecl [NotIface "T"]; ilog])].
Definition ex_decls : list decl := [OtherDecl; imath; TypeDecl [NotIface "T"]; ilog].
Lemma ex_decls_of : decls_of ex_files ex_decls.
Proof.
  apply (do_take _ [OtherDecl; imath] _ [TypeDecl [NotIface "T"]; ilog]); [now apply ignore_iff|].
  apply do_drop; [now rewrite <- ignore_iff|].
  apply (do_take _ [TypeDecl [NotIface "T"]; ilog] [] []); [now apply ignore_iff|constructor].
Qed.
Lemma one_decl d : decls_of [("a.go"%string, [d])] [d].
Proof. apply (do_take _ [d] [] []); [now apply ignore_iff|constructor]. Qed.
Definition text_of (g : made) : list token := match g with File t => t | _ => [] end.
Definition pf_of (g : made) : pfile :=
  match read_file (text_of g) with Some f => f | None => mkPFile [] [] [] end.

(* Which files are read: those ending in .go whose path does not contain proxy.gen.go. *)
Theorem C50_files_read : forall file, ignore file = false <-> is_source file.
Proof. exact ignore_iff. Qed.
Print Assumptions C50_files_read.
Example C50_files_read_ex : ignore "tool/a_test.go" = false /\ is_source "tool/a_test.go" /\
  ignore "x/myproxy.gen.go" = true /\ ~ is_source "x/myproxy.gen.go" /\ ignore "x.go/readme" = true.
Proof.
  rewrite <- !ignore_iff. repeat split; try reflexivity. discriminate.
Qed.

(* What the generator writes is always Go text of the expected shape. *)
Theorem C50_readable : forall fs text, generate fs = File text -> exists pf, read_file text = Some pf.
Proof. exact generated_readable. Qed.
Print Assumptions C50_readable.
Example C50_readable_ex : exists text pf, generate ex_files = File text /\ read_file text = Some pf /\
  pf_types pf = ["imathproxy"; "ilogproxy"]%string /\
  map pm_name (pf_methods pf) = ["Add"; "Ping"; "Sub"; "Print"]%string.
Proof. exists (text_of (generate ex_files)), (pf_of (generate ex_files)). vm_compute. auto. Qed.

(* Interfaces with one name per parameter and identifier types get exactly their methods,
   with the same parameter and result types. *)
Theorem C50_signatures : forall fs ds, decls_of fs ds ->
  Forall (fun nb => Forall tidy (snd nb) /\ NoDup (elem_names (snd nb))) (interfaces ds) ->
  ~ In (TypeDecl []) ds -> interfaces ds <> [] ->
  exists text pf, generate fs = File text /\ read_file text = Some pf /\
  Permutation (map (fun m => (pm_recv m, psig m)) (pf_methods pf))
    (flat_map (fun x => map (pair (snd (snd x))) (declared (snd (fst x))))
       (combine (interfaces ds) (pf_registered pf))).
Proof. exact generate_signatures. Qed.
Print Assumptions C50_signatures.
Example C50_signatures_ex : decls_of ex_files ex_decls /\
  Forall (fun nb => Forall tidy (snd nb) /\ NoDup (elem_names (snd nb))) (interfaces ex_decls) /\
  ~ In (TypeDecl []) ex_decls /\ length (interfaces ex_decls) = 2 /\
  length (pf_methods (pf_of (generate ex_files))) = 4.
Proof.
  split; [exact ex_decls_of|]. split; [|split; [|vm_compute; auto]].
  - repeat constructor; unfold ident_type; cbn; eauto; try (intuition discriminate); try lia.
  - cbn. intuition discriminate.
Qed.

(* Every method of a generated file calls the method of the same name of the interface it
   is registered for, with its own parameters in order, and hands the results back in
   order. *)
Theorem C50_forwards : forall fs text pf m, generate fs = File text -> read_file text = Some pf ->
  In m (pf_methods pf) -> forwards m /\ In (pm_iface m, pm_recv m) (pf_registered pf).
Proof. exact generate_forwards. Qed.
Print Assumptions C50_forwards.
Example C50_forwards_ex : exists m, In m (pf_methods (pf_of (generate ex_files))) /\
  pm_iface m = "IMath"%string /\ pm_recv m = "imathproxy"%string /\ pm_method m = "Sub"%string /\
  pm_args m = ["x"; "y"]%string /\ pm_done m = [EAssert 0 "int"; EAssert 1 "bool"].
Proof.
  exists (nth 2 (pf_methods (pf_of (generate ex_files))) (mkPMethod "" "" [] [] false "" "" [] [] [])).
  vm_compute. intuition.
Qed.

(* The interfaces declared alone in their type declaration get a proxy type each,
   registered under their name, and nothing else does. *)
Theorem C50_registered : forall fs ds text pf, decls_of fs ds -> generate fs = File text ->
  read_file text = Some pf ->
  Forall2 (fun nb r => fst r = fst nb /\ proxy_name (fst nb) (snd r)) (interfaces ds) (pf_registered pf) /\
  pf_types pf = map snd (pf_registered pf).
Proof. exact generate_registers. Qed.
Print Assumptions C50_registered.
Example C50_registered_ex : decls_of ex_files ex_decls /\
  pf_registered (pf_of (generate ex_files)) = [("IMath", "imathproxy"); ("ILog", "ilogproxy")]%string.
Proof. split; [exact ex_decls_of|reflexivity]. Qed.

(* The generator panics exactly on an empty type declaration, an embedded interface, a
   parameter without a name and a type that is no identifier. *)
Theorem C50_panics : forall fs ds, decls_of fs ds ->
  (generate fs = Crash <->
   In (TypeDecl []) ds \/ exists n body, In (n, body) (interfaces ds) /\ Exists unfit body).
Proof. exact generate_crash. Qed.
Print Assumptions C50_panics.
Example C50_panics_ex :
  generate [("a.go"%string, [TypeDecl [Iface "I" [Method "F" [res "int"] []]]])] = Crash /\
  generate [("a.go"%string, [TypeDecl [Iface "I" [Method "F" [mkField ["xs"%string] Other] []]]])] = Crash /\
  generate [("a.go"%string, [TypeDecl [Iface "I" [Embedded]]])] = Crash /\
  generate ex_files <> Crash.
Proof. repeat split. discriminate. Qed.

(* Nothing is written exactly when no interface stands alone in its type declaration
   (and nothing panics). *)
Theorem C50_nothing : forall fs ds, decls_of fs ds ->
  (generate fs = Nothing <-> interfaces ds = [] /\ ~ In (TypeDecl []) ds).
Proof. exact generate_nothing. Qed.
Print Assumptions C50_nothing.
Example C50_nothing_ex : let d := TypeDecl [NotIface "T"] in
  decls_of [("a.go"%string, [d])] [d] /\ generate [("a.go"%string, [d])] = Nothing /\
  generate [("a.go"%string, [d; ilog])] <> Nothing.
Proof. cbv zeta. split; [apply one_decl|]. split; [reflexivity|discriminate]. Qed.

(* So not every interface gets a proxy: those in a type ( ... ) group are skipped. *)
Theorem C50_every_interface_refuted : exists fs ds n body, decls_of fs ds /\
  In (TypeDecl [Iface n body; NotIface "T"]) ds /\ Forall tidy body /\ generate fs = Nothing.
Proof.
  exists [("a.go"%string, [TypeDecl [Iface "I" [Method "F" [par "x" "int"] []]; NotIface "T"]])].
  eexists _, "I"%string, _. split; [apply one_decl|]. split; [now left|]. split; [|reflexivity].
  repeat constructor. unfold ident_type; cbn; eauto.
Qed.
Print Assumptions C50_every_interface_refuted.

(* A list (x, y T) anywhere, in parameters or results, and the methods written do not have
   the signatures declared. *)
Theorem C50_grouped_lost : forall fs ds text pf, decls_of fs ds ->
  Forall (fun nb => NoDup (elem_names (snd nb))) (interfaces ds) ->
  generate fs = File text -> read_file text = Some pf ->
  Exists (fun nb => Exists grouped (snd nb)) (interfaces ds) ->
  ~ Permutation (map psig (pf_methods pf)) (flat_map (fun nb => declared (snd nb)) (interfaces ds)).
Proof. exact generate_grouped. Qed.
Print Assumptions C50_grouped_lost.
Example C50_grouped_lost_ex :
  let d := TypeDecl [Iface "I" [Method "F" [mkField ["x"; "y"]%string (Ident "int")] [res "int"]]] in
  decls_of [("a.go"%string, [d])] [d] /\ Exists (fun nb => Exists grouped (snd nb)) (interfaces [d]) /\
  map psig (pf_methods (pf_of (generate [("a.go"%string, [d])]))) = [mkSig "F" [Ident "int"] [Ident "int"]] /\
  flat_map (fun nb => declared (snd nb)) (interfaces [d]) = [mkSig "F" [Ident "int"; Ident "int"] [Ident "int"]].
Proof.
  cbv zeta. split; [apply one_decl|]. split; [|split; reflexivity].
  left. cbn. left. left. left. cbn. lia.
Qed.

(* The values returned when the call fails have the result types exactly when no result is
   a string, byte, rune, uintptr or complex number; for those the text does not compile. *)
Theorem C50_returns_fit : forall fs text pf m, generate fs = File text -> read_file text = Some pf ->
  In m (pf_methods pf) ->
  (returns_fit m <-> forall t, In t (pm_results m) -> ~ In t nil_unfit).
Proof. exact generate_returns. Qed.
Print Assumptions C50_returns_fit.
Example C50_returns_fit_ex : exists m1 m2,
  In m1 (pf_methods (pf_of (generate ex_files))) /\ pm_results m1 = ["int"; "bool"]%string /\
  pm_fail m1 = [ENum 0; EId "false"] /\
  In m2 (pf_methods (pf_of (generate ex_files))) /\ pm_results m2 = ["string"]%string /\ pm_fail m2 = [EId "nil"].
Proof.
  exists (nth 2 (pf_methods (pf_of (generate ex_files))) (mkPMethod "" "" [] [] false "" "" [] [] [])),
         (nth 3 (pf_methods (pf_of (generate ex_files))) (mkPMethod "" "" [] [] false "" "" [] [] [])).
  vm_compute. intuition.
Qed.
Theorem C50_compiles_refuted : exists fs text pf m, generate fs = File text /\ read_file text = Some pf /\
  In m (pf_methods pf) /\ ~ returns_fit m.
Proof.
  exists ex_files, (text_of (generate ex_files)), (pf_of (generate ex_files)).
  exists (nth 3 (pf_methods (pf_of (generate ex_files))) (mkPMethod "" "" [] [] false "" "" [] [] [])).
  repeat split; try (vm_compute; tauto).
  intros [H _]. change (Forall2 assignable [EId "nil"] ["string"%string]) in H.
  inversion H as [|x y l k A _]; subst. destruct A as [[A _]|[_ A]]; [discriminate|]. apply A. cbn. auto.
Qed.
Print Assumptions C50_compiles_refuted.

(* The names used in the body of a method clash with a parameter p, _ or err (results). *)
Theorem C50_names : forall fs text pf m, generate fs = File text -> read_file text = Some pf ->
  In m (pf_methods pf) ->
  (names_ok m <->
   NoDup (map fst (pm_params m)) /\ ~ In "p"%string (map fst (pm_params m)) /\
   ~ In "_"%string (map fst (pm_params m)) /\
   (~ In "err"%string (map fst (pm_params m)) \/
    (pm_results m <> [] /\ ~ In "results"%string (map fst (pm_params m))))).
Proof. exact generate_names. Qed.
Print Assumptions C50_names.
Example C50_names_ex : exists m, In m (pf_methods (pf_of (generate ex_files))) /\
  pm_params m = [("s", "string"); ("p", "int")]%string /\ ~ names_ok m.
Proof.
  exists (nth 3 (pf_methods (pf_of (generate ex_files))) (mkPMethod "" "" [] [] false "" "" [] [] [])).
  split; [vm_compute; tauto|]. split; [reflexivity|].
  intros [N _]. vm_compute in N. inversion N as [|? ? K _]. apply K. cbn. auto.
Qed.

(* Two interfaces whose names differ only in case get the same type name. *)
Theorem C50_case_clash : forall fs ds text pf n1 n2 a b c b1 b2 w, decls_of fs ds -> generate fs = File text ->
  read_file text = Some pf -> interfaces ds = a ++ (n1, b1) :: b ++ (n2, b2) :: c ->
  lowered n1 w -> lowered n2 w -> ~ NoDup (pf_types pf).
Proof. exact generate_clash. Qed.
Print Assumptions C50_case_clash.
Example C50_case_clash_ex :
  let d1 := TypeDecl [Iface "IMath" []] in let d2 := TypeDecl [Iface "Imath" []] in
  lowered "IMath" "imath" /\ lowered "Imath" "imath" /\
  pf_types (pf_of (generate [("a.go"%string, [d1; d2])])) = ["imathproxy"; "imathproxy"]%string.
Proof.
  cbv zeta. split; [apply (lower_lowered "IMath")|]. split; [apply (lower_lowered "Imath")|reflexivity].
Qed.
