(* The generated text reads back as the intended proxies. *)
From Verif Require Import GenModel GenSpec.
From Coq Require Import String Ascii Arith Bool List Permutation Lia.
Import ListNotations.
Open Scope nat_scope.
Open Scope list_scope.

Definition counted (m : gmethod) : Prop :=
  pcount m = length (gm_params m) /\ rcount m = length (gm_results m).

Definition dflt (t : string) : gexpr :=
  match default t with [TNum n] => ENum n | [TId s] => EId s | _ => EId "" end.
Definition asserts (k : nat) (ts : list string) : list gexpr :=
  map (fun kt => EAssert (fst kt) (snd kt)) (combine (seq k (length ts)) ts).
Definition has_results (m : gmethod) : bool := match gm_results m with [] => false | _ => true end.
Definition intend (t : target) (m : gmethod) : pmethod :=
  let rs := map g_type (gm_results m) in
  mkPMethod (t_proxy t) (gm_name m) (map (fun g => (g_name g, g_type g)) (gm_params m)) rs
    (has_results m) (t_name t) (gm_name m) (map g_name (gm_params m)) (map dflt rs) (asserts 0 rs).

(* ---- semicolons ---- *)

Definition no_nl (l : list token) : Prop := Forall (fun t => t <> NL) l.

Lemma semis_cons b x r : x <> NL -> semis b (x :: r) = x :: semis (ends x) r.
Proof. destruct x; intros; try reflexivity. congruence. Qed.

Lemma semis_flat l : forall b x r, no_nl l -> x <> NL -> semis b (l ++ x :: r) = l ++ x :: semis (ends x) r.
Proof.
  induction l as [|y l IH]; intros b x r Hl Hx; cbn [app]. { now apply semis_cons. }
  inversion Hl; subst. rewrite semis_cons by assumption. now rewrite IH.
Qed.

Definition closed (l : list token) : Prop := match rev l with [] => True | x :: _ => ends x = true end.

Lemma semis_ret l : forall r, no_nl l -> closed l -> semis true (l ++ NL :: r) = l ++ Semi :: semis false r.
Proof.
  intros r Hl Hc. destruct l as [|x l] using rev_ind; [reflexivity|].
  clear IHl. unfold closed in Hc. rewrite rev_app_distr in Hc. cbn in Hc.
  apply Forall_app in Hl as [Hl Hx]. inversion Hx; subst.
  rewrite <- !app_assoc. cbn [app]. rewrite semis_flat by assumption. rewrite Hc. reflexivity.
Qed.

Lemma no_nl_range {A} (body : nat -> A -> list token) l : forall k,
  (forall k x, no_nl (body k x)) -> no_nl (range body k l).
Proof.
  induction l as [|x l IH]; intros k H; cbn; [constructor|]. apply Forall_app; split; [apply H|now apply IH].
Qed.

Lemma no_nl_comma k n : no_nl (comma k n).
Proof. unfold comma; destruct (_ <? _); repeat constructor; discriminate. Qed.

Lemma closed_app a b : b <> [] -> closed b -> closed (a ++ b).
Proof.
  unfold closed; rewrite rev_app_distr; destruct (rev b) eqn:E; [|auto].
  intros H; destruct H. rewrite <- (rev_involutive b), E. reflexivity.
Qed.

Lemma closed_range {A} (body : nat -> A -> list token) n l : forall k,
  (forall k x, body k x <> [] /\ closed (body k x)) ->
  k + length l = n -> closed (range (fun k x => body k x ++ comma k n) k l).
Proof.
  induction l as [|x l IH]; intros k H E; cbn [range]; [exact I|]. cbn [length] in E.
  destruct l as [|y l].
  - cbn. rewrite app_nil_r. unfold comma. replace (k + 1 <? n) with false.
    + rewrite app_nil_r. apply H.
    + symmetry; apply Nat.ltb_ge. cbn in E; lia.
  - apply closed_app. { cbn. destruct (body (S k) y) eqn:Eb; [|discriminate]. destruct (H (S k) y); tauto. }
    apply IH; auto. lia.
Qed.

(* ---- readers ---- *)

Lemma read_params_range n l : forall k r,
  k + length l <= S n ->
  read_params (range (fun j p => [TId (g_name p); TId (g_type p)] ++ (if j <=? n then [Comma] else [])) k l
               ++ RP :: r)
  = Some (map (fun g => (g_name g, g_type g)) l, r).
Proof.
  induction l as [|x l IH]; intros k r E; cbn [range map app]; [reflexivity|]. cbn [length] in E.
  replace (k <=? n) with true by (symmetry; apply Nat.leb_le; lia).
  cbn [app read_params]. rewrite IH by lia. reflexivity.
Qed.

Lemma comma_last k n : k + 1 = n -> comma k n = [].
Proof. intros; unfold comma. replace (k + 1 <? n) with false; auto. symmetry; apply Nat.ltb_ge; lia. Qed.
Lemma comma_more k n : k + 1 < n -> comma k n = [Comma].
Proof. intros H; unfold comma. now apply Nat.ltb_lt in H as ->. Qed.

Lemma read_idents_range (f : gfield -> string) n l : forall k r,
  k + length l = n ->
  read_idents (range (fun k x => [TId (f x)] ++ comma k n) k l ++ RP :: r) = Some (map f l, r).
Proof.
  induction l as [|x l IH]; intros k r E; cbn [range map app]; [reflexivity|]. cbn [length] in E.
  destruct l as [|y l].
  - rewrite comma_last by (cbn in E; lia). reflexivity.
  - rewrite comma_more by (cbn in E; lia). cbn [app read_idents].
    rewrite IH by lia. reflexivity.
Qed.

Lemma read_more_range {A} (body : nat -> A -> list token) (e : nat -> A -> gexpr) n l :
  (forall k x y r, y = Semi \/ y = Comma -> read_expr (body k x ++ y :: r) = Some (e k x, y :: r)) ->
  forall k fuel r,
  l <> [] -> k + length l = n -> length l <= fuel ->
  read_more fuel (range (fun k x => body k x ++ comma k n) k l ++ Semi :: r)
  = Some (map (fun kx => e (fst kx) (snd kx)) (combine (seq k (length l)) l), r).
Proof.
  intros Hb. induction l as [|x l IH]; intros k fuel r Hl E F; [congruence|].
  cbn [length] in E, F. destruct fuel as [|fuel]; [lia|]. cbn [range read_more].
  destruct l as [|y l].
  - rewrite comma_last by (cbn in E; lia). cbn [range]. rewrite !app_nil_r, Hb by auto. reflexivity.
  - rewrite comma_more by (cbn in E; lia). rewrite <- !app_assoc. cbn [app].
    rewrite Hb by auto. rewrite IH by (try discriminate; lia). reflexivity.
Qed.

Lemma range_length {A} (body : nat -> A -> list token) l : forall k,
  (forall k x, body k x <> []) -> length l <= length (range body k l).
Proof.
  induction l as [|x l IH]; intros k H; cbn; [lia|]. rewrite app_length.
  specialize (IH (S k) H). destruct (body k x) eqn:E; [destruct (H k x E)|cbn; lia].
Qed.

Lemma default_shape t : default t = [TId "false"] \/ default t = [TNum 0] \/ default t = [TId "nil"].
Proof. unfold default. destruct (String.eqb _ _); auto. destruct (existsb _ _); auto. Qed.

Lemma read_default t y r : y = Semi \/ y = Comma ->
  read_expr (default t ++ y :: r) = Some (dflt t, y :: r).
Proof.
  intros Hy. unfold dflt. destruct (default_shape t) as [->|[->| ->]]; destruct Hy; subst; reflexivity.
Qed.

Definition fail_text (n : nat) (l : list gfield) : list token :=
  range (fun k r => default (g_type r) ++ comma k n) 0 l.
Definition done_text (n : nat) (l : list gfield) : list token :=
  range (fun k r => [TId "results"; LK; TNum k; RK; Dot; LP; TId (g_type r); RP] ++ comma k n) 0 l.

Lemma combine_const {A B} (f : A -> B) (l : list A) : forall k,
  map (fun kx : nat * A => f (snd kx)) (combine (seq k (length l)) l) = map f l.
Proof. induction l; intros k; cbn; [reflexivity|]. now rewrite IHl. Qed.

Lemma combine_map {A B} (f : A -> B) (g : nat -> B -> gexpr) (l : list A) : forall k,
  map (fun kx : nat * A => g (fst kx) (f (snd kx))) (combine (seq k (length l)) l)
  = map (fun kx => g (fst kx) (snd kx)) (combine (seq k (length (map f l))) (map f l)).
Proof. induction l; intros k; cbn; [reflexivity|]. now rewrite IHl. Qed.

Lemma read_return_word u : (forall v, u <> Semi :: v) -> read_return (Word "return" :: u) = read_more (length u) u.
Proof. intros H. unfold read_return. destruct u as [|[] u]; try reflexivity. destruct (H u eq_refl). Qed.

Lemma read_return_fail l r :
  read_return (Word "return" :: fail_text (length l) l ++ Semi :: r) = Some (map dflt (map g_type l), r).
Proof.
  destruct l as [|x l]; [reflexivity|]. rewrite read_return_word.
  - unfold fail_text. rewrite read_more_range with (e := fun _ x => dflt (g_type x)); try easy.
    + rewrite combine_const with (f := fun x => dflt (g_type x)), map_map. reflexivity.
    + intros; now apply read_default.
    + rewrite app_length. etransitivity; [apply range_length with (k := 0)|apply Nat.le_add_r].
      intros k y. destruct (default_shape (g_type y)) as [->|[->| ->]]; discriminate.
  - intros v. unfold fail_text. cbn [range].
    destruct (default_shape (g_type x)) as [->|[->| ->]]; discriminate.
Qed.

Lemma read_return_done l r : l <> [] ->
  read_return (Word "return" :: done_text (length l) l ++ Semi :: r) = Some (asserts 0 (map g_type l), r).
Proof.
  intros Hl. rewrite read_return_word.
  - unfold done_text. rewrite read_more_range with (e := fun k x => EAssert k (g_type x)); try easy.
    + unfold asserts. now rewrite combine_map with (f := g_type) (g := EAssert).
    + rewrite app_length. etransitivity; [apply range_length with (k := 0)|apply Nat.le_add_r]. discriminate.
  - intros v. destruct l; [congruence|]. discriminate.
Qed.

Lemma no_nl_fail n l : no_nl (fail_text n l).
Proof.
  apply no_nl_range. intros k x. apply Forall_app; split; [|apply no_nl_comma].
  destruct (default_shape (g_type x)) as [->|[->| ->]]; repeat constructor; discriminate.
Qed.
Lemma no_nl_done n l : no_nl (done_text n l).
Proof.
  apply no_nl_range. intros k x. apply Forall_app; split; [|apply no_nl_comma]. repeat constructor; discriminate.
Qed.
Lemma closed_fail l : closed (fail_text (length l) l).
Proof.
  apply closed_range with (body := fun _ r => default (g_type r)); auto.
  intros k x. destruct (default_shape (g_type x)) as [->|[->| ->]]; split; (discriminate || reflexivity).
Qed.
Lemma closed_done l : closed (done_text (length l) l).
Proof.
  apply closed_range with (body := fun k r => [TId "results"; LK; TNum k; RK; Dot; LP; TId (g_type r); RP]); auto.
  intros k x. split; (discriminate || reflexivity).
Qed.

Ltac nonl := apply no_nl_range; intros; repeat (apply Forall_app; split); try apply no_nl_comma;
  repeat constructor; try discriminate.

(* The text of a method, with the semicolons. *)
Definition params_text (n : nat) (l : list gfield) : list token :=
  range (fun j p => [TId (g_name p); TId (g_type p)] ++ (if j <=? n then [Comma] else [])) 0 l.
Definition idents_text (f : gfield -> string) (n : nat) (l : list gfield) : list token :=
  range (fun k x => [TId (f x)] ++ comma k n) 0 l.
Lemma no_nl_params n l : no_nl (params_text n l).
Proof. nonl. destruct (_ <=? _); repeat constructor; discriminate. Qed.
Lemma no_nl_idents f n l : no_nl (idents_text f n l).
Proof. nonl. Qed.

Lemma method_head t m : method_text t m =
  [Word "func"; LP; TId "p"; Star; TId (t_proxy t); RP; TId (gm_name m); LP]
  ++ params_text (pcount m) (gm_params m) ++ RP ::
  (if 0 <? rcount m then LP :: idents_text g_type (rcount m) (gm_results m) ++ [RP] else [])
  ++ [LB; NL]
  ++ (if 0 <? rcount m
      then [TId "results"; Comma; TId "err"; Define; TId "p"; Dot; TId "slot"; Dot; TId "CallWithResult"]
      else [TId "err"; Define; TId "p"; Dot; TId "slot"; Dot; TId "Call"])
  ++ [LP; TStr (t_name t); Comma; TStr (gm_name m); Comma]
  ++ idents_text g_name (pcount m) (gm_params m)
  ++ RP :: NL :: NL :: Word "if" :: TId "nil" :: Neq :: TId "err" :: LB :: NL :: Word "return"
  :: fail_text (rcount m) (gm_results m)
  ++ NL :: RB ::
  (if 0 <? rcount m then NL :: NL :: Word "return" :: done_text (rcount m) (gm_results m) else [])
  ++ [NL; RB; NL].
Proof.
  unfold method_text, params_text, idents_text, fail_text, done_text.
  destruct (0 <? rcount m); cbn [app]; rewrite <- ?app_assoc; cbn [app]; reflexivity.
Qed.

Lemma semis_method b t m r : counted m ->
  semis b (method_text t m ++ r) =
  [Word "func"; LP; TId "p"; Star; TId (t_proxy t); RP; TId (gm_name m); LP]
  ++ params_text (pcount m) (gm_params m) ++ RP ::
  (if has_results m then LP :: idents_text g_type (rcount m) (gm_results m) ++ [RP] else [])
  ++ LB ::
  (if has_results m
      then [TId "results"; Comma; TId "err"; Define; TId "p"; Dot; TId "slot"; Dot; TId "CallWithResult"]
      else [TId "err"; Define; TId "p"; Dot; TId "slot"; Dot; TId "Call"])
  ++ [LP; TStr (t_name t); Comma; TStr (gm_name m); Comma]
  ++ idents_text g_name (pcount m) (gm_params m)
  ++ RP :: Semi :: Word "if" :: TId "nil" :: Neq :: TId "err" :: LB :: Word "return"
  :: fail_text (rcount m) (gm_results m)
  ++ Semi :: RB :: Semi ::
  (if has_results m then Word "return" :: done_text (rcount m) (gm_results m) ++ [Semi] else [])
  ++ RB :: Semi :: semis false r.
Proof.
  intros [Hp Hr]. rewrite method_head. unfold has_results.
  rewrite Hr. destruct (gm_results m) as [|x l] eqn:El.
  - change (0 <? length (@nil gfield)) with false. cbv iota.
    change (fail_text (length (@nil gfield)) []) with (@nil token).
    cbn [app]. rewrite <- ?app_assoc. cbn [app].
    repeat (rewrite semis_cons by discriminate).
    rewrite semis_flat by (try apply no_nl_params; discriminate).
    cbn [semis ends app]. rewrite <- ?app_assoc. cbn [app].
    rewrite semis_flat by (try apply no_nl_idents; discriminate).
    cbn [semis ends app String.eqb]. reflexivity.
  - change (0 <? length (x :: l)) with true. cbv iota. rewrite <- El in *. clear El.
    generalize (closed_fail (gm_results m)), (no_nl_fail (length (gm_results m)) (gm_results m)),
      (closed_done (gm_results m)), (no_nl_done (length (gm_results m)) (gm_results m)).
    generalize (fail_text (length (gm_results m)) (gm_results m)),
      (done_text (length (gm_results m)) (gm_results m)). intros ft dt C1 N1 C2 N2.
    cbn [app]. rewrite <- ?app_assoc. cbn [app]. rewrite <- ?app_assoc. cbn [app].
    repeat (rewrite semis_cons by discriminate).
    rewrite semis_flat by (try apply no_nl_params; discriminate).
    cbn [semis ends app]. rewrite <- ?app_assoc. cbn [app].
    rewrite semis_flat by (try apply no_nl_idents; discriminate).
    cbn [semis ends app]. rewrite <- ?app_assoc. cbn [app].
    rewrite semis_flat by (try apply no_nl_idents; discriminate).
    cbn [semis ends]. change (String.eqb "return" "return") with true.
    rewrite semis_ret by assumption. cbn [semis ends]. change (String.eqb "return" "return") with true.
    rewrite <- ?app_assoc. cbn [app]. rewrite semis_ret by assumption. cbn [semis ends]. rewrite <- ?app_assoc. reflexivity.
Qed.

Lemma eat_app w : forall r, eat w (w ++ r) = Some r.
Proof. induction w as [|x w IH]; intros r; cbn; [reflexivity|]. destruct (token_eq_dec x x); [apply IH|congruence]. Qed.

Lemma read_idents_text f l r : read_idents (idents_text f (length l) l ++ RP :: r) = Some (map f l, r).
Proof. now apply read_idents_range. Qed.
Lemma read_params_text l r :
  read_params (params_text (length l) l ++ RP :: r) = Some (map (fun g => (g_name g, g_type g)) l, r).
Proof. apply read_params_range. lia. Qed.

Ltac tok := cbv iota beta; repeat (match goal with |- context [token_eq_dec ?a ?b] =>
  let e := fresh "Q" in destruct (token_eq_dec a b) as [e|e]; try discriminate; try congruence; clear e end).

Lemma read_method_ok t m r : counted m -> exists u,
  eat [Word "func"; LP; TId "p"; Star] (semis false (method_text t m ++ r)) = Some u /\
  read_method u = Some (intend t m, semis false r).
Proof.
  intros C. rewrite semis_method by assumption. destruct C as [Hp Hr].
  rewrite Hp, Hr. eexists; split; [reflexivity|]. unfold read_method. cbn [app].
  rewrite read_params_text.
  unfold intend, has_results. destruct (gm_results m) as [|x l] eqn:El.
  - cbn [app]. cbn [eat]. destruct (token_eq_dec LB LB) as [_|]; [|congruence].
    unfold read_call. cbn [app eat].
    repeat (match goal with |- context [token_eq_dec ?a ?b] => destruct (token_eq_dec a b) as [?E|?E]; try discriminate; try congruence end).
    rewrite read_idents_text.
    change (fail_text (length (@nil gfield)) []) with (@nil token).
    reflexivity.
  - rewrite <- El in *. assert (Hl : gm_results m <> []) by (rewrite El; discriminate). clear El x l.
    cbn [app]. rewrite <- ?app_assoc. cbn [app]. rewrite read_idents_text.
    cbn [app eat]. tok. unfold read_call. cbn [eat]. tok.
    rewrite read_idents_text. cbn [eat]. tok. rewrite read_return_fail. tok.
    rewrite <- ?app_assoc. cbn [app]. rewrite read_return_done by assumption. tok.
Qed.

(* ---- the file ---- *)

Lemma read_decls_mono n : forall k l f, read_decls n l = Some f -> n <= k -> read_decls k l = Some f.
Proof.
  induction n as [|n IH]; intros [|k] l f H Hk; try discriminate; try lia.
  cbn [read_decls] in *. destruct (eat [Word "func"; TId "init"; LP; RP; LB] l); [assumption|].
  destruct (eat [Word "func"; LP; TId "p"; Star] l) as [u|].
  - destruct (read_method u) as [[m v]|]; [|discriminate].
    destruct (read_decls n v) eqn:E; [|discriminate]. now rewrite (IH k v _ E) by lia.
  - destruct l as [|[] [|[] l]]; try discriminate. destruct (String.eqb _ _); [|discriminate].
    destruct (eat _ l) as [v|]; [|discriminate].
    destruct (read_decls n v) eqn:E; [|discriminate]. now rewrite (IH k v _ E) by lia.
Qed.

Definition reads (l : list token) (f : pfile) : Prop :=
  exists n, n <= length l /\ read_decls n l = Some f.

Definition add_methods (ms : list pmethod) (f : pfile) : pfile :=
  mkPFile (pf_types f) (ms ++ pf_methods f) (pf_registered f).
Definition add_type (p : string) (f : pfile) : pfile :=
  mkPFile (p :: pf_types f) (pf_methods f) (pf_registered f).

Lemma reads_method t m r f : counted m ->
  reads (semis false r) f -> reads (semis false (method_text t m ++ r)) (add_methods [intend t m] f).
Proof.
  intros C (n & Hn & R). destruct (read_method_ok t m r C) as (u & Eu & Em).
  exists (S n). split.
  - rewrite semis_method by assumption. cbn [app length]. rewrite !app_length. cbn [app length]. rewrite !app_length.
    cbn [length]. rewrite !app_length. cbn [length]. rewrite !app_length. cbn [length]. rewrite !app_length.
    cbn [length]. rewrite !app_length. cbn [length]. lia.
  - cbn [read_decls]. rewrite Eu, Em, R.
    destruct (eat [Word "func"; TId "init"; LP; RP; LB] _) eqn:E; [|reflexivity].
    rewrite semis_method in E by assumption. cbn [app] in E. discriminate.
Qed.

Lemma reads_methods t ms r f : Forall counted ms ->
  reads (semis false r) f ->
  reads (semis false (flat_map (fun m => [NL] ++ method_text t m) ms ++ r)) (add_methods (map (intend t) ms) f).
Proof.
  induction ms as [|m ms IH]; intros C R. { destruct f; exact R. }
  inversion C; subst. cbn [flat_map app map]. rewrite <- app_assoc. cbn [semis].
  apply (reads_method t m) with (f := add_methods (map (intend t) ms) f); auto.
Qed.

Lemma reads_target t r f : Forall counted (t_methods t) ->
  reads (semis false r) f ->
  reads (semis false (target_text t ++ r))
        (add_type (t_proxy t) (add_methods (map (intend t) (t_methods t)) f)).
Proof.
  intros C R. unfold target_text. rewrite <- !app_assoc. cbn [app semis ends].
  change (String.eqb "type" "return") with false. change (String.eqb "struct" "return") with false. cbn [semis ends].
  destruct (reads_methods t (t_methods t) ([NL; NL] ++ r) f C R) as (n & Hn & E).
  exists (S n). cbn [app] in *. split.
  { cbn [length]. lia. }
  cbn [read_decls eat].
  tok. change (String.eqb "type" "type") with true. cbv iota. now rewrite E.
Qed.

Definition registers (ts : list target) : list (string * string) := map (fun t => (t_name t, t_proxy t)) ts.

Lemma semis_register t r :
  semis false (register_text t ++ r) =
  [TId "ferry"; Dot; TId "Register"; LP; TStr (t_name t); Comma;
   Word "func"; LP; TId "slot"; TId "ferry"; Dot; TId "ISlot"; RP; Word "interface"; LB; RB; LB;
   Word "return"; Amp; TId (t_proxy t); LB; TId "slot"; Colon; TId "slot"; RB; RB; RP; Semi]
  ++ semis false r.
Proof. reflexivity. Qed.

Lemma reads_registers ts :
  read_registers (semis false (flat_map register_text ts ++ [NL; RB; NL])) = Some (registers ts).
Proof.
  induction ts as [|t ts IH]; [reflexivity|].
  cbn [flat_map]. rewrite <- app_assoc, semis_register. cbn [app].
  cbn [read_registers]. rewrite IH.
  destruct (list_eq_dec string_dec _ _) as [_|N]; [reflexivity|]. destruct N; reflexivity.
Qed.

Lemma reads_targets ts : Forall (fun t => Forall counted (t_methods t)) ts ->
  reads (semis false (flat_map target_text ts
         ++ [NL; NL; Word "func"; TId "init"; LP; RP; LB; NL] ++ flat_map register_text ts ++ [NL; RB; NL]))
        (mkPFile (map t_proxy ts) (flat_map (fun t => map (intend t) (t_methods t)) ts) (registers ts)).
Proof.
  intros C.
  assert (R : reads (semis false ([NL; NL; Word "func"; TId "init"; LP; RP; LB; NL] ++ flat_map register_text ts ++ [NL; RB; NL]))
                    (mkPFile [] [] (registers ts))).
  { cbn [app semis ends]. change (String.eqb "func" "return") with false. cbn [semis ends].
    exists 1. split; [cbn [length]; lia|]. cbn [read_decls eat]. tok. now rewrite reads_registers. }
  revert R. generalize ([NL; NL; Word "func"; TId "init"; LP; RP; LB; NL] ++ flat_map register_text ts ++ [NL; RB; NL]).
  generalize (registers ts). intros rg rest R.
  induction C as [|t ts Ct C IH]; [exact R|].
  cbn [flat_map map]. rewrite <- app_assoc.
  exact (reads_target t _ _ Ct IH).
Qed.

Lemma read_file_text ts : Forall (fun t => Forall counted (t_methods t)) ts ->
  read_file (file_text ts) =
  Some (mkPFile (map t_proxy ts) (flat_map (fun t => map (intend t) (t_methods t)) ts) (registers ts)).
Proof.
  intros C. destruct (reads_targets ts C) as (n & Hn & E).
  unfold read_file, file_text. revert Hn E.
  generalize (flat_map target_text ts ++ [NL; NL; Word "func"; TId "init"; LP; RP; LB; NL] ++ flat_map register_text ts ++ [NL; RB; NL]).
  intros body Hn E. cbn [app semis ends].
  change (String.eqb "package" "return") with false. change (String.eqb "import" "return") with false. cbn [semis ends eat].
  tok. now apply read_decls_mono with (n := n).
Qed.
