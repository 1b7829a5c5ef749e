(* The generator as a whole. *)
From Verif Require Import GenModel GenSpec GenProof.
From Coq Require Import String Ascii Arith Bool List Permutation Lia.
Import ListNotations.
Open Scope nat_scope.
Open Scope list_scope.

(* ---- ignore ---- *)

Lemma prefix_iff t : forall s, prefix t s = true <-> exists u, s = String.append t u.
Proof.
  induction t as [|a t IH]; intros s; cbn [String.append].
  - split; [intros _; now exists s|intros _; now destruct s].
  - destruct s as [|b s]; [split; [discriminate|intros (u & H); discriminate]|].
    cbn [prefix]. destruct (ascii_dec a b) as [->|N].
    + rewrite IH. split; intros (u & H); exists u; congruence.
    + split; [discriminate|]. intros (u & H). congruence.
Qed.

Lemma contains_iff t : forall s, contains s t = true <-> inside t s.
Proof.
  induction s as [|c s IH]; cbn [contains]; rewrite orb_true_iff, prefix_iff.
  - split.
    + intros [(u & H)|H]; [|discriminate]. exists EmptyString, u. exact H.
    + intros ([|a h] & u & H); [|discriminate]. left. exists u. exact H.
  - rewrite IH. split.
    + intros [(u & H)|(h & u & H)]; [exists EmptyString, u; exact H|].
      exists (String c h), u. cbn. congruence.
    + intros ([|a h] & u & H); [left; exists u; exact H|].
      right. exists h, u. cbn in H. congruence.
Qed.

Definition no_sep (s : string) : Prop :=
  Forall (fun c => c <> "/"%char /\ c <> "."%char) (list_ascii_of_string s).

Lemma suffix_cons t c s : suffix_of t (String c s) <-> String c s = t \/ suffix_of t s.
Proof.
  split.
  - intros ([|a h] & H); [now left|]. right. exists h. cbn in H. congruence.
  - intros [->|(h & H)]; [now exists EmptyString|]. exists (String c h). cbn. congruence.
Qed.

Lemma path_ext_iff : forall s best,
  path_ext s best = ".go"%string <-> suffix_of ".go" s \/ (best = ".go"%string /\ no_sep s).
Proof.
  induction s as [|c s IH]; intros best; cbn [path_ext].
  - split; [intros ->; right; split; auto; constructor|].
    intros [([|a h] & H)|[H _]]; auto; discriminate.
  - rewrite suffix_cons. destruct (Ascii.eqb_spec c "/") as [->|N1].
    { rewrite IH. split.
      - intros [H|[H _]]; [auto|discriminate].
      - intros [[H|H]|[_ H]]; [discriminate|auto|]. inversion H; subst. tauto. }
    destruct (Ascii.eqb_spec c ".") as [->|N2].
    { rewrite IH. split.
      - intros [H|[H _]]; auto.
      - intros [[H|H]|[_ H]]; [|auto|].
        + right. split; [exact H|]. injection H as ->. repeat constructor; discriminate.
        + inversion H; subst. tauto. }
    rewrite IH. split.
    + intros [H|[H1 H2]]; [auto|]. right. split; [auto|]. constructor; auto.
    + intros [[H|H]|[H1 H2]]; [congruence|auto|]. right. split; auto. inversion H2; auto.
Qed.

Lemma ignore_iff file : ignore file = false <-> is_source file.
Proof.
  unfold ignore, is_source. rewrite <- contains_iff.
  destruct (String.eqb_spec (path_ext file EmptyString) ".go") as [E|E]; cbn [negb].
  - apply path_ext_iff in E as [E|[E _]]; [|discriminate].
    destruct (contains file "proxy.gen.go"); intuition discriminate.
  - split; [discriminate|]. intros [H _]. destruct E. apply path_ext_iff. auto.
Qed.

(* ---- names ---- *)

Lemma nat_of_ascii_small n : n < 256 -> nat_of_ascii (ascii_of_nat n) = n.
Proof. apply nat_ascii_embedding. Qed.

Lemma lower_small c : small c (lower_char c).
Proof.
  unfold small, lower_char. destruct (_ && _) eqn:E.
  - apply andb_true_iff in E as [E1 E2]. apply Nat.leb_le in E1, E2. left. split; [lia|].
    rewrite nat_of_ascii_small; lia.
  - right. split; auto. intros [H1 H2]. apply Nat.leb_le in H1, H2. rewrite H1, H2 in E. discriminate.
Qed.

Lemma lower_lowered s : lowered s (lower s).
Proof. induction s; unfold lowered in *; cbn; constructor; auto. apply lower_small. Qed.

Lemma small_fun c d e : small c d -> small c e -> d = e.
Proof.
  intros [[H1 H2]|[H1 H2]] [[K1 K2]|[K1 K2]]; try tauto; try congruence.
  rewrite <- (ascii_nat_embedding d), <- (ascii_nat_embedding e). congruence.
Qed.
Lemma lowered_fun a : forall b c, lowered a b -> lowered a c -> b = c.
Proof.
  unfold lowered. induction a as [|x a IH]; intros [|y b] [|z c] H K; cbn in *; auto; try solve [inversion H | inversion K].
  inversion H; inversion K; subst. f_equal; [eapply small_fun; eauto|auto].
Qed.

(* ---- parsing ---- *)

Lemma parse_params_len l : forall gs, parse_params l = Some gs -> length gs = length l.
Proof.
  induction l as [|[[|n ns] [t|]] l IH]; intros gs H; cbn in H; try discriminate; [now injection H as <-|].
  destruct (parse_params l) as [us|]; [|discriminate]. injection H as <-. cbn. f_equal. now apply IH.
Qed.
Lemma parse_results_len l : forall gs, parse_results l = Some gs -> length gs = length l.
Proof.
  induction l as [|[ns [t|]] l IH]; intros gs H; cbn in H; try discriminate; [now injection H as <-|].
  destruct (parse_results l) as [us|]; [|discriminate]. injection H as <-. cbn. f_equal. now apply IH.
Qed.

Lemma parse_elem_counted e m : parse_elem e = Some m -> counted m.
Proof.
  destruct e as [n ps rs|]; [|discriminate]. cbn.
  destruct (parse_params ps) eqn:E1; [|discriminate]. destruct (parse_results rs) eqn:E2; [|discriminate].
  intros H; injection H as <-. split; cbn; symmetry; [now apply parse_params_len|now apply parse_results_len].
Qed.

Lemma put_in m l x : In x (put_method m l) -> x = m \/ In x l.
Proof.
  induction l as [|y l IH]; cbn; [intuition|].
  destruct (String.compare _ _); cbn; intuition.
Qed.

Lemma parse_body_counted l : forall acc ms,
  Forall counted acc -> parse_body l acc = Some ms -> Forall counted ms.
Proof.
  induction l as [|e l IH]; intros acc ms C H; cbn in H; [now injection H as <-|].
  destruct (parse_elem e) as [m|] eqn:E; [|discriminate].
  apply (IH _ _) in H; auto. apply Forall_forall. intros x Hx.
  apply put_in in Hx as [->|Hx]; [eapply parse_elem_counted; eauto|].
  rewrite Forall_forall in C; auto.
Qed.

Definition targets_counted (ts : list target) : Prop := Forall (fun t => Forall counted (t_methods t)) ts.

Lemma scan_counted f : forall ts, scan f = Some ts -> targets_counted ts.
Proof.
  induction f as [|d f IH]; intros ts H; cbn in H; [injection H as <-; constructor|].
  destruct (parse_decl d) as [t| |] eqn:E; [|auto|discriminate].
  destruct (scan f) as [us|]; [|discriminate]. injection H as <-. constructor; [|now apply IH].
  destruct d as [[|[n body|n] [|]]|]; try discriminate. cbn in E.
  destruct (parse_body body []) eqn:Eb; [|discriminate]. injection E as <-. cbn.
  eapply parse_body_counted; eauto.
Qed.

Lemma scan_app a : forall b, scan (a ++ b) =
  match scan a, scan b with Some x, Some y => Some (x ++ y) | _, _ => None end.
Proof.
  induction a as [|d a IH]; intros b; cbn; [destruct (scan b); auto|].
  destruct (parse_decl d); [|apply IH|reflexivity].
  rewrite IH. destruct (scan a); auto. destruct (scan b); auto.
Qed.

Lemma scan_files_decls fs ds : decls_of fs ds -> scan_files fs = scan ds.
Proof.
  induction 1 as [|f s r ds Hf _ IH|f s r ds Hf _ IH]; [reflexivity| |]; cbn [scan_files].
  - apply ignore_iff in Hf. rewrite Hf, IH, scan_app. destruct (scan s); auto.
  - rewrite <- ignore_iff in Hf. destruct (ignore f); [exact IH|congruence].
Qed.

Lemma decls_of_total fs : exists ds, decls_of fs ds.
Proof.
  induction fs as [|[f s] fs (ds & IH)]; [exists []; constructor|].
  destruct (ignore f) eqn:E.
  - exists ds. apply do_drop; auto. rewrite <- ignore_iff, E. discriminate.
  - exists (s ++ ds). apply do_take; auto. now apply ignore_iff.
Qed.

(* What scan makes of the interfaces. *)
Definition of_iface (nb : string * list elem) (t : target) : Prop :=
  t_name t = fst nb /\ t_proxy t = lower (String.append (fst nb) "proxy") /\ parse_body (snd nb) [] = Some (t_methods t).

Lemma scan_ifaces ds : forall ts, scan ds = Some ts -> Forall2 of_iface (interfaces ds) ts.
Proof.
  unfold interfaces. induction ds as [|d ds IH]; intros ts H; cbn in H; [injection H as <-; constructor|].
  destruct d as [[|[n body|n] [|]]|]; cbn in *; try discriminate; auto.
  destruct (parse_body body []) eqn:Eb; [|discriminate].
  destruct (scan ds) as [us|]; [|discriminate]. injection H as <-. constructor; [|now apply IH].
  repeat split; auto.
Qed.

Lemma parse_params_none l : parse_params l = None <-> Exists (fun f => f_names f = [] \/ ~ ident_type (f_type f)) l.
Proof.
  induction l as [|[[|n ns] [t|]] l IH]; cbn.
  - split; [discriminate|intros H; inversion H].
  - split; [intros _; left; cbn; auto|auto].
  - split; [intros _; left; cbn; auto|auto].
  - destruct (parse_params l).
    + split; [discriminate|]. intros H. inversion H as [x y [K|K]|x y K]; subst; cbn in *; [discriminate|destruct K; eexists; eauto|].
      apply IH in K. discriminate.
    + split; [|auto]. intros _. right. now apply IH.
  - split; [|auto]. intros _. left. right. cbn. intros [x Hx]; discriminate.
Qed.
Lemma parse_results_none l : parse_results l = None <-> Exists (fun f => ~ ident_type (f_type f)) l.
Proof.
  induction l as [|[ns [t|]] l IH]; cbn.
  - split; [discriminate|intros H; inversion H].
  - destruct (parse_results l).
    + split; [discriminate|]. intros H. inversion H as [x y K|x y K]; subst; cbn in *; [destruct K; eexists; eauto|].
      apply IH in K. discriminate.
    + split; [|auto]. intros _. right. now apply IH.
  - split; [|auto]. intros _. left. cbn. intros [x Hx]; discriminate.
Qed.
Lemma parse_elem_none e : parse_elem e = None <-> unfit e.
Proof.
  destruct e as [n ps rs|]; cbn; [|intuition].
  rewrite <- parse_params_none, <- parse_results_none.
  destruct (parse_params ps), (parse_results rs); intuition discriminate.
Qed.
Lemma parse_body_none l : forall acc, parse_body l acc = None <-> Exists unfit l.
Proof.
  induction l as [|e l IH]; intros acc; cbn; [split; [discriminate|intros H; inversion H]|].
  destruct (parse_elem e) eqn:E.
  - rewrite IH. split; [now right|]. intros H. inversion H; subst; auto.
    apply parse_elem_none in H1. congruence.
  - split; auto. intros _. left. now apply parse_elem_none.
Qed.

Lemma scan_none ds : scan ds = None <->
  In (TypeDecl []) ds \/ exists n body, In (n, body) (interfaces ds) /\ Exists unfit body.
Proof.
  unfold interfaces. induction ds as [|d ds IH]; cbn [scan flat_map In].
  - split; [discriminate|]. intros [[]|(n & b & [] & _)].
  - assert (K : alone d = [] -> d <> TypeDecl [] ->
       (scan ds = None <-> (d = TypeDecl [] \/ In (TypeDecl []) ds) \/
          exists n body, In (n, body) (alone d ++ flat_map alone ds) /\ Exists unfit body)).
    { intros -> H. cbn [app]. rewrite IH. tauto. }
    destruct d as [[|[n body|n] [|x l]]|]; cbn [parse_decl].
    + split; auto.
    + cbn [alone app]. destruct (parse_body body []) eqn:E.
      * destruct (scan ds) eqn:Es.
        -- split; [discriminate|]. intros [[H|H]|(n' & b' & [H|H] & Hb)]; [discriminate| | |].
           ++ destruct IH as [_ IH]. discriminate IH; auto.
           ++ injection H as <- <-. apply (parse_body_none body []) in Hb. congruence.
           ++ destruct IH as [_ IH]. discriminate IH; eauto 6.
        -- split; auto. intros _. destruct IH as [IH _]. destruct (IH eq_refl) as [H|(n' & b' & H & Hb)]; auto.
           right. exists n', b'. cbn; auto.
      * split; auto. intros _. right. exists n, body. split; [now left|]. now apply (parse_body_none body []).
    + apply K; [reflexivity|discriminate].
    + apply K; [reflexivity|discriminate].
    + apply K; [reflexivity|discriminate].
    + apply K; [reflexivity|discriminate].
Qed.

(* ---- theorems on whole files ---- *)

Definition generated (ts : list target) : pfile :=
  mkPFile (map t_proxy ts) (flat_map (fun t => map (intend t) (t_methods t)) ts) (registers ts).

Lemma generate_file fs text : generate fs = File text ->
  exists ts, scan_files fs = Some ts /\ ts <> [] /\ targets_counted ts /\ read_file text = Some (generated ts).
Proof.
  unfold generate. destruct (scan_files fs) as [[|t ts]|] eqn:E; try discriminate.
  intros H; injection H as <-. exists (t :: ts). split; auto. split; [discriminate|].
  assert (C : targets_counted (t :: ts)).
  { destruct (decls_of_total fs) as (ds & D). rewrite (scan_files_decls _ _ D) in E. eapply scan_counted; eauto. }
  split; auto. now apply read_file_text.
Qed.

Lemma generated_readable fs text : generate fs = File text -> exists pf, read_file text = Some pf.
Proof. intros H. destruct (generate_file _ _ H) as (ts & _ & _ & _ & E). eauto. Qed.

Lemma generate_crash fs ds : decls_of fs ds ->
  (generate fs = Crash <->
   In (TypeDecl []) ds \/ exists n body, In (n, body) (interfaces ds) /\ Exists unfit body).
Proof.
  intros D. rewrite <- scan_none, <- (scan_files_decls _ _ D). unfold generate.
  destruct (scan_files fs) as [[|]|]; split; congruence.
Qed.

Lemma forall2_nil_iff {A B} (R : A -> B -> Prop) l k : Forall2 R l k -> (l = [] <-> k = []).
Proof. intros H; inversion H; split; auto; discriminate. Qed.

Lemma generate_nothing fs ds : decls_of fs ds ->
  (generate fs = Nothing <-> interfaces ds = [] /\ ~ In (TypeDecl []) ds).
Proof.
  intros D. pose proof (scan_none ds) as N. unfold generate. rewrite (scan_files_decls _ _ D).
  destruct (scan ds) as [ts|] eqn:E.
  - pose proof (forall2_nil_iff _ _ _ (scan_ifaces _ _ E)) as F. destruct ts; split.
    + intros _. split; [now apply F|]. intros H. destruct N as [_ N]. discriminate N; auto.
    + auto.
    + discriminate.
    + intros [H _]. apply F in H. discriminate.
  - split; [discriminate|]. intros [H1 H2]. destruct N as [N _].
    destruct (N eq_refl) as [H|(n & b & H & _)]; [tauto|]. rewrite H1 in H. destruct H.
Qed.

Lemma generate_registers fs ds text pf : decls_of fs ds -> generate fs = File text -> read_file text = Some pf ->
  Forall2 (fun nb r => fst r = fst nb /\ proxy_name (fst nb) (snd r)) (interfaces ds) (pf_registered pf) /\
  pf_types pf = map snd (pf_registered pf).
Proof.
  intros D G R. destruct (generate_file _ _ G) as (ts & Es & _ & _ & E). rewrite R in E. injection E as ->.
  rewrite (scan_files_decls _ _ D) in Es. apply scan_ifaces in Es. clear G R. cbn. split.
  - unfold registers. induction Es as [|nb t l ts (H1 & H2 & H3) _ IH]; cbn; constructor; auto.
    cbn. split; auto. rewrite H2. apply lower_lowered.
  - unfold registers. rewrite map_map. now apply map_ext.
Qed.

Lemma intend_forwards t m : forwards (intend t m).
Proof.
  unfold forwards, intend, has_results, asserts. cbn. repeat split.
  - now rewrite map_map.
  - destruct (gm_results m); cbn; discriminate.
  - destruct (gm_results m); cbn; [congruence|reflexivity].
  - now rewrite map_length.
Qed.

Lemma in_generated ts m : In m (pf_methods (generated ts)) ->
  exists t g, In t ts /\ In g (t_methods t) /\ m = intend t g.
Proof.
  cbn. intros H. apply in_flat_map in H as (t & Ht & H). apply in_map_iff in H as (g & <- & Hg). eauto.
Qed.

Lemma generate_forwards fs text pf m : generate fs = File text -> read_file text = Some pf ->
  In m (pf_methods pf) -> forwards m /\ In (pm_iface m, pm_recv m) (pf_registered pf).
Proof.
  intros G R Hm. destruct (generate_file _ _ G) as (ts & _ & _ & _ & E). rewrite R in E. injection E as ->.
  apply in_generated in Hm as (t & g & Ht & Hg & ->). split; [apply intend_forwards|].
  cbn. unfold registers. apply in_map_iff. eauto.
Qed.

(* ---- signatures ---- *)

Definition gsig (m : gmethod) : msig :=
  mkSig (gm_name m) (map (fun g => Ident (g_type g)) (gm_params m)) (map (fun g => Ident (g_type g)) (gm_results m)).

Lemma psig_intend t m : psig (intend t m) = gsig m.
Proof. unfold psig, gsig, intend. cbn. now rewrite !map_map. Qed.

Lemma put_perm m l : ~ In (gm_name m) (map gm_name l) -> Permutation (put_method m l) (m :: l).
Proof.
  induction l as [|x l IH]; intros H; cbn; auto. destruct (String.compare _ _) eqn:E.
  - apply String.compare_eq_iff in E. destruct H. cbn; auto.
  - reflexivity.
  - rewrite IH; [apply perm_swap|]. intros K. apply H. cbn; auto.
Qed.

Lemma parse_elem_name e m : parse_elem e = Some m -> elem_names [e] = [gm_name m].
Proof.
  destruct e as [n ps rs|]; cbn; [|discriminate].
  destruct (parse_params ps), (parse_results rs); try discriminate. intros H; now injection H as <-.
Qed.

Lemma parse_body_perm l : forall acc ms,
  parse_body l acc = Some ms -> NoDup (map gm_name acc ++ elem_names l) ->
  exists gs, Forall2 (fun e g => parse_elem e = Some g) l gs /\ Permutation ms (acc ++ gs).
Proof.
  induction l as [|e l IH]; intros acc ms H N; cbn in H.
  - injection H as <-. exists []. split; [constructor|]. now rewrite app_nil_r.
  - destruct (parse_elem e) as [m|] eqn:E; [|discriminate].
    change (elem_names (e :: l)) with (elem_names [e] ++ elem_names l) in N || (cbn in N).
    assert (En : elem_names (e :: l) = gm_name m :: elem_names l).
    { pose proof (parse_elem_name _ _ E) as K. unfold elem_names in *. cbn in *. rewrite app_nil_r in K. now rewrite K. }
    assert (N' : NoDup (gm_name m :: map gm_name acc ++ elem_names l)).
    { eapply Permutation_NoDup; [|exact N].
      match goal with |- Permutation ?a _ => replace a with (map gm_name acc ++ gm_name m :: elem_names l) end.
      - symmetry; apply Permutation_middle.
      - f_equal. symmetry. exact En. }
    assert (P : Permutation (put_method m acc) (m :: acc)).
    { apply put_perm. inversion N'; subst. intros K. apply H2. apply in_or_app; auto. }
    destruct (IH _ _ H) as (gs & F & Q).
    { eapply Permutation_NoDup; [|exact N']. 
      change (gm_name m :: map gm_name acc ++ elem_names l) with (map gm_name (m :: acc) ++ elem_names l).
      apply Permutation_app_tail. now apply Permutation_map, Permutation_sym. }
    exists (m :: gs). split; [now constructor|].
    rewrite Q, P. cbn. apply Permutation_middle.
Qed.

Lemma tidy_params ps : forall gs,
  Forall (fun f => length (f_names f) = 1 /\ ident_type (f_type f)) ps -> parse_params ps = Some gs ->
  flat_map expand ps = map (fun g => Ident (g_type g)) gs.
Proof.
  induction ps as [|[[|n ns] [t|]] ps IH]; intros gs F H; cbn in *; try discriminate; [now injection H as <-|].
  destruct (parse_params ps) eqn:E; [|discriminate]. injection H as <-.
  inversion F as [|x y [K1 K2] K3]; subst. cbn in K1. destruct ns; [|discriminate]. cbn. f_equal. now apply IH.
Qed.
Lemma tidy_results ps : forall gs,
  Forall (fun f => length (f_names f) <= 1 /\ ident_type (f_type f)) ps -> parse_results ps = Some gs ->
  flat_map expand ps = map (fun g => Ident (g_type g)) gs.
Proof.
  induction ps as [|[ns [t|]] ps IH]; intros gs F H; cbn in *; try discriminate; [now injection H as <-|].
  destruct (parse_results ps) eqn:E; [|discriminate]. injection H as <-.
  inversion F as [|x y [K1 K2] K3]; subst. cbn in K1.
  destruct ns as [|? [|]]; [| |cbn in K1; lia]; cbn; f_equal; now apply IH.
Qed.
Lemma tidy_sig e g : tidy e -> parse_elem e = Some g -> declared [e] = [gsig g].
Proof.
  destruct e as [n ps rs|]; [|intros []]. intros [T1 T2] H. cbn in H.
  destruct (parse_params ps) eqn:E1; [|discriminate]. destruct (parse_results rs) eqn:E2; [|discriminate].
  injection H as <-. unfold gsig; cbn. now rewrite (tidy_params _ _ T1 E1), (tidy_results _ _ T2 E2).
Qed.

Lemma declared_cons e l : declared (e :: l) = declared [e] ++ declared l.
Proof. unfold declared. cbn. now rewrite app_nil_r. Qed.

Lemma tidy_body body ms : parse_body body [] = Some ms -> Forall tidy body -> NoDup (elem_names body) ->
  Permutation (map gsig ms) (declared body).
Proof.
  intros H T N. destruct (parse_body_perm _ _ _ H N) as (gs & F & P). cbn in P.
  rewrite P. clear H N P ms. induction F as [|e g l gs E F IH]; [reflexivity|].
  inversion T; subst. rewrite declared_cons, (tidy_sig e g) by assumption. cbn. auto.
Qed.

Lemma tidy_not_unfit e : tidy e -> ~ unfit e.
Proof.
  destruct e as [n ps rs|]; cbn; [|tauto]. intros [T1 T2] [H|H]; apply Exists_exists in H as (f & Hf & K);
  rewrite Forall_forall in T1, T2.
  - destruct (T1 _ Hf) as [L I]. destruct K as [K|K]; [rewrite K in L; discriminate|tauto].
  - destruct (T2 _ Hf). tauto.
Qed.

(* The declared methods of each interface with the proxy type it gets. *)
Definition expected (is : list (string * list elem)) (rs : list (string * string)) : list (string * msig) :=
  flat_map (fun x => map (pair (snd (snd x))) (declared (snd (fst x)))) (combine is rs).

Lemma generate_signatures fs ds : decls_of fs ds ->
  Forall (fun nb => Forall tidy (snd nb) /\ NoDup (elem_names (snd nb))) (interfaces ds) ->
  ~ In (TypeDecl []) ds -> interfaces ds <> [] ->
  exists text pf, generate fs = File text /\ read_file text = Some pf /\
  Permutation (map (fun m => (pm_recv m, psig m)) (pf_methods pf))
    (flat_map (fun x => map (pair (snd (snd x))) (declared (snd (fst x)))) (combine (interfaces ds) (pf_registered pf))).
Proof.
  intros D T NE I.
  destruct (generate fs) as [| |text] eqn:G.
  - apply (generate_crash _ _ D) in G as [G|(n & body & H & K)]; [tauto|].
    rewrite Forall_forall in T. destruct (T _ H) as [T1 _]. apply Exists_exists in K as (e & He & K).
    cbn in T1. rewrite Forall_forall in T1. destruct (tidy_not_unfit _ (T1 _ He) K).
  - apply (generate_nothing _ _ D) in G as [G _]. congruence.
  - destruct (generate_file _ _ G) as (ts & Es & _ & _ & R). exists text, (generated ts).
    split; auto. split; auto. rewrite (scan_files_decls _ _ D) in Es. apply scan_ifaces in Es.
    clear - T Es. cbn. unfold registers. induction Es as [|nb t l ts (H1 & H2 & H3) _ IH]; [constructor|].
    inversion T as [|x y [T1 T2] T3]; subst. cbn. rewrite map_app.
    apply Permutation_app; [|now apply IH].
    rewrite map_map. cbn.
    rewrite map_ext with (g := fun g => pair (t_proxy t) (gsig g)) by (intros; now rewrite psig_intend).
    rewrite <- (map_map gsig (pair (t_proxy t))). apply Permutation_map. now apply tidy_body.
Qed.

(* ---- groups lose parameters ---- *)

Definition size (s : msig) : nat := length (s_params s) + length (s_results s).

Lemma expand_len f : length (expand f) = max 1 (length (f_names f)).
Proof. unfold expand. destruct (f_names f); cbn; [reflexivity|]. now rewrite map_length. Qed.
Lemma expand_list_len l : length l <= length (flat_map expand l).
Proof. induction l; cbn; [lia|]. rewrite app_length, expand_len. lia. Qed.
Lemma expand_list_more l : Exists (fun f => 2 <= length (f_names f)) l -> length l < length (flat_map expand l).
Proof.
  induction 1; cbn; rewrite app_length, expand_len; [pose proof (expand_list_len l)|]; lia.
Qed.

Lemma parse_elem_size e g : parse_elem e = Some g ->
  exists s, declared [e] = [s] /\ size (gsig g) <= size s /\ (grouped e -> size (gsig g) < size s).
Proof.
  destruct e as [n ps rs|]; [|discriminate]. cbn.
  destruct (parse_params ps) eqn:E1; [|discriminate]. destruct (parse_results rs) eqn:E2; [|discriminate].
  intros H; injection H as <-. eexists; split; [reflexivity|]. unfold size, gsig; cbn.
  rewrite !map_length, (parse_params_len _ _ E1), (parse_results_len _ _ E2).
  pose proof (expand_list_len ps). pose proof (expand_list_len rs). split; [lia|].
  intros [K|K]; apply expand_list_more in K; lia.
Qed.

Definition total (l : list msig) : nat := list_sum (map size l).
Lemma total_perm a b : Permutation a b -> total a = total b.
Proof. unfold total. induction 1; cbn; auto; lia. Qed.
Lemma total_app a b : total (a ++ b) = total a + total b.
Proof. unfold total. now rewrite map_app, list_sum_app. Qed.

Lemma grouped_body body ms : parse_body body [] = Some ms -> NoDup (elem_names body) ->
  total (map gsig ms) <= total (declared body) /\
  (Exists grouped body -> total (map gsig ms) < total (declared body)).
Proof.
  intros H N. destruct (parse_body_perm _ _ _ H N) as (gs & F & P). cbn in P.
  rewrite (total_perm _ _ (Permutation_map gsig P)). clear H N P ms.
  induction F as [|e g l gs E F [IH1 IH2]]; [split; [auto|intros H; inversion H]|].
  rewrite declared_cons, total_app. destruct (parse_elem_size _ _ E) as (s & -> & L1 & L2).
  change (total (map gsig (g :: gs))) with (size (gsig g) + total (map gsig gs)).
  change (total [s]) with (size s + 0). split; [lia|]. intros H. inversion H; subst.
  - specialize (L2 H1). lia.
  - specialize (IH2 H1). lia.
Qed.

Lemma generate_grouped fs ds text pf : decls_of fs ds ->
  Forall (fun nb => NoDup (elem_names (snd nb))) (interfaces ds) ->
  generate fs = File text -> read_file text = Some pf ->
  Exists (fun nb => Exists grouped (snd nb)) (interfaces ds) ->
  ~ Permutation (map psig (pf_methods pf)) (flat_map (fun nb => declared (snd nb)) (interfaces ds)).
Proof.
  intros D N G R X P. apply total_perm in P.
  destruct (generate_file _ _ G) as (ts & Es & _ & _ & E). rewrite R in E. injection E as ->.
  rewrite (scan_files_decls _ _ D) in Es. apply scan_ifaces in Es. cbn [pf_methods generated] in P.
  assert (L : total (map psig (flat_map (fun t => map (intend t) (t_methods t)) ts)) <=
              total (flat_map (fun nb => declared (snd nb)) (interfaces ds)) /\
              (Exists (fun nb => Exists grouped (snd nb)) (interfaces ds) ->
               total (map psig (flat_map (fun t => map (intend t) (t_methods t)) ts)) <
              total (flat_map (fun nb => declared (snd nb)) (interfaces ds)))).
  { clear - Es N. induction Es as [|nb t l ts (H1 & H2 & H3) F IH]; [split; [auto|intros H; inversion H]|].
    inversion N as [|x y N1 N2]; subst. destruct (IH N2) as [IH1 IH2]. clear IH. cbn [flat_map]. rewrite map_app, !total_app, map_map.
    rewrite map_ext with (g := gsig) by (intros; apply psig_intend).
    destruct (grouped_body _ _ H3 N1) as [L1 L2]. split; [lia|].
    intros H. inversion H; subst; [specialize (L2 H4)|specialize (IH2 H4)]; lia. }
  destruct L as [_ L]. specialize (L X). lia.
Qed.

(* ---- legal Go ---- *)

Lemma dflt_assignable t : assignable (dflt t) t <-> ~ In t nil_unfit.
Proof.
  unfold dflt, default. destruct (String.eqb_spec t "bool") as [->|Nb].
  { cbn. intuition discriminate. }
  destruct (existsb _ _) eqn:E.
  - apply existsb_exists in E as (u & Hu & K). apply String.eqb_eq in K as <-. cbn [assignable].
    cbn in Hu. split; [|intros _].
    + intros _ K. cbn in K. intuition (subst; discriminate).
    + cbn. tauto.
  - assert (N : ~ In t ["int"; "int8"; "int16"; "int32"; "int64"; "uint"; "uint8"; "uint16"; "uint32";
             "uint64"; "float32"; "float64"]%string).
    { intros K. assert (existsb (String.eqb t) ["int"; "int8"; "int16"; "int32"; "int64"; "uint"; "uint8"; "uint16"; "uint32";
             "uint64"; "float32"; "float64"]%string = true); [|congruence].
      apply existsb_exists. exists t. split; auto. apply String.eqb_refl. }
    clear E. cbn [assignable]. split.
    + intros [[K _]|[_ K]]; [discriminate|]. intros U. apply K. cbn in *. tauto.
    + intros U. right. split; auto. intros K. cbn in *.
      repeat (destruct K as [K|K]; [first [congruence | apply U; tauto | apply N; tauto]|]). exact K.
Qed.

Lemma assignable_asserts l : forall k, Forall2 assignable (asserts k l) l.
Proof.
  unfold asserts. induction l; intros k; cbn; constructor; [reflexivity|]. apply (IHl (S k)).
Qed.

Lemma generate_returns fs text pf m : generate fs = File text -> read_file text = Some pf -> In m (pf_methods pf) ->
  (returns_fit m <-> forall t, In t (pm_results m) -> ~ In t nil_unfit).
Proof.
  intros G R Hm. destruct (generate_file _ _ G) as (ts & _ & _ & _ & E). rewrite R in E. injection E as ->.
  apply in_generated in Hm as (t & g & _ & _ & ->). unfold returns_fit, intend. cbn.
  generalize (map g_type (gm_results g)). intros l. split.
  - intros [F _] x Hx. induction l as [|y l IH]; [destruct Hx|]. inversion F; subst.
    destruct Hx as [->|Hx]; [now apply dflt_assignable|auto].
  - intros H. split; [|intros _; apply assignable_asserts].
    induction l as [|y l IH]; constructor.
    + apply dflt_assignable, H. now left.
    + apply IH. intros x Hx. apply H. now right.
Qed.

Lemma generate_names fs text pf m : generate fs = File text -> read_file text = Some pf -> In m (pf_methods pf) ->
  (names_ok m <->
   NoDup (map fst (pm_params m)) /\ ~ In "p"%string (map fst (pm_params m)) /\ ~ In "_"%string (map fst (pm_params m)) /\
   (~ In "err"%string (map fst (pm_params m)) \/
    (pm_results m <> [] /\ ~ In "results"%string (map fst (pm_params m))))).
Proof.
  intros G R Hm. destruct (generate_forwards _ _ _ _ G R Hm) as [(_ & A & Rq & _) _].
  unfold names_ok. rewrite A. clear A G R Hm. revert Rq. generalize (map fst (pm_params m)), (pm_request m), (pm_results m).
  intros ps rq rs Rq. 
  assert (Fb : ~ In "_"%string ps -> filter not_blank ps = ps).
  { induction ps as [|x ps IH]; cbn; auto. intros H. unfold not_blank at 1.
    destruct (String.eqb_spec x "_") as [->|]; [tauto|]. cbn. f_equal. apply IH. tauto. }
  change (filter not_blank ("p"%string :: ps)) with ("p"%string :: filter not_blank ps).
  split.
  - intros (N & B & v & Hv & Hn). rewrite (Fb B) in N. inversion N; subst. repeat split; auto.
    destruct rq.
    + destruct Hv as [<-|[<-|[]]].
      * right. split; [now apply Rq|]. intros K. apply Hn. now right.
      * left. intros K. apply Hn. now right.
    + destruct Hv as [<-|[]]. left. intros K. apply Hn. now right.
  - intros (N & P & B & V). rewrite (Fb B). split; [now constructor|]. split; auto.
    destruct V as [V|[V1 V2]].
    + exists "err"%string. split; [destruct rq; cbn; auto|]. intros [K|K]; [discriminate|tauto].
    + exists "results"%string. apply Rq in V1. rewrite V1. split; [now left|]. intros [K|K]; [discriminate|tauto].
Qed.

Lemma lowered_app a b p : lowered a b -> lowered (String.append a "proxy") p -> p = String.append b "proxy".
Proof.
  revert b p. unfold lowered. induction a as [|x a IH]; intros b p H K.
  - destruct b; [|inversion H]. cbn [String.append] in *. eapply lowered_fun; [exact K|].
    unfold lowered. cbn [list_ascii_of_string].
    repeat (apply Forall2_cons; [right; split; [cbn; lia|reflexivity]|]). apply Forall2_nil.
  - destruct b as [|y b]; [inversion H|]. destruct p as [|z p]; [inversion K|]. cbn in *.
    inversion H; inversion K; subst. f_equal; [eapply small_fun; eauto|]. now apply IH.
Qed.

Lemma generate_clash fs ds text pf n1 n2 a b c b1 b2 w : decls_of fs ds -> generate fs = File text ->
  read_file text = Some pf -> interfaces ds = a ++ (n1, b1) :: b ++ (n2, b2) :: c ->
  lowered n1 w -> lowered n2 w -> ~ NoDup (pf_types pf).
Proof.
  intros D G R I L1 L2 N. destruct (generate_registers _ _ _ _ D G R) as [F T]. rewrite I in F. rewrite T in N.
  clear T R. revert F N. generalize (pf_registered pf). intros rs F N.
  apply Forall2_app_inv_l in F as (ra & rb & _ & F & ->).
  inversion F as [|? [m1 p1] ? ? [_ P1] F']; subst. apply Forall2_app_inv_l in F' as (rc & rd & _ & F' & ->).
  inversion F' as [|? [m2 p2] ? ? [_ P2] F'']; subst. cbn in *.
  rewrite map_app in N. cbn in N. apply NoDup_remove_2 in N. apply N.
  rewrite (lowered_app _ _ _ L1 P1), (lowered_app _ _ _ L2 P2).
  rewrite map_app. cbn. apply in_or_app. right. apply in_or_app. right. now left.
Qed.
