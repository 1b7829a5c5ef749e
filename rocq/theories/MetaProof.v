(* Lemmas for meta.go (C30). *)
From Verif Require Import GoInt GoFloat GoVal MetaModel MetaSpec.
From Coq Require Import List Lia ZArith.
Import ListNotations.
Open Scope Z_scope.

Lemma ibits_pos ws k : 0 < ibits ws k.
Proof. destruct ws, k; cbn; lia. Qed.
Lemma ubits_pos ws k : 0 < ubits ws k.
Proof. destruct ws, k; cbn; lia. Qed.

Lemma swrap_unique w z z' : 0 < w -> in_s w z' -> z' mod 2 ^ w = z mod 2 ^ w -> swrap w z = z'.
Proof.
  intros Hw Hs E. rewrite <- (swrap_id w z' Hw Hs). unfold swrap.
  rewrite (Z.add_mod z), (Z.add_mod z') by (apply Z.pow_nonzero; lia). rewrite E. reflexivity.
Qed.
Lemma uwrap_unique w z z' : 0 < w -> in_u w z' -> z' mod 2 ^ w = z mod 2 ^ w -> uwrap w z = z'.
Proof. intros Hw Hu E. unfold uwrap. rewrite <- E. apply uwrap_id. exact Hu. Qed.

Lemma convert_complete ws open ty v v' : converts ws ty v v' -> convert ws open ty v = Some v'.
Proof.
  destruct 1 as [v Hv| | | | |t' k v z z' Hz Hs E|t' k v z z' Hz Hs E| |]; try reflexivity.
  - destruct v; try reflexivity. congruence.
  - destruct Hz; cbn [convert]; rewrite (swrap_unique _ _ z' (ibits_pos ws k) Hs E); reflexivity.
  - destruct Hz; cbn [convert]; rewrite (uwrap_unique _ _ z' (ubits_pos ws k) Hs E); reflexivity.
Qed.
Lemma convert_mixed ws open ty v : mixed ty v -> convert ws open ty v = None.
Proof. destruct v as [| | | | | | |[] l|[] l|]; destruct ty as [| | | | | | |[] |[] |]; cbn; try tauto; intros _; reflexivity. Qed.
Lemma convert_int ws open t k v z : holds v z -> exists z', convert ws open (TyInt t k) v = Some (VInt t k z') /\ converts ws (TyInt t k) v (VInt t k z').
Proof.
  intros Hz. exists (swrap (ibits ws k) z). split; [destruct Hz; reflexivity|].
  apply cv_int with z; [exact Hz|apply swrap_range, ibits_pos|apply swrap_congr, ibits_pos].
Qed.
Lemma convert_uint ws open t k v z : holds v z -> exists z', convert ws open (TyUint t k) v = Some (VUint t k z') /\ converts ws (TyUint t k) v (VUint t k z').
Proof.
  intros Hz. exists (uwrap (ubits ws k) z). split; [destruct Hz; reflexivity|].
  pose proof (ubits_pos ws k).
  apply cv_uint with z; [exact Hz|apply uwrap_range; lia|unfold uwrap; apply Z.mod_mod, Z.pow_nonzero; lia].
Qed.
Lemma converts_fun ws ty v a b : converts ws ty v a -> converts ws ty v b -> a = b.
Proof. intros A B. apply (convert_complete ws (fun _ _ => None)) in A, B. congruence. Qed.

Section Proof.
Context {O : Type} (ws : wsize) (open : open_conversion) (tbl : table O).

Lemma lookup_in name f : NoDup (map fst tbl) -> In (name, f) tbl -> lookup tbl name = Some f.
Proof.
  induction tbl as [|[n g] r IH]; cbn; [tauto|]. intros N [E|E]; inversion N; subst.
  - injection E as -> ->. destruct (zlist_eqb name name) eqn:X; [reflexivity|].
    assert (zlist_eqb name name = true) by (apply zlist_eqb_eq; reflexivity). congruence.
  - destruct (zlist_eqb n name) eqn:X; [|auto]. apply zlist_eqb_eq in X. subst. exfalso.
    apply H1. apply in_map_iff. exists (name, f). auto.
Qed.
Lemma lookup_none name : ~ In name (map fst tbl) -> lookup tbl name = None.
Proof.
  induction tbl as [|[n g] r IH]; cbn; [reflexivity|]. intros H.
  destruct (zlist_eqb n name) eqn:X; [apply zlist_eqb_eq in X; tauto|auto].
Qed.
Lemma convert_args_length ps : forall args r, convert_args ws open ps args = Some r -> length r = length args /\ (length args <= length ps)%nat.
Proof.
  induction ps as [|p ps IH]; intros [|a args] r; cbn; intros E; try discriminate; try (injection E as <-; cbn; split; lia).
  destruct (convert ws open p a); [|discriminate]. destruct (convert_args ws open ps args) eqn:X; [|discriminate].
  injection E as <-. destruct (IH _ _ X). cbn. lia.
Qed.
Lemma convert_args_all ps : forall args cargs, Forall2 (fun pa c => convert ws open (fst pa) (snd pa) = Some c) (combine ps args) cargs ->
  length args = length ps -> convert_args ws open ps args = Some cargs.
Proof.
  induction ps as [|p ps IH]; intros [|a args] cargs H L; cbn in *; try discriminate; inversion H; subst; [reflexivity|].
  cbn in H2. rewrite H2. rewrite (IH args l'); auto.
Qed.
Lemma convert_args_bad ps : forall args i p a, nth_error ps i = Some p -> nth_error args i = Some a -> convert ws open p a = None ->
  convert_args ws open ps args = None.
Proof.
  induction ps as [|q ps IH]; intros args i p a Hp Ha Hc; [destruct i; discriminate Hp|].
  destruct args as [|b args]; [destruct i; discriminate Ha|]. destruct i; cbn in *.
  - injection Hp as ->. injection Ha as ->. rewrite Hc. reflexivity.
  - destruct (convert ws open q b); [|reflexivity]. rewrite (IH _ _ _ _ Hp Ha Hc). reflexivity.
Qed.

Lemma dispatch o name f args cargs : NoDup (map fst tbl) -> In (name, f) tbl -> length args = length (params f) ->
  Forall2 (fun pa c => converts ws (fst pa) (snd pa) c) (combine (params f) args) cargs ->
  meta_call ws open tbl o name args = match body f o cargs with Some (o', r) => Ran f cargs o' r | None => RanPanic f cargs end.
Proof.
  intros N I L H. unfold meta_call. rewrite (lookup_in _ _ N I).
  rewrite (convert_args_all _ _ cargs); [| |exact L].
  - assert (X : length cargs = length (params f)).
    { assert (Y : length (combine (params f) args) = length cargs) by (clear - H; induction H; cbn; congruence). rewrite combine_length in Y. lia. }
    rewrite X. destruct (Nat.ltb_spec (length (params f)) (length (params f))); [lia|reflexivity].
  - clear - H. induction H; constructor; auto. apply convert_complete. assumption.
Qed.
Lemma unknown o name args : ~ In name (map fst tbl) -> meta_call ws open tbl o name args = Unknown.
Proof. intros H. unfold meta_call. rewrite lookup_none by exact H. reflexivity. Qed.
Lemma wrong_arity o name f args : NoDup (map fst tbl) -> In (name, f) tbl -> length args <> length (params f) ->
  meta_call ws open tbl o name args = NotRun.
Proof.
  intros N I L. unfold meta_call. rewrite (lookup_in _ _ N I). destruct (convert_args ws open (params f) args) eqn:E; [|reflexivity].
  destruct (convert_args_length _ _ _ E). destruct (Nat.ltb_spec (length l) (length (params f))); [reflexivity|lia].
Qed.
Lemma bad_argument o name f args i p a : NoDup (map fst tbl) -> In (name, f) tbl ->
  nth_error (params f) i = Some p -> nth_error args i = Some a -> mixed p a -> meta_call ws open tbl o name args = NotRun.
Proof.
  intros N I Hp Ha M. unfold meta_call. rewrite (lookup_in _ _ N I).
  rewrite (convert_args_bad _ _ _ _ _ Hp Ha); [reflexivity|]. apply convert_mixed. exact M.
Qed.
Lemma nil_argument o name f args : NoDup (map fst tbl) -> In (name, f) tbl -> In VNil args -> meta_call ws open tbl o name args = NotRun.
Proof.
  intros N I H. apply In_nth_error in H. destruct H as [i Hi]. unfold meta_call. rewrite (lookup_in _ _ N I).
  destruct (nth_error (params f) i) eqn:E.
  - rewrite (convert_args_bad _ _ _ _ _ E Hi); reflexivity.
  - destruct (convert_args ws open (params f) args) eqn:X; [|reflexivity].
    destruct (convert_args_length _ _ _ X) as [_ Y]. apply nth_error_None in E.
    assert (i < length args)%nat by (apply nth_error_Some; congruence). lia.
Qed.
(* whatever happens, a method that runs is the named one, with arguments that are conversions *)
Lemma runs_only_named o name args f given o' r : meta_call ws open tbl o name args = Ran f given o' r ->
  In (name, f) tbl /\ length given = length args /\ length args = length (params f) /\ body f o given = Some (o', r).
Proof.
  unfold meta_call. destruct (lookup tbl name) as [g|] eqn:El; [|discriminate].
  destruct (convert_args ws open (params g) args) as [ps|] eqn:Ec; [|discriminate].
  destruct (Nat.ltb_spec (length ps) (length (params g))); [discriminate|]. destruct (body g o ps) as [[]|] eqn:Eb; [|discriminate].
  intros E. injection E as <- <- <- <-. destruct (convert_args_length _ _ _ Ec).
  split; [|split; [|split]]; auto; try lia.
  clear - El. induction tbl as [|[n h] t IH]; cbn in *; [discriminate|].
  destruct (zlist_eqb n name) eqn:X; [|auto]. apply zlist_eqb_eq in X. injection El as <-. left. congruence.
Qed.
End Proof.
