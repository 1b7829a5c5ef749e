(* Serving requests; starting and destroying features; closing sockets. *)
From Verif Require Import Lts GoVal Tables DockModel DockSpec DockProof DockProof2 DockProof3 DockProof4 DockProof5.
From Coq Require Import Arith Bool List ZArith Lia Permutation.
Import ListNotations.
Open Scope nat_scope.

Lemma nth_firstn {A} (l : list A) n m : n < m -> nth_error (firstn m l) n = nth_error l n.
Proof. revert n m. induction l as [|x l IH]; intros [|n] [|m] L; cbn; try lia; auto. apply IH. lia. Qed.

Section P.
Context {V : Type}.
Notation dock := (DockModel.dock V).
Notation tr := (tr V).
Implicit Types d : dock.
Implicit Types h e : list (event V).
Ltac noev := intros; cbn; intuition congruence.

(* C40 *)
Lemma accepted_app fs h e : accepted fs (h ++ e) = accepted fs h ++ if existsb (fun x => match x with ECleared => true | _ => false end) h then [] else accepted fs e.
Proof.
  induction h as [|x h IH]; [reflexivity|]. cbn [app accepted existsb]. destruct x; try exact IH; [|reflexivity].
  destruct k; try exact IH. destruct (existsb (zlist_eqb (q_slot q)) fs); [cbn; rewrite IH; reflexivity|exact IH].
Qed.
Lemma cleared_dec h : existsb (fun x : event V => match x with ECleared => true | _ => false end) h = true <-> cleared h.
Proof.
  unfold cleared. rewrite existsb_exists. split.
  - intros (x & A & B). destruct x; try discriminate B. exact A.
  - intros X. exists ECleared. auto.
Qed.
Lemma accepted_frame fs h e : (forall p q, ~ In (ERecv p (KRequest q)) e) -> accepted fs (h ++ e) = accepted fs h.
Proof.
  intros He. rewrite accepted_app. replace (if existsb _ h then [] else accepted fs e) with (@nil (nat * request V)); [apply app_nil_r|].
  destruct (existsb _ h); [reflexivity|]. induction e as [|x e IH]; [reflexivity|].
  assert (accepted fs e = []) by (symmetry; apply IH; intros p q X; eapply He; right; exact X). destruct x; cbn; auto. destruct k; auto.
  exfalso. eapply He. left. reflexivity.
Qed.
Lemma table_has carried f : existsb (zlist_eqb f) (map fst carried) = match aget (table carried) f with Some _ => true | None => false end.
Proof.
  destruct (aget (table carried) f) eqn:E.
  - apply existsb_exists. exists f. split; [|apply zlist_refl]. destruct (in_dec (list_eq_dec Z.eq_dec) f (map fst carried)) as [X|X]; [exact X|]. apply table_none in X. congruence.
  - destruct (existsb (zlist_eqb f) (map fst carried)) eqn:X; [|reflexivity]. apply existsb_exists in X as (g & A & B). apply zlist_eqb_eq in B. subst g. apply table_none in E. contradiction.
Qed.
Definition asks (sv : server V) := (s_peer sv, s_req sv).
Definition serving carried d := map asks (servers d) = accepted (map fst carried) (hist d) /\ slots_ok carried (slots d) (hist d).
Lemma slots_step carried d l d' : slots_ok carried (slots d) (hist d) -> tr d l d' -> slots_ok carried (slots d') (hist d').
Proof.
  intros I T. destruct T; proj; rewrite <- ?app_assoc; try exact I; try (apply slots_frame; [exact I|noev]).
  right. split; [|reflexivity]. unfold cleared. rewrite in_app_iff. right; left; reflexivity.
Qed.
Lemma serving_step carried d l d' : serving carried d -> tr d l d' -> serving carried d'.
Proof.
  intros [I J] T. split; [|eapply slots_step; eauto].
  destruct T; proj; rewrite <- ?app_assoc; try exact I; try (rewrite accepted_frame by noev; try (erewrite (set_nth_map asks) by (eassumption || reflexivity)); exact I).
  - rewrite map_app, I, accepted_app. destruct (existsb _ (hist d)) eqn:X.
    + apply cleared_dec in X. destruct J as [[J _]|[_ J]]; [contradiction|]. rewrite J in H0. discriminate.
    + destruct J as [[_ J]|[J _]]; [|apply cleared_dec in J; congruence]. cbn. rewrite table_has, <- J, H0. reflexivity.
  - destruct k; cbn in H0; try contradiction H0; try (rewrite accepted_frame by noev; exact I).
    rewrite accepted_app. destruct (existsb _ (hist d)) eqn:X; [rewrite app_nil_r; exact I|].
    destruct J as [[_ J]|[J _]]; [|apply cleared_dec in J; congruence]. cbn. rewrite table_has, <- J, H0, app_nil_r. exact I.
Qed.
Lemma serving_inv carried ls d : exec dstep (new_dock carried) ls = Some d -> serving carried d.
Proof. apply reach; [split; [reflexivity|left; split; [intros []|reflexivity]]|]. intros s l s' I _ T. eapply serving_step; eauto. Qed.

Lemma runs_app k h e : runs k (h ++ e) = runs k h ++ runs k e.
Proof. apply flat_map_app. Qed.
Lemma replies_app k h e : replies k (h ++ e) = replies k h + replies k e.
Proof. unfold replies. rewrite filter_app, app_length. reflexivity. Qed.
Definition servok h k (sv : server V) := match s_pc sv with SRun => runs k h = [] /\ replies k h = 0 | SReply r x => runs k h = [(r, x)] /\ replies k h = 0
  | SDone => length (runs k h) = 1 /\ replies k h = 1 end.
Definition working (l : list (server V)) h := all (servok h) l /\ forall k, length l <= k -> runs k h = [] /\ replies k h = 0.
Lemma runs_none k e : (forall k r x, ~ In (ERan k r x) e) -> runs k e = [].
Proof. intros H. apply fm_nil. intros x Hx. destruct x; try reflexivity. exfalso. eapply H. exact Hx. Qed.
Lemma replies_none k e : (forall k a, ~ In (EReplied k a) e) -> replies k e = 0.
Proof.
  intros H. unfold replies. induction e as [|x e IH]; [reflexivity|]. cbn. destruct x; try (apply IH; intros k' a X; eapply H; right; exact X). exfalso. eapply H. left. reflexivity.
Qed.
Lemma working_frame l h e : working l h -> (forall k r x, ~ In (ERan k r x) e) -> (forall k a, ~ In (EReplied k a) e) -> working l (h ++ e).
Proof.
  intros [A B] R1 R2. split.
  - intros k sv E. unfold servok. rewrite runs_app, replies_app, (runs_none _ e), (replies_none _ e), app_nil_r, Nat.add_0_r by auto. apply A, E.
  - intros k Hk. rewrite runs_app, replies_app, (runs_none _ e), (replies_none _ e), app_nil_r, Nat.add_0_r by auto. auto.
Qed.
Lemma working_step d l d' : working (servers d) (hist d) -> tr d l d' -> working (servers d') (hist d').
Proof.
  intros I T. destruct T; proj; rewrite <- ?app_assoc; try exact I; try (apply working_frame; [exact I|noev|noev]).
  - apply working_frame; [|noev|noev]. destruct I as [A B]. split; [apply all_snoc; [exact A|]; unfold servok; cbn; apply B; lia|]. intros k Hk. rewrite app_length in Hk. apply B. lia.
  - destruct I as [A B]. assert (R : forall k0, runs k0 (hist d ++ [ERan k res err]) = runs k0 (hist d) ++ if k =? k0 then [(res, err)] else []) by (intros k0; rewrite runs_app; cbn; rewrite app_nil_r; reflexivity).
    assert (Q : forall k0, replies k0 (hist d ++ [ERan k res err]) = replies k0 (hist d)) by (intros k0; rewrite replies_app; apply Nat.add_0_r). split.
    + intros k0 s0 E0. unfold servok. rewrite R, Q. apply set_nth_case in E0 as [[-> ->]|[N E0]].
      * specialize (A _ _ H). unfold servok in A. rewrite H0 in A. destruct A as [-> ->]. rewrite Nat.eqb_refl. cbn. auto.
      * destruct (Nat.eqb_spec k k0); [congruence|]. rewrite app_nil_r. apply A, E0.
    + intros k0 Hk. rewrite set_nth_length in Hk. rewrite R, Q. pose proof (nth_lt _ _ _ H). destruct (Nat.eqb_spec k k0); [lia|]. rewrite app_nil_r. auto.
  - destruct I as [A B]. match goal with |- working _ (_ ++ ?x) => set (e := x) end.
    assert (R : forall k0, runs k0 (hist d ++ e) = runs k0 (hist d)) by (intros k0; rewrite runs_app; apply app_nil_r).
    assert (Q : forall k0, replies k0 (hist d ++ e) = replies k0 (hist d) + if k =? k0 then 1 else 0) by (intros k0; rewrite replies_app; unfold e, replies; cbn; destruct (k =? k0); reflexivity). split.
    + intros k0 s0 E0. unfold servok. rewrite R, Q. apply set_nth_case in E0 as [[-> ->]|[N E0]].
      * specialize (A _ _ H). unfold servok in A. rewrite H0 in A. destruct A as [-> ->]. rewrite Nat.eqb_refl. cbn. auto.
      * destruct (Nat.eqb_spec k k0); [congruence|]. rewrite Nat.add_0_r. apply A, E0.
    + intros k0 Hk. rewrite set_nth_length in Hk. rewrite R, Q. pose proof (nth_lt _ _ _ H). destruct (Nat.eqb_spec k k0); [lia|]. rewrite Nat.add_0_r. auto.
Qed.
Lemma working_inv carried ls d : exec dstep (new_dock carried) ls = Some d -> working (servers d) (hist d).
Proof.
  apply (reach (fun d => working (servers d) (hist d))); [split; [intros [|i] x Hx; discriminate Hx|auto]|]. intros s l s' I _ T. eapply working_step; eauto.
Qed.
Lemma serve_bounds carried ls d k : exec dstep (new_dock carried) ls = Some d ->
  length (runs k (hist d)) <= 1 /\ replies k (hist d) <= length (runs k (hist d)) /\ (length (accepted (map fst carried) (hist d)) <= k -> runs k (hist d) = []).
Proof.
  intros E. destruct (working_inv _ _ _ E) as [A B]. destruct (serving_inv _ _ _ E) as [C _].
  destruct (nth_error (servers d) k) as [sv|] eqn:Ek.
  - specialize (A _ _ Ek). unfold servok in A. split; [destruct (s_pc sv); destruct A as [A A']; rewrite ?A; cbn; lia|]. split; [destruct (s_pc sv); destruct A as [A A']; rewrite ?A, ?A'; cbn; lia|].
    intros L. rewrite <- C, map_length in L. apply nth_lt in Ek. lia.
  - apply nth_error_None in Ek. destruct (B k Ek) as [-> ->]. cbn. auto.
Qed.
Lemma reply_event carried ls d a k acc b : exec dstep (new_dock carried) ls = Some d -> hist d = a ++ EReplied k acc :: b ->
  exists p q res err b', nth_error (accepted (map fst carried) a) k = Some (p, q) /\ runs k a = [(res, err)] /\ b = ESend p (KResponse (respond q res err)) acc :: b'.
Proof.
  intros E H. destruct (behind _ _ _ _ _ _ E H) as (ls1 & l & ls2 & d1 & d2 & es1 & es2 & _ & E1 & T & E2 & F & G).
  destruct (serving_inv _ _ _ E1) as [I _]. destruct (working_inv _ _ _ E1) as [J _].
  assert (G' := G). rewrite app_assoc, <- F in G'. destruct (tail_of _ _ _ _ _ _ _ _ E2 G' H eq_refl) as [b' B]. clear G'.
  event T G. rewrite app_nil_r in *. exists (s_peer sv), (s_req sv), res, err, b'. split; [rewrite <- I; apply (map_nth_error asks _ _ H0)|].
  specialize (J _ _ H0). unfold servok in J. rewrite H1 in J. split; [apply J|reflexivity].
Qed.
Lemma response_event carried ls d a p r acc b : exec dstep (new_dock carried) ls = Some d -> hist d = a ++ ESend p (KResponse r) acc :: b -> exists a' k, a = a' ++ [EReplied k acc].
Proof.
  intros E H. destruct (behind _ _ _ _ _ _ E H) as (ls1 & l & ls2 & d1 & d2 & es1 & es2 & _ & E1 & T & _ & F & G). event T G; eauto.
Qed.
Lemma reply_progress carried ls d k : exec dstep (new_dock carried) ls = Some d -> state d = Alive -> k < length (accepted (map fst carried) (hist d)) -> replies k (hist d) = 0 ->
  (runs k (hist d) = [] /\ forall res err, exists d', dstep d (SExec k res err) = Some d') \/
  (exists res err, runs k (hist d) = [(res, err)] /\ forall acc, exists d', dstep d (SSend k acc) = Some d').
Proof.
  intros E A L R. destruct (working_inv _ _ _ E) as [W _]. destruct (serving_inv _ _ _ E) as [C _]. rewrite <- C, map_length in L.
  destruct (nth_error (servers d) k) as [sv|] eqn:Ek; [|apply nth_error_None in Ek; lia]. specialize (W _ _ Ek). unfold servok in W. destruct (s_pc sv) as [|res err|] eqn:Ep.
  - left. split; [apply W|]. intros res err. unfold dstep. rewrite A, Ek, Ep. eauto.
  - right. exists res, err. split; [apply W|]. intros acc. unfold dstep. rewrite A, Ek, Ep. eauto.
  - destruct W. lia.
Qed.

(* C44 *)
Lemma started_app j h e : started j (h ++ e) = started j h ++ started j e.
Proof. apply flat_map_app. Qed.
Lemma started_none j e : (forall j f, ~ In (EStart j f) e) -> started j e = [].
Proof. intros H. apply fm_nil. intros x Hx. destruct x; try reflexivity. exfalso. eapply H. exact Hx. Qed.
Lemma registered_app h e : registered (h ++ e) = registered h + registered e.
Proof. unfold registered. rewrite filter_app, app_length. reflexivity. Qed.
Definition keys carried := map fst (table carried).
Definition startok carried h j t := match t with TFresh => started j h = []
  | TRun todo => (Permutation (started j h ++ todo) (keys carried)) \/ (cleared h /\ started j h = [] /\ todo = []) end.
Definition starting carried (ts : list starter) h := all (startok carried h) ts /\ forall j, length ts <= j -> started j h = [].
Lemma starting_frame carried ts h e : starting carried ts h -> (forall j f, ~ In (EStart j f) e) -> starting carried ts (h ++ e).
Proof.
  intros [A B] He. split.
  - intros j t E. specialize (A j t E). unfold startok, cleared in *. rewrite started_app, (started_none _ e), app_nil_r by auto. destruct t; rewrite ?in_app_iff; intuition.
  - intros j L. rewrite started_app, (started_none _ e), app_nil_r by auto. auto.
Qed.
Lemma starting_step carried d l d' : starting carried (starters d) (hist d) -> slots_ok carried (slots d) (hist d) -> tr d l d' -> starting carried (starters d') (hist d').
Proof.
  intros I J T. destruct T; proj; rewrite <- ?app_assoc; try exact I; try (apply starting_frame; [exact I|noev]).
  - destruct I as [A B]. split; [apply all_snoc; [exact A|]; cbn; apply B; lia|]. intros j L. rewrite app_length in L. apply B. lia.
  - destruct I as [A B]. split; [apply all_set; [exact A|]|rewrite set_nth_length; exact B]. specialize (A _ _ H). cbn in *. rewrite A. cbn.
    destruct J as [[_ ->]|[Cl ->]]; [left; apply Permutation_refl|right; auto].
  - destruct I as [A B]. assert (R : forall j0, started j0 (hist d ++ [EStart j f]) = started j0 (hist d) ++ if j =? j0 then [f] else []) by (intros j0; rewrite started_app; cbn; rewrite app_nil_r; reflexivity).
    split.
    + intros j0 t E0. unfold startok, cleared. rewrite R. apply set_nth_case in E0 as [[-> ->]|[N E0]].
      * rewrite Nat.eqb_refl. specialize (A _ _ H). cbn in A. destruct A as [A|(_ & _ & A)]; [left|subst todo; discriminate H0].
        rewrite <- A. rewrite <- app_assoc. apply Permutation_app_head. cbn. symmetry. apply takeout_perm, H0.
      * destruct (Nat.eqb_spec j j0); [congruence|]. rewrite app_nil_r. specialize (A _ _ E0). unfold startok, cleared in A. destruct t; rewrite ?in_app_iff; intuition.
    + intros j0 L. rewrite set_nth_length in L. rewrite R. pose proof (nth_lt _ _ _ H). destruct (Nat.eqb_spec j j0); [lia|]. rewrite app_nil_r. auto.
Qed.
Lemma starting_inv carried ls d : exec dstep (new_dock carried) ls = Some d -> starting carried (starters d) (hist d).
Proof.
  intros E. assert (X : starting carried (starters d) (hist d) /\ slots_ok carried (slots d) (hist d)); [|apply X]. revert E.
  apply (reach (fun d => starting carried (starters d) (hist d) /\ slots_ok carried (slots d) (hist d))).
  - split; [split; [intros [|i] x Hx; discriminate Hx|auto]|left; split; [intros []|reflexivity]].
  - intros s l s' [A B] _ T. split; [eapply starting_step; eauto|eapply slots_step; eauto].
Qed.
(* one start goroutine per registration reply handled *)
Definition registering (x : hpc) : nat := match x with BListen _ | BAppend _ | BSend | BGo => 1 | _ => 0 end.
(* peers that ever had a packet; only they can be busy *)
Fixpoint in_work (hs : nat -> hpc) n : nat := match n with O => 0 | S n' => registering (hs n') + in_work hs n' end.
Lemma in_work_upd hs p x n : in_work (updp hs p x) n = if p <? n then in_work hs n - registering (hs p) + registering x else in_work hs n.
Proof.
  induction n as [|n IH]; [reflexivity|]. cbn [in_work]. rewrite IH. unfold updp at 1. destruct (Nat.eqb_spec n p) as [->|N].
  - rewrite Nat.ltb_irrefl. destruct (Nat.ltb_spec p (S p)); [|lia]. lia.
  - destruct (Nat.ltb_spec p n), (Nat.ltb_spec p (S n)); try lia.
    assert (registering (hs p) <= in_work hs n). { clear - H. induction n; [lia|]. cbn. destruct (Nat.eq_dec p n) as [->|]; [lia|]. assert (p < n) by lia. specialize (IHn H0). lia. }
    lia.
Qed.
Lemma in_work_le hs p n : p < n -> registering (hs p) <= in_work hs n.
Proof. induction n; [lia|]. intros L. cbn. destruct (Nat.eq_dec p n) as [->|]; [lia|]. specialize (IHn ltac:(lia)). lia. Qed.
Definition counted (ts : list starter) (hs : nat -> hpc) h := exists n, (forall p, n <= p -> registering (hs p) = 0) /\ length ts + in_work hs n = registered h.
Lemma counted_frame ts hs h e : counted ts hs h -> registered e = 0 -> counted ts hs (h ++ e).
Proof. intros (n & A & B) R. exists n. rewrite registered_app. split; [exact A|lia]. Qed.
Lemma counted_upd ts hs h p x : counted ts hs h -> registering x = registering (hs p) -> counted ts (updp hs p x) h.
Proof.
  intros (n & A & B) R. exists n. split.
  - intros q L. unfold updp. destruct (Nat.eqb_spec q p) as [->|]; [rewrite R|]; auto.
  - rewrite in_work_upd. destruct (Nat.ltb_spec p n); [|exact B]. pose proof (in_work_le hs p n H). lia.
Qed.
Lemma in_work_ext hs n m : n <= m -> (forall p, n <= p -> registering (hs p) = 0) -> in_work hs m = in_work hs n.
Proof. intros L A. induction m; [replace n with 0 by lia; reflexivity|]. destruct (Nat.eq_dec n (S m)) as [->|]; [reflexivity|]. cbn. rewrite A by lia. apply IHm. lia. Qed.
Lemma counted_upd' ts ts' hs h h' p x : counted ts hs h -> length ts' + registering x + registered h = length ts + registering (hs p) + registered h' -> counted ts' (updp hs p x) h'.
Proof.
  intros (n & A & B) R. exists (max n (S p)). split.
  - intros q L. unfold updp. destruct (Nat.eqb_spec q p) as [->|]; [lia|]. apply A. lia.
  - rewrite in_work_upd. destruct (Nat.ltb_spec p (max n (S p))); [|lia]. pose proof (in_work_le hs p (max n (S p)) H). rewrite (in_work_ext hs n) in * by (auto; lia). lia.
Qed.
Lemma counted_inv carried ls d : exec dstep (new_dock carried) ls = Some d -> counted (starters d) (handlers d) (hist d).
Proof.
  apply (reach (fun d => counted (starters d) (handlers d) (hist d))); [exists 0; split; reflexivity|]. clear. intros d l d' I _ T.
  destruct T; proj; rewrite <- ?app_assoc; try exact I; try (apply counted_frame; [exact I|reflexivity]);
    try (eapply counted_upd'; [exact I|]; rewrite ?registered_app, ?app_length, ?set_nth_length;
         repeat match goal with X : handlers d ?p0 = _ |- _ => rewrite X; clear X end; cbn; lia);
    try (destruct I as (n & A & B); exists n; rewrite ?registered_app, ?set_nth_length; split; [exact A|cbn; lia]).
  destruct k; try contradiction; apply counted_frame; auto.
Qed.
Lemma starts_bound carried ls d : exec dstep (new_dock carried) ls = Some d -> length (starters d) <= registered (hist d).
Proof. intros E. destruct (counted_inv _ _ _ E) as (n & _ & B). lia. Qed.
Lemma keys_in carried f : In f (keys carried) <-> In f (map fst carried).
Proof.
  unfold keys. destruct (in_dec (list_eq_dec Z.eq_dec) f (map fst carried)) as [X|X].
  - split; auto. intros _. destruct (in_dec (list_eq_dec Z.eq_dec) f (map fst (table carried))) as [Y|Y]; [exact Y|]. apply aget_none, table_none in Y. contradiction.
  - split; [|contradiction]. intros Y. apply table_none, aget_none in X. contradiction.
Qed.
Lemma start_spec carried ls d j : exec dstep (new_dock carried) ls = Some d ->
  NoDup (started j (hist d)) /\ incl (started j (hist d)) (map fst carried) /\ (started j (hist d) <> [] -> j < registered (hist d)).
Proof.
  intros E. destruct (starting_inv _ _ _ E) as [A B]. pose proof (starts_bound _ _ _ E) as L. destruct (nth_error (starters d) j) as [t|] eqn:Ej.
  - specialize (A _ _ Ej). apply nth_lt in Ej. split; [|split; [|intros; lia]].
    + destruct t as [|todo]; cbn in A; [rewrite A; constructor|]. destruct A as [A|(_ & A & _)]; [|rewrite A; constructor].
      apply Permutation_sym in A. eapply Permutation_NoDup in A; [|apply table_nodup]. apply NoDup_app_l in A. exact A.
    + destruct t as [|todo]; cbn in A; [rewrite A; intros x []|]. destruct A as [A|(_ & A & _)]; [|rewrite A; intros x []].
      intros x X. apply keys_in. eapply Permutation_in; [exact A|]. apply in_or_app; auto.
  - apply nth_error_None in Ej. rewrite (B _ Ej). split; [constructor|]. split; [intros x []|congruence].
Qed.
Lemma start_done carried ls d j : exec dstep (new_dock carried) ls = Some d -> nth_error (starters d) j = Some (TRun []) -> ~ cleared (hist d) ->
  forall f, In f (started j (hist d)) <-> In f (map fst carried).
Proof.
  intros E Ej Nc f. destruct (starting_inv _ _ _ E) as [A _]. specialize (A _ _ Ej). cbn in A. destruct A as [A|(X & _)]; [|contradiction].
  rewrite app_nil_r in A. rewrite <- keys_in. split; apply Permutation_in; [exact A|symmetry; exact A].
Qed.
Lemma start_progress carried ls d j : exec dstep (new_dock carried) ls = Some d -> state d = Alive -> j < length (starters d) -> nth_error (starters d) j = Some (TRun []) \/
  exists l d', dstep d l = Some d' /\ (l = TBegin j \/ exists f, l = TStart j f).
Proof.
  intros E A L. destruct (nth_error (starters d) j) as [[|[|f todo]]|] eqn:Ej; [| | |apply nth_error_None in Ej; lia].
  - right. exists (TBegin j). unfold dstep. rewrite A, Ej. eauto.
  - auto.
  - right. exists (TStart j f). unfold dstep. rewrite A, Ej. cbn. rewrite zlist_refl. eauto 6.
Qed.

Lemma destroyed_app h e : destroyed (h ++ e) = destroyed h ++ destroyed e.
Proof. apply flat_map_app. Qed.
Lemma destroyed_none e : (forall f, ~ In (EDestroy f) e) -> destroyed e = [].
Proof. intros H. apply fm_nil. intros x Hx. destruct x; try reflexivity. exfalso. eapply H. exact Hx. Qed.
Definition destroying carried (k : kpc) h :=
  (~ cleared h /\ match k with KIdle => destroyed h = [] | KDestroy todo => Permutation (destroyed h ++ todo) (keys carried) | KSock _ => False end) \/
  (cleared h /\ Permutation (destroyed h) (keys carried) /\ forall todo, k = KDestroy todo -> todo = []).
Lemma destroying_frame carried k h e : destroying carried k h -> ~ In ECleared e -> (forall f, ~ In (EDestroy f) e) -> destroying carried k (h ++ e).
Proof. unfold destroying, cleared. intros I N1 N2. rewrite destroyed_app, (destroyed_none e), app_nil_r, in_app_iff by auto. tauto. Qed.
Lemma destroying_inv carried ls d : exec dstep (new_dock carried) ls = Some d -> destroying carried (closer d) (hist d).
Proof.
  intros E. assert (X : destroying carried (closer d) (hist d) /\ slots_ok carried (slots d) (hist d)); [|apply X]. revert E.
  apply (reach (fun d => destroying carried (closer d) (hist d) /\ slots_ok carried (slots d) (hist d))).
  - split; [left; split; [intros []|reflexivity]|left; split; [intros []|reflexivity]].
  - clear. intros d l d' [I J] _ T. split; [|eapply slots_step; eauto].
    destruct T; proj; rewrite <- ?app_assoc; try exact I; try (apply destroying_frame; [exact I|noev|noev]).
    + (* close *) destruct I as [[Nc I]|(Cl & I & K)].
      * left. split; [exact Nc|]. rewrite H in I. rewrite I. destruct J as [[_ ->]|[X _]]; [|contradiction]. apply Permutation_refl.
      * right. split; [exact Cl|]. split; [exact I|]. destruct J as [[X _]|[_ ->]]; [contradiction|]. intros todo E. injection E as <-. reflexivity.
    + (* destroy *) destruct I as [[Nc I]|(Cl & I & K)].
      * left. rewrite H in I. split; [unfold cleared; rewrite in_app_iff; intros [X|[X|[]]]; [apply Nc, X|discriminate X]|].
        rewrite destroyed_app, <- app_assoc. rewrite <- I. apply Permutation_app_head. cbn. symmetry. apply takeout_perm, H0.
      * rewrite (K _ H) in H0. discriminate.
    + (* clear *) right. split; [unfold cleared; rewrite in_app_iff; right; left; reflexivity|]. rewrite destroyed_app. cbn. rewrite app_nil_r. destruct I as [[Nc I]|(Cl & I & K)].
      * rewrite H, app_nil_r in I. split; [exact I|discriminate].
      * split; [exact I|discriminate].
    + destruct I as [[Nc I]|(Cl & I & K)]; [rewrite H in I; contradiction|]. right. unfold cleared. rewrite in_app_iff, destroyed_app. cbn. rewrite app_nil_r. split; [auto|]. split; [exact I|discriminate].
    + destruct I as [[Nc I]|(Cl & I & K)]; [rewrite H in I; contradiction|]. right. unfold cleared. rewrite in_app_iff, destroyed_app. cbn. rewrite app_nil_r. split; [auto|]. split; [exact I|discriminate].
Qed.
Lemma destroy_spec carried ls d : exec dstep (new_dock carried) ls = Some d ->
  NoDup (destroyed (hist d)) /\ incl (destroyed (hist d)) (map fst carried) /\ (cleared (hist d) -> forall f, In f (map fst carried) -> In f (destroyed (hist d))).
Proof.
  intros E. destruct (destroying_inv _ _ _ E) as [[Nc I]|(Cl & I & K)].
  - split; [|split; [|contradiction]].
    + destruct (closer d) as [|todo|]; [rewrite I; constructor| |contradiction]. apply Permutation_sym in I. eapply Permutation_NoDup in I; [|apply table_nodup]. apply NoDup_app_l in I. exact I.
    + destruct (closer d) as [|todo|]; [rewrite I; intros x []| |contradiction]. intros x X. apply keys_in. eapply Permutation_in; [exact I|]. apply in_or_app; auto.
  - split; [apply Permutation_sym in I; eapply Permutation_NoDup in I; [exact I|apply table_nodup]|]. split.
    + intros x X. apply keys_in. eapply Permutation_in; eauto.
    + intros _ f X. apply keys_in in X. apply Permutation_sym in I. eapply Permutation_in; eauto.
Qed.
Lemma destroy_before_clear carried ls d a b : exec dstep (new_dock carried) ls = Some d -> hist d = a ++ ECleared :: b -> (forall f, In f (map fst carried) -> In f (destroyed a)) /\ destroyed b = [].
Proof.
  intros E H. assert (P : Permutation (destroyed a) (keys carried)).
  { destruct (behind _ _ _ _ _ _ E H) as (ls1 & l & ls2 & d1 & d2 & es1 & es2 & _ & E1 & T & _ & F & G). pose proof (destroying_inv _ _ _ E1) as I.
    event T G. rewrite app_nil_r. destruct I as [[Nc I]|(Cl & I & K)]; [|exact I]. rewrite H0, app_nil_r in I. exact I. }
  split; [intros f X; apply keys_in in X; eapply Permutation_in; [symmetry; exact P|exact X]|].
  destruct (destroying_inv _ _ _ E) as [[Nc _]|(_ & I & _)]; [exfalso; apply Nc; unfold cleared; rewrite H, in_app_iff; right; left; reflexivity|].
  rewrite H, destroyed_app in I. cbn in I. apply Permutation_length in I. apply Permutation_length in P. rewrite app_length in I. fold (destroyed b) in I. destruct (destroyed b); [reflexivity|]. cbn in I. lia.
Qed.

(* sockets: closed in reverse order of opening *)
Lemma shut_app h e : shut (h ++ e) = shut h ++ shut e.
Proof. apply flat_map_app. Qed.
Lemma shut_none e : (forall k, ~ In (ESockClosed k) e) -> shut e = [].
Proof. intros H. apply fm_nil. intros x Hx. destruct x; try reflexivity. exfalso. eapply H. exact Hx. Qed.
(* while closing: what was there when Close began on the sockets, what has been shut, what is left *)
Definition closing (k : kpc) (so : list socket) h := match k with
  | KSock n => exists a b, h = a ++ ECleared :: b /\ ~ In ECleared b /\ ~ In EClosed b /\ n <= length (since a) /\ firstn (length (since a)) so = since a /\ shut b = rev (skipn n (since a))
  | _ => (forall b a, h = a ++ ECleared :: b -> ~ In ECleared b -> In EClosed b) end.
Lemma closing_frame k so h e : closing k so h -> ~ In ECleared e -> ~ In EClosed e -> (forall k, ~ In (ESockClosed k) e) -> closing k so (h ++ e).
Proof.
  intros I N1 N2 N3. destruct k as [|todo|n].
  1,2: intros b a E Nb; cbn in I;
    assert (X : exists b0, b = b0 ++ e /\ h = a ++ ECleared :: b0);
    [|destruct X as (b0 & -> & ->); rewrite in_app_iff in *; left; eapply I; [reflexivity|tauto]];
    clear - E N1 Nb; revert E; revert h; induction a as [|x a IH]; intros h E;
    [destruct h as [|y h]; cbn in E; [exfalso; apply N1; rewrite E; left; reflexivity|injection E as -> <-; exists h; auto]
    |destruct h as [|y h]; cbn in E; [exfalso; apply N1; rewrite E; right; apply in_or_app; right; left; reflexivity|injection E as -> E; destruct (IH _ E) as (b0 & -> & ->); exists b0; auto]].
  destruct I as (a & b & -> & A1 & A2 & A3 & A4 & A5). exists a, (b ++ e). rewrite <- app_assoc. split; [reflexivity|]. rewrite !in_app_iff. rewrite shut_app, (shut_none e), app_nil_r by auto. intuition.
Qed.
Lemma closing_so k so x h : closing k so h -> closing k (so ++ [x]) h.
Proof.
  destruct k; auto. intros (a & b & -> & A1 & A2 & A3 & A4 & A5). exists a, b. repeat split; auto. rewrite firstn_app, A4.
  assert (length (since a) <= length so) by (rewrite <- A4, firstn_length; lia). replace (length (since a) - length so) with 0 by lia. cbn. apply app_nil_r.
Qed.
Lemma no_cleared_snoc (a b h : list (event V)) ev : h ++ [ev] = a ++ ECleared :: b -> ev <> ECleared -> exists b0, b = b0 ++ [ev] /\ h = a ++ ECleared :: b0.
Proof.
  intros E N. destruct b as [|y b _] using rev_ind; [apply app_inj_tail in E as [_ E]; congruence|].
  rewrite app_comm_cons, app_assoc in E. apply app_inj_tail in E as [-> ->]. eauto.
Qed.
Lemma closing_inv carried ls d : exec dstep (new_dock carried) ls = Some d -> closing (closer d) (sockets d) (hist d) /\ sockets d = since (hist d).
Proof.
  intros E. split; [|eapply sockets_inv; eauto]. assert (X : closing (closer d) (sockets d) (hist d) /\ sockets d = since (hist d)); [|apply X]. revert E.
  apply (reach (fun d => closing (closer d) (sockets d) (hist d) /\ sockets d = since (hist d))).
  - split; [intros b [|? a] E; discriminate E|reflexivity].
  - clear. intros d l d' [I J] _ T. split.
    2: { destruct T; proj; rewrite <- ?app_assoc; try exact J; try (rewrite since_frame by noev; exact J); rewrite since_snoc, ?J; reflexivity. }
    destruct T; proj; rewrite <- ?app_assoc; try exact I; try (apply closing_frame; [first [exact I|apply closing_so; exact I]|noev|noev|noev]).
    + rewrite H in I. exact I.
    + rewrite H in I. apply closing_frame; [exact I|noev|noev|noev].
    + (* clear *) exists (hist d), []. rewrite J. repeat split; auto; [rewrite firstn_all; reflexivity|rewrite skipn_all; reflexivity].
    + (* shut *) rewrite H in I. destruct I as (a & b & E & A1 & A2 & A3 & A4 & A5). exists a, (b ++ [ESockClosed k]). rewrite E, <- app_assoc. split; [reflexivity|].
      rewrite !in_app_iff, shut_app, A5. cbn. repeat split; try (intuition congruence); try lia; auto.
      assert (Hk : nth_error (since a) n = Some k). { rewrite <- A4, nth_firstn by lia. exact H0. }
      assert (Sk : skipn n (since a) = k :: skipn (S n) (since a)). { clear - Hk. revert n Hk. induction (since a) as [|x l IH]; intros [|n] H; try discriminate; cbn in *; [congruence|auto]. }
      rewrite Sk. reflexivity.
    + (* closed *) intros b a E Nb. apply no_cleared_snoc in E as (b0 & -> & _); [|discriminate]. rewrite in_app_iff. right; left; reflexivity.
Qed.
Lemma close_event carried ls d a b c : exec dstep (new_dock carried) ls = Some d -> hist d = a ++ ECleared :: b ++ EClosed :: c -> ~ In ECleared b -> ~ In EClosed b -> shut b = rev (since a).
Proof.
  intros E H N1 N2. rewrite app_comm_cons, app_assoc in H. destruct (behind _ _ _ _ _ _ E H) as (ls1 & l & ls2 & d1 & d2 & es1 & es2 & _ & E1 & T & _ & F & G).
  destruct (closing_inv _ _ _ E1) as [I _]. event T G. rewrite app_nil_r in F. rewrite H0 in I. destruct I as (a0 & b0 & X & A1 & A2 & A3 & A4 & A5). cbn in A5.
  rewrite X in F. assert (a = a0 /\ b = b0) as [-> ->]; [|exact A5].
  clear - F N1 A1. revert a0 F. induction a as [|x a IH]; intros [|x0 a0] E; cbn in E.
  - injection E as ->. auto.
  - injection E as _ E. exfalso. apply N1. rewrite E. apply in_or_app; right; left; reflexivity.
  - injection E as _ E. exfalso. apply A1. rewrite <- E. apply in_or_app; right; left; reflexivity.
  - injection E as -> E. destruct (IH _ E) as [-> ->]. auto.
Qed.
Lemma shut_event carried ls d a k b : exec dstep (new_dock carried) ls = Some d -> hist d = a ++ ESockClosed k :: b -> exists a1 a2, a = a1 ++ ECleared :: a2 /\ ~ In EClosed a2.
Proof.
  intros E H. destruct (behind _ _ _ _ _ _ E H) as (ls1 & l & ls2 & d1 & d2 & es1 & es2 & _ & E1 & T & _ & F & G).
  destruct (closing_inv _ _ _ E1) as [I _]. event T G. rewrite H0 in I. destruct I as (a0 & b0 & X & A1 & A2 & _). rewrite app_nil_r. eauto.
Qed.
End P.
