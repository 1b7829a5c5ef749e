(* Waking pending calls, serving requests, life cycle. *)
From Verif Require Import Lts GoVal Tables DockModel DockSpec DockProof DockProof2 DockProof3 DockProof4 DockProof5.
From Coq Require Import Arith Bool List ZArith Lia Permutation.
Import ListNotations.
Open Scope nat_scope.

Section P.
Context {V : Type}.
Notation dock := (DockModel.dock V).
Notation tr := (tr V).
Implicit Types d : dock.
Implicit Types h e : list (event V).
Ltac noev := intros; cbn; intuition congruence.

(* C60 *)
Definition queried f h0 h := exists e k, h = h0 ++ e /\ In (EQuery k f) e.
Lemma queried_frame f h0 h e : queried f h0 h -> queried f h0 (h ++ e).
Proof. intros (e0 & k & -> & X). exists (e0 ++ e), k. rewrite app_assoc, in_app_iff. auto. Qed.
Definition tracked c q d := exists r, nth_error (calls d) c = Some r /\ c_pc r <> CPut /\ (c_req r = Some q \/ commits c (hist d) <> []).
Lemma commits_mono c h e : commits c h <> [] -> commits c (h ++ e) <> [].
Proof. rewrite commits_app. destruct (commits c h); [congruence|discriminate]. Qed.
Lemma tracked_set c q (cs : list (call V)) h e c0 r r' : (exists r, nth_error cs c = Some r /\ c_pc r <> CPut /\ (c_req r = Some q \/ commits c h <> [])) -> nth_error cs c0 = Some r ->
  (c = c0 -> c_pc r <> CPut -> c_pc r' <> CPut /\ (c_req r' = c_req r \/ commits c (h ++ e) <> [])) ->
  exists r, nth_error (set_nth cs c0 r') c = Some r /\ c_pc r <> CPut /\ (c_req r = Some q \/ commits c (h ++ e) <> []).
Proof.
  intros (r0 & A & B & C) E W. destruct (Nat.eq_dec c c0) as [->|N].
  - rewrite E in A. injection A as ->. exists r'. rewrite set_nth_same by (eapply nth_lt; eauto). destruct (W eq_refl B) as [W1 W2]. split; [reflexivity|]. split; [exact W1|].
    destruct C as [C|C]; [|right; apply commits_mono, C]. destruct W2 as [W2|W2]; [left; congruence|auto].
  - exists r0. rewrite set_nth_other by auto. split; [exact A|]. split; [exact B|]. destruct C; [auto|right; apply commits_mono; auto].
Qed.
Lemma tracked_set0 c q (cs : list (call V)) h c0 r r' : (exists r, nth_error cs c = Some r /\ c_pc r <> CPut /\ (c_req r = Some q \/ commits c h <> [])) -> nth_error cs c0 = Some r ->
  (c = c0 -> c_pc r <> CPut -> c_pc r' <> CPut /\ c_req r' = c_req r) ->
  exists r, nth_error (set_nth cs c0 r') c = Some r /\ c_pc r <> CPut /\ (c_req r = Some q \/ commits c h <> []).
Proof.
  intros X E W. pose proof (tracked_set c q cs h [] c0 r r' X E) as Y. rewrite app_nil_r in Y. apply Y. intros A B. destruct (W A B). auto.
Qed.
Lemma tracked_frame c q (cs : list (call V)) h e : (exists r, nth_error cs c = Some r /\ c_pc r <> CPut /\ (c_req r = Some q \/ commits c h <> [])) ->
  exists r, nth_error cs c = Some r /\ c_pc r <> CPut /\ (c_req r = Some q \/ commits c (h ++ e) <> []).
Proof. intros (r & A & B & C). exists r. split; [exact A|]. split; [exact B|]. destruct C; [auto|right; apply commits_mono; auto]. Qed.
Ltac tset := first [eassumption | eapply tracked_set0; [eassumption|eassumption|cbn; intuition congruence]
  | eapply tracked_set; [eassumption|eassumption|cbn; intros; split; first [assumption|discriminate|left; reflexivity|right; rewrite commits_app; subst; cbn; rewrite Nat.eqb_refl; destruct (commits _ _); discriminate]]].
Lemma tracked_step c q d l d' : tracked c q d -> tr d l d' -> tracked c q d'.
Proof.
  unfold tracked. intros I T. destruct T; proj; rewrite <- ?app_assoc; try tset; try (apply tracked_frame; tset).
  destruct I as (r & A & B & C). exists r. split; [apply nth_app, A|]. split; [exact B|]. destruct C; [auto|right; apply commits_mono; auto].
Qed.

Definition resolved f h0 i c d := zget (rpcs d) i <> Some c \/ commits c (hist d) <> [] \/ queried f h0 (hist d).
Lemma resolved_step f h0 i c d l d' : resolved f h0 i c d -> c < length (calls d) -> tr d l d' -> resolved f h0 i c d'.
Proof.
  intros R L T. destruct (tr_hist _ _ _ T) as [e He]. destruct R as [R|[R|R]].
  - left. destruct T; proj; try exact R.
    + rewrite zget_zput. destruct (clock =? i)%Z; [intros X; injection X as <-; lia|exact R].
    + rewrite zget_zdel. destruct (b_index cb =? i)%Z; [discriminate|exact R].
  - right; left. rewrite He. apply commits_mono, R.
  - right; right. rewrite He. apply queried_frame, R.
Qed.
(* handler p is in the loop over d.rpcs for feature f, before slots sl; key i is to come, under way or dealt with *)
Definition looping (p : nat) f sl i c (P : Prop) (x : hpc) : Prop :=
  match x with
  | RIter f' sl' todo => f' = f /\ sl' = sl /\ (In i todo \/ P)
  | RTested f' sl' todo c' | RCommit f' sl' todo c' => f' = f /\ sl' = sl /\ (In i todo \/ c' = c \/ P)
  | _ => False
  end.
Lemma looping_mono p f sl i c (P Q : Prop) x : (P -> Q) -> looping p f sl i c P x -> looping p f sl i c Q x.
Proof. intros W. destruct x; cbn; tauto. Qed.
Lemma looping_step p f sl i c q h0 d l d' : q_slot q = f -> committing d -> tracked c q d -> c < length (calls d) ->
  looping p f sl i c (resolved f h0 i c d) (handlers d p) -> (exists e, hist d = h0 ++ e) -> tr d l d' ->
  looping p f sl i c (resolved f h0 i c d') (handlers d' p) \/ (handlers d' p = RNext sl /\ resolved f h0 i c d') \/ state d' <> Alive.
Proof.
  intros Hq Cm Tr L I (e0 & He0) T. pose proof (fun R => resolved_step f h0 i c _ _ _ R L T) as RS. apply (looping_mono _ _ _ _ _ _ _ _ RS) in I.
  assert (Req : forall r q', nth_error (calls d) c = Some r -> c_req r = Some q' -> q' = q \/ commits c (hist d) <> []).
  { intros r q' E1 E2. destruct Tr as (r0 & A & B & C). rewrite E1 in A. injection A as <-. destruct C as [C|C]; [left; congruence|auto]. }
  assert (Non : forall r, nth_error (calls d) c = Some r -> c_req r = None -> resolved f h0 i c d).
  { intros r E1 E2. destruct Tr as (r0 & A & B & C). rewrite E1 in A. injection A as <-. destruct C as [C|C]; [congruence|right; left; exact C]. }
  destruct T; proj; try (left; exact I); try (right; right; discriminate);
    unfold updp in *; (destruct (Nat.eqb_spec p p0) as [<-|N]; [|left; exact I]);
    match goal with H : handlers d p = _ |- _ => rewrite H in I; cbn [looping] in I; try contradiction I end.
  - (* done *) right; left. destruct I as (<- & <- & [[]|I]). auto.
  - (* gone *) left. cbn. destruct I as (<- & <- & I). repeat split. destruct (Z.eq_dec i0 i) as [->|Ni].
    + right. left. proj. congruence.
    + destruct I as [I|I]; [left; apply filter_In; split; [exact I|]; destruct (Z.eqb_spec i i0); [congruence|reflexivity]|auto].
  - (* sent *) left. cbn. destruct I as (<- & <- & I). repeat split. destruct (Z.eq_dec i0 i) as [->|Ni].
    + right. destruct (Nat.eq_dec c0 c) as [->|Nc]; [apply RS; eapply Non; eauto|]. left. proj. congruence.
    + destruct I as [I|I]; [left; apply filter_In; split; [exact I|]; destruct (Z.eqb_spec i i0); [congruence|reflexivity]|auto].
  - (* unsent *) left. cbn. destruct I as (<- & <- & I). repeat split. destruct (Z.eq_dec i0 i) as [->|Ni].
    + right. destruct (Nat.eq_dec c0 c) as [->|Nc]; [left; reflexivity|]. right. left. proj. congruence.
    + destruct I as [I|I]; [left; apply filter_In; split; [exact I|]; destruct (Z.eqb_spec i i0); [congruence|reflexivity]|auto].
  - (* hit *) left. cbn. exact I.
  - (* miss *) left. cbn. destruct I as (<- & <- & I). repeat split. destruct I as [I|[->|I]]; auto. right.
    destruct (Req _ _ H0 H1) as [->|X]; [congruence|]. apply RS. right; left; exact X.
  - (* commit *) left. cbn. destruct I as (<- & <- & I). repeat split. destruct I as [I|[->|I]]; auto. right. right. left. proj.
    rewrite commits_app. cbn. rewrite Nat.eqb_refl. destruct (commits c (hist d)); discriminate.
  - (* query *) left. cbn. destruct I as (<- & <- & I). repeat split. destruct I as [I|[->|I]]; auto. right. destruct (Req _ _ H0 H1) as [->|X]; [|apply RS; right; left; exact X].
    right; right. proj. exists (e0 ++ [EQuery k (q_slot q)]), k. rewrite He0, <- app_assoc, Hq. split; [reflexivity|]. rewrite in_app_iff. right; left; reflexivity.
  - (* void *) left. cbn. destruct I as (<- & <- & I). repeat split. destruct I as [I|[->|I]]; auto. apply nth_error_None in H0. lia.
Qed.
Lemma woken carried ls0 d0 p f sl i c r q d1 ls d2 : exec dstep (new_dock carried) ls0 = Some d0 -> handlers d0 p = RNext (f :: sl) ->
  zget (rpcs d0) i = Some c -> nth_error (calls d0) c = Some r -> c_req r = Some q -> q_slot q = f ->
  dstep d0 (HGo p) = Some d1 -> exec dstep d1 ls = Some d2 -> handlers d2 p = RNext sl ->
  (forall ls1 ls2 d', ls = ls1 ++ ls2 -> ls2 <> [] -> exec dstep d1 ls1 = Some d' -> handlers d' p <> RNext sl) ->
  zget (rpcs d2) i = Some c -> commits c (hist d2) <> [] \/ exists e k, hist d2 = hist d0 ++ e /\ In (EQuery k f) e.
Proof.
  intros E Hh Hz Hc Hr Hf S E2 Hd Fst Hz2. pose proof (committing_inv _ _ _ E) as [Cm _].
  destruct (Cm _ _ Hc) as (A1 & A2 & _). assert (Np : c_pc r <> CPut) by (intros X; destruct (A2 X); congruence).
  set (h0 := hist d0).
  assert (I1 : c < length (calls d1) /\ tracked c q d1 /\ (exists e, hist d1 = h0 ++ e) /\ looping p f sl i c (resolved f h0 i c d1) (handlers d1 p)).
  { assert (S' := S). apply dstep_tr in S' as [_ T]. inversion T; subst; proj; try congruence. rewrite Hh in H0. injection H0 as <- <-.
    split; [eapply nth_lt; eauto|]. split; [exists r; proj; auto|]. split; [exists []; symmetry; apply app_nil_r|]. unfold updp. rewrite Nat.eqb_refl. cbn. repeat split. left.
    clear - Hz. induction (rpcs d0) as [|[y w] t IH]; [discriminate|]. cbn in *. destruct (Z.eqb_spec y i); auto. }
  assert (G : forall ls1 ls2 d', ls = ls1 ++ ls2 -> exec dstep d1 ls1 = Some d' ->
    c < length (calls d') /\ tracked c q d' /\ (exists e, hist d' = h0 ++ e) /\
    (looping p f sl i c (resolved f h0 i c d') (handlers d' p) \/ (handlers d' p = RNext sl /\ resolved f h0 i c d') \/ state d' <> Alive)).
  { induction ls1 as [|l ls1 IH] using rev_ind; intros ls2 d' Els Ex.
    - injection Ex as <-. destruct I1 as (X1 & X2 & X3 & X4). auto.
    - rewrite exec_app in Ex. destruct (exec dstep d1 ls1) as [d''|] eqn:E1; [|discriminate]. cbn in Ex. destruct (dstep d'' l) as [d3|] eqn:E3; [|discriminate]. injection Ex as ->.
      destruct (IH (l :: ls2) d'') as (X1 & X2 & X3 & X4); [rewrite Els, <- app_assoc; reflexivity|reflexivity|].
      apply dstep_tr in E3 as [Al T]. destruct (tr_hist _ _ _ T) as [e He]. destruct X3 as [e1 X3].
      split. { assert (Y : length (calls d'') <= length (calls d')) by (clear - T; destruct T; proj; rewrite ?set_nth_length, ?app_length; cbn; lia). lia. }
      split; [eapply tracked_step; eauto|]. split; [exists (e1 ++ e); rewrite He, X3, app_assoc; reflexivity|].
      destruct X4 as [X4|[[X4 _]|X4]]; [|exfalso; eapply (Fst ls1 (l :: ls2)); eauto; [rewrite Els, <- app_assoc; reflexivity|discriminate]|contradiction].
      eapply looping_step; eauto.
      assert (exec dstep (new_dock carried) (ls0 ++ HGo p :: ls1) = Some d'') by (rewrite exec_app, E; cbn; rewrite S; exact E1). eapply committing_inv; eauto. }
  destruct (G ls [] d2) as (_ & _ & _ & [X|[[_ X]|X]]); [rewrite app_nil_r; reflexivity|exact E2| | |].
  - rewrite Hd in X. destruct X.
  - destruct X as [X|[X|X]]; [contradiction|auto|right; exact X].
  - exfalso. destruct ls as [|l ls _] using rev_ind.
    + injection E2 as <-. destruct I1 as (_ & _ & _ & X4). rewrite Hd in X4. destruct X4.
    + (* the last step ends with p at RNext sl, from a looping state: alive *)
      rewrite exec_app in E2. destruct (exec dstep d1 ls) as [d''|] eqn:E1; [|discriminate]. cbn in E2. destruct (dstep d'' l) as [d3|] eqn:E3; [|discriminate]. injection E2 as ->.
      destruct (G ls [l] d'') as (_ & _ & _ & [Y|[[Y _]|Y]]); auto.
      * apply dstep_tr in E3 as [Al T]. clear - X Y T Hd Al. destruct T; proj; try congruence; rewrite ?Hd in Y; try contradiction Y; unfold updp in Hd; destruct (p =? p0); try discriminate Hd; rewrite ?Hd in Y; try contradiction Y.
      * exfalso. eapply (Fst ls [l]); eauto. discriminate.
      * apply dstep_tr in E3 as [Al _]. contradiction.
Qed.
End P.
