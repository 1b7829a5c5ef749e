(* The dock properties in the vocabulary of DockSpec. *)
From Verif Require Import Lts GoVal Tables DockModel DockSpec DockProof DockProof2 DockProof3 DockProof4 DockProof5 DockProof6 DockProof7.
From Coq Require Import Arith Bool List ZArith Lia Permutation.
Import ListNotations.
Open Scope nat_scope.

Section P.
Context {V : Type}.
Notation dock := (DockModel.dock V).
Implicit Types d : dock.

Lemma delivers_returned (r : response V) : delivers r (returned r).
Proof. unfold delivers, returned. cbn. destruct (p_err r); repeat split; congruence. Qed.
Lemma answers_respond (q : request V) res err : answers q res err (respond q res err).
Proof. unfold answers, respond. cbn. repeat split; intros; subst; reflexivity. Qed.

Lemma return_spec carried ls d a c x b : exec dstep (new_dock carried) ls = Some d -> hist d = a ++ EReturn c x :: b ->
  exists q p r, In (ENew c q) a /\ In (ERecv p (KResponse r)) a /\ p_index r = q_index q /\ delivers r x.
Proof.
  intros E H. destruct (return_event _ _ _ _ _ _ _ E H) as (q & p & r & A & B & C & ->). exists q, p, r. repeat split; auto; apply delivers_returned.
Qed.
Lemma own_answer carried ls d a c x b : exec dstep (new_dock carried) ls = Some d -> NoDup (map q_index (requests (hist d))) -> honest (hist d) ->
  hist d = a ++ EReturn c x :: b -> exists q p r, In (ENew c q) a /\ In (ERecv p (KResponse r)) a /\ delivers r x /\
    p_index r = q_index q /\ p_slot r = q_slot q /\ p_method r = q_method q.
Proof.
  intros E N Ho H. destruct (return_spec _ _ _ _ _ _ _ E H) as (q & p & r & A & B & C & D). exists q, p, r.
  destruct (Ho p r) as (c' & q' & A' & C' & S & M); [rewrite H; apply in_or_app; auto|].
  assert (A2 : In (ENew c q) (hist d)) by (rewrite H; apply in_or_app; auto).
  destruct (call_unique _ _ _ _ _ _ _ E N A2 A') as [-> ->]; [congruence|]. auto 10.
Qed.
Lemma new_unique carried ls d c q q' : exec dstep (new_dock carried) ls = Some d -> In (ENew c q) (hist d) -> In (ENew c q') (hist d) -> q = q'.
Proof. intros E A B. destruct (ids_inv _ _ _ E) as [_ I]. apply I in A. apply I in B. congruence. Qed.
Lemma commit_spec carried ls d a c p acc b : exec dstep (new_dock carried) ls = Some d -> hist d = a ++ ECommit c p acc :: b ->
  exists q b', In (ENew c q) a /\ b = ESend p (KRequest q) acc :: b' /\ latest (q_slot q) a p /\ exists sl, In (ERecv p (KRegister sl)) a /\ In (q_slot q) sl.
Proof.
  intros E H. destruct (commit_event _ _ _ _ _ _ _ _ E H) as (q & b' & A & B & L). exists q, b'. split; [exact A|]. split; [exact B|]. split; [exact L|].
  destruct L as (h1 & h2 & -> & _). rewrite <- app_assoc in H. cbn in H. destruct (cached_event _ _ _ _ _ _ _ E H) as (sl & X & Y).
  exists sl. split; [apply in_or_app; auto|exact Y].
Qed.
Lemma reply_spec carried ls d a k acc b : exec dstep (new_dock carried) ls = Some d -> hist d = a ++ EReplied k acc :: b ->
  exists p q res err r b', nth_error (accepted (map fst carried) a) k = Some (p, q) /\ runs k a = [(res, err)] /\ b = ESend p (KResponse r) acc :: b' /\ answers q res err r.
Proof.
  intros E H. destruct (reply_event _ _ _ _ _ _ _ E H) as (p & q & res & err & b' & A & B & C). exists p, q, res, err, (respond q res err), b'.
  repeat split; auto; apply answers_respond.
Qed.
Lemma run_accepted carried ls d k : exec dstep (new_dock carried) ls = Some d -> runs k (hist d) <> [] -> k < length (accepted (map fst carried) (hist d)).
Proof.
  intros E H. destruct (serve_bounds _ _ _ k E) as (_ & _ & X). destruct (Nat.lt_ge_cases k (length (accepted (map fst carried) (hist d)))); [assumption|]. exfalso. auto.
Qed.
Lemma replies_in k acc (h : list (event V)) : In (EReplied k acc) h -> 1 <= replies k h.
Proof. intros X. apply in_split in X as (a & b & ->). rewrite replies_app. unfold replies. cbn. rewrite Nat.eqb_refl. cbn. lia. Qed.
Lemma dropped_reply carried ls d k : exec dstep (new_dock carried) ls = Some d -> In (EReplied k false) (hist d) -> ~ In (EReplied k true) (hist d).
Proof.
  intros E A B. destruct (serve_bounds _ _ _ k E) as (L1 & L2 & _). apply in_split in A as (x & y & A). rewrite A in *. rewrite replies_app in L2.
  assert (X : replies k (EReplied k false :: y) = S (replies k y)) by (unfold replies; cbn; rewrite Nat.eqb_refl; reflexivity). rewrite X in L2.
  rewrite in_app_iff in B. destruct B as [B|[B|B]]; [apply replies_in in B; lia|discriminate|apply replies_in in B; lia].
Qed.
Lemma same_queries carried ls d k t a k' f b : exec dstep (new_dock carried) ls = Some d -> forall ls' d', since (hist d) = k :: t -> exec dstep d ls' = Some d' ->
  hist d' = hist d ++ a ++ EQuery k' f :: b -> ~ In EClosed a -> k' = k.
Proof.
  intros E ls' d' S E' H N. assert (E2 : exec dstep (new_dock carried) (ls ++ ls') = Some d') by (rewrite exec_app, E; exact E').
  rewrite app_assoc in H. destruct (query_event _ _ _ _ _ _ _ E2 H) as [t' S'].
  assert (X : exists u, since (hist d ++ a) = since (hist d) ++ u).
  { clear - N. induction a as [|x a IH] using rev_ind; [exists []; rewrite !app_nil_r; reflexivity|]. rewrite in_app_iff in N. destruct IH as [u IH]; [tauto|].
    rewrite app_assoc, since_snoc, IH. destruct x; eauto; [exfalso; apply N; right; left; reflexivity|]. exists (u ++ [k]). rewrite app_assoc. reflexivity. }
  destruct X as [u X]. rewrite X, S in S'. cbn in S'. congruence.
Qed.
Lemma dead d l d' : state d <> Alive -> dstep d l = Some d' -> False.
Proof. intros N H. apply dstep_tr in H as [A _]. contradiction. Qed.
Lemma dead_stays d ls d' : state d <> Alive -> exec dstep d ls = Some d' -> d' = d.
Proof. intros N H. destruct ls as [|l ls]; cbn in H; [congruence|]. destruct (dstep d l) eqn:E; [|discriminate]. exfalso. eapply dead; eauto. Qed.
Lemma unreachable d p addr : state d = Alive -> handlers d p = HIdle ->
  exists d', exec dstep d [LRecv p (KAddress addr); HNet p false] = Some d' /\ state d' = Exited.
Proof.
  intros A H. cbn [exec]. unfold dstep at 1. rewrite A, H. unfold dstep at 1. proj. rewrite A, updp_same. eexists. split; reflexivity.
Qed.
End P.
