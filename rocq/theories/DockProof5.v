(* Lost requests, the commit race, the query connection, calls after Close, waking up pending calls. *)
From Verif Require Import Lts GoVal Tables DockModel DockSpec DockProof DockProof2 DockProof3 DockProof4.
From Coq Require Import Arith Bool List ZArith Lia Permutation.
Import ListNotations.
Open Scope nat_scope.

Section P.
Context {V : Type}.
Notation dock := (DockModel.dock V).
Notation tr := (tr V).
Implicit Types d : dock.
Implicit Types h e : list (event V).
Ltac noev := intros; cbn; intuition congruence.

(* C45 *)
Lemma commits_in c p a h : In (ECommit c p a) h -> commits c h <> [].
Proof. intros X. apply in_split in X as (x & y & ->). rewrite commits_app. cbn. rewrite Nat.eqb_refl. destruct (commits c x); discriminate. Qed.
Lemma commits_two c p a p' a' h : In (ECommit c p a) h -> In (ECommit c p' a') h -> length (commits c h) <= 1 -> p = p' /\ a = a'.
Proof.
  intros X Y. apply in_split in X as (x & y & ->). rewrite commits_app. cbn. rewrite Nat.eqb_refl. rewrite app_length. cbn.
  intros L. rewrite in_app_iff in Y. destruct Y as [Y|[Y|Y]].
  - exfalso. apply commits_in in Y. destruct (commits c x); cbn in *; [congruence|lia].
  - injection Y as <- <-. auto.
  - exfalso. apply commits_in in Y. fold (commits c y) in L. destruct (commits c y); cbn in *; [congruence|lia].
Qed.
Lemma dropped carried ls d c q p : exec dstep (new_dock carried) ls = Some d -> NoDup (map q_index (requests (hist d))) ->
  In (ENew c q) (hist d) -> In (ECommit c p false) (hist d) -> forall p' q', q_index q' = q_index q -> ~ In (ESend p' (KRequest q') true) (hist d).
Proof.
  intros E N Hn Hc p' q' Hq X. apply in_split in X as (a & b & X). destruct (send_event _ _ _ _ _ _ _ _ E X) as (a' & c' & ->).
  assert (X' := X). rewrite <- app_assoc in X'. cbn in X'. destruct (commit_event _ _ _ _ _ _ _ _ E X') as (q'' & b' & A & B & _). injection B as -> _.
  assert (In (ENew c' q'') (hist d)) by (rewrite X, !in_app_iff; auto).
  destruct (call_unique _ _ _ _ _ _ _ E N Hn H) as [-> ->]; [congruence|].
  destruct (commits_two c' p false p' true (hist d)) as [_ Y]; auto; [|apply (commit_once _ _ _ c' E)|discriminate].
  rewrite X, !in_app_iff. left. right. left. reflexivity.
Qed.
Lemma hangs carried ls d c q p : exec dstep (new_dock carried) ls = Some d -> NoDup (map q_index (requests (hist d))) ->
  In (ENew c q) (hist d) -> In (ECommit c p false) (hist d) ->
  (forall p' rs, In (ERecv p' (KResponse rs)) (hist d) -> exists p'' q', In (ESend p'' (KRequest q') true) (hist d) /\ q_index q' = p_index rs) ->
  returns c (hist d) = [].
Proof.
  intros E N Hn Hc Hh. destruct (returns c (hist d)) as [|x t] eqn:R; [reflexivity|exfalso].
  assert (X : In (EReturn c x) (hist d)).
  { unfold returns in R. assert (Y : In x (x :: t)) by (left; reflexivity). rewrite <- R in Y. apply in_flat_map in Y as (ev & A & B). destruct ev; try destruct B.
    destruct (Nat.eqb_spec c0 c); [subst|destruct B]. destruct B as [->|[]]. exact A. }
  apply in_split in X as (a & b & X). destruct (return_event _ _ _ _ _ _ _ E X) as (q0 & p0 & rs & A & B & C & D).
  assert (A' : In (ENew c q0) (hist d)) by (rewrite X, in_app_iff; auto). destruct (ids_inv _ _ _ E) as [_ I]. pose proof (I _ _ A') as J. rewrite (I _ _ Hn) in J. injection J as <-.
  destruct (Hh p0 rs) as (p'' & q' & S & Q); [rewrite X, in_app_iff; auto|]. eapply (dropped _ _ _ c q p E N Hn Hc p'' q'); [congruence|exact S].
Qed.

(* C42 *)
Definition unsent (cs : list (call V)) c := exists r, nth_error cs c = Some r /\ c_req r <> None.
Definition guarded d := (forall c p, window c (handlers d p) -> unsent (calls d) c) /\ (forall c r, nth_error (calls d) c = Some r -> c_pc r = CSet -> c_req r <> None) /\
  state d <> Crashed NilRequest.
Lemma unsent_set cs c0 r r' c : unsent cs c -> nth_error cs c0 = Some r -> (c = c0 -> c_req r <> None -> c_req r' <> None) -> unsent (set_nth cs c0 r') c.
Proof.
  intros (r0 & A & B) E W. destruct (Nat.eq_dec c0 c) as [->|N].
  - rewrite E in A. injection A as ->. exists r'. split; [apply set_nth_same; eapply nth_lt; eauto|auto].
  - exists r0. rewrite set_nth_other by auto. auto.
Qed.
Lemma unsent_snoc cs r c : unsent cs c -> unsent (cs ++ [r]) c.
Proof. intros (r0 & A & B). exists r0. split; [apply nth_app, A|exact B]. Qed.
Lemma win_upd (hs : nat -> hpc) p x q c : window c (updp hs p x q) -> (q = p /\ window c x) \/ (q <> p /\ window c (hs q)).
Proof. unfold updp. destruct (Nat.eqb_spec q p); auto. Qed.
Lemma guarded_step d l d' : guarded d -> serial d -> state d = Alive -> tr d l d' -> guarded d'.
Proof.
  intros (G1 & G2 & _) S A T. unfold guarded.
  destruct T; proj; (split; [|split]); try exact G1; try exact G2; try congruence;
    try (intros c0 p0 W; apply win_upd in W as [[-> W]|[_ W]]; [destruct W|eauto]; fail);
    try (intros c0 p0 W; eapply unsent_set; [eauto|eassumption|cbn; intuition congruence]);
    try (intros c0 r0 E0 P0; apply set_nth_case in E0 as [[-> ->]|[_ E0]]; [cbn in *; first [discriminate P0 | congruence | eauto]|eauto]; fail).
  - (* pick *) intros c0 p0 W. apply win_upd in W as [[-> W]|[_ W]]; [|eauto]. cbn in W. subst c0. exists r. split; [assumption|congruence].
  - (* tested nil *) exfalso. destruct (G1 c p) as (r0 & X & Y); [rewrite H; reflexivity|]. congruence.
  - intros c0 p0 W. apply win_upd in W as [[-> W]|[_ W]]; [|eauto]. cbn in W. subst c0. exists r. split; [assumption|congruence].
  - exfalso. destruct (G1 c p) as (r0 & X & Y); [rewrite H; reflexivity|]. congruence.
  - (* handler commits *) intros c0 p0 W. apply win_upd in W as [[-> W]|[N W]]; [destruct W|]. eapply unsent_set; [eauto|eassumption|]. intros -> _. exfalso.
    apply N. eapply (proj1 (S c)); [exact W|rewrite H; reflexivity].
  - intros c0 r0 E0 P0. apply set_nth_case in E0 as [[-> ->]|[_ E0]]; [|eauto]. exfalso. cbn in P0. eapply (proj2 (S c) p); [rewrite H; reflexivity|exists r; auto].
  - intros c0 p0 W. apply unsent_snoc. eauto.
  - intros c0 r0 E0 P0. apply nth_snoc in E0 as [E0|[-> ->]]; [eauto|discriminate P0].
  - exfalso. eapply G2; eauto.
  - intros c0 p0 W. eapply unsent_set; [eauto|eassumption|]. intros -> _. exfalso. eapply (proj2 (S c) p0 W). exists r; auto.
Qed.
Lemma no_race carried ls d : (forall ls1 ls2 d1, ls = ls1 ++ ls2 -> exec dstep (new_dock carried) ls1 = Some d1 -> serial d1) ->
  exec dstep (new_dock carried) ls = Some d -> state d <> Crashed NilRequest.
Proof.
  intros S E. assert (X : guarded d); [|apply X]. revert d S E. induction ls as [|l ls IH] using rev_ind; intros d S E.
  - injection E as <-. split; [intros c p []|]. split; [intros [|c] r X; discriminate X|discriminate].
  - rewrite exec_app in E. destruct (exec dstep (new_dock carried) ls) as [d0|] eqn:E0; [|discriminate]. cbn in E. destruct (dstep d0 l) as [d1|] eqn:E1; [|discriminate]. injection E as <-.
    apply dstep_tr in E1 as [A T]. eapply guarded_step; [|eapply (S ls [l]); eauto|exact A|exact T]. apply IH; [|reflexivity]. intros ls1 ls2 d2 -> X. eapply (S ls1 (ls2 ++ [l])); [rewrite app_assoc; reflexivity|exact X].
Qed.

(* C43 *)
Lemma opened_app h e : opened (h ++ e) = opened h ++ opened e.
Proof. apply flat_map_app. Qed.
Lemma since_snoc h ev : since (h ++ [ev]) = match ev with EClosed => [] | ESocket k => since h ++ [k] | _ => since h end.
Proof. unfold since. rewrite fold_left_app. reflexivity. Qed.
Lemma since_frame h e : (forall k, ~ In (ESocket k) e) -> ~ In EClosed e -> since (h ++ e) = since h.
Proof.
  revert h. induction e as [|x e IH]; intros h H1 H2; [rewrite app_nil_r; reflexivity|]. change (x :: e) with ([x] ++ e). rewrite app_assoc, IH.
  - rewrite since_snoc. destruct x; try reflexivity; [exfalso; apply H2|exfalso; eapply H1]; left; reflexivity.
  - intros k X. eapply H1. right. exact X.
  - intros X. apply H2. right. exact X.
Qed.
Lemma sockets_inv carried ls d : exec dstep (new_dock carried) ls = Some d -> sockets d = since (hist d).
Proof.
  apply (reach (fun d => sockets d = since (hist d))); [reflexivity|]. clear. intros d l d' I _ T.
  destruct T; proj; rewrite <- ?app_assoc; try exact I; try (rewrite since_frame by noev; exact I); rewrite since_snoc, ?I; reflexivity.
Qed.
Lemma query_event carried ls d a k f b : exec dstep (new_dock carried) ls = Some d -> hist d = a ++ EQuery k f :: b -> exists t, since a = k :: t.
Proof.
  intros E H. destruct (behind _ _ _ _ _ _ E H) as (ls1 & l & ls2 & d1 & d2 & es1 & es2 & _ & E1 & T & _ & F & G). pose proof (sockets_inv _ _ _ E1) as I.
  event T G; rewrite app_nil_r, <- I; eauto.
Qed.
Lemma since_opened h : ~ In EClosed h -> since h = opened h.
Proof.
  induction h as [|x h IH] using rev_ind; intros H; [reflexivity|]. rewrite in_app_iff in H. rewrite since_snoc, opened_app.
  destruct x; cbn; rewrite ?app_nil_r; try (apply IH; tauto); [exfalso; apply H; right; left; reflexivity|]. rewrite IH by tauto. reflexivity.
Qed.
Definition busy_after d := forall p, handlers d p <> HIdle -> exists k, In (ERecv p k) (hist d).
Lemma busy_inv carried ls d : exec dstep (new_dock carried) ls = Some d -> busy_after d.
Proof.
  apply reach; [intros p X; exfalso; apply X; reflexivity|]. clear. unfold busy_after. intros d l d' I _ T.
  destruct T; proj; rewrite <- ?app_assoc; intros p0 X; unfold updp in X;
    try (match type of X with context [?a =? ?b] => destruct (Nat.eqb_spec a b) as [Ee|N]; [subst p0|] end);
    try (match type of X with HIdle <> HIdle => congruence end);
    try (eexists; rewrite ?in_app_iff; right; left; reflexivity);
    try congruence; try (destruct (I _ X) as [k0 Y]; exists k0; rewrite ?in_app_iff; auto; fail);
    (match goal with H : handlers d ?p1 = _ |- _ => destruct (I p1) as [k0 Y]; [congruence|]; exists k0; rewrite ?in_app_iff; auto end).
Qed.
Lemma socket_event carried ls d a k b : exec dstep (new_dock carried) ls = Some d -> hist d = a ++ ESocket k :: b -> k = SHub \/ exists p pk, In (ERecv p pk) a.
Proof.
  intros E H. destruct (behind _ _ _ _ _ _ E H) as (ls1 & l & ls2 & d1 & d2 & es1 & es2 & _ & E1 & T & _ & F & G). pose proof (busy_inv _ _ _ E1) as I.
  event T G; rewrite app_nil_r; auto; right; exists p; apply I; congruence.
Qed.
Lemma hub_first carried ls d a k f b : exec dstep (new_dock carried) ls = Some d -> hist d = a ++ EQuery k f :: b -> ~ In EClosed a ->
  (forall a' p pk b', hist d = a' ++ ERecv p pk :: b' -> In (ESocket SHub) a') -> k = SHub.
Proof.
  intros E H N W. destruct (query_event _ _ _ _ _ _ _ E H) as [t Ht]. rewrite since_opened in Ht by auto.
  assert (X : exists a1 a2, a = a1 ++ ESocket k :: a2 /\ opened a1 = []).
  { clear - Ht. induction a as [|x a IH]; [discriminate|]. destruct x; cbn in Ht; try (destruct (IH Ht) as (a1 & a2 & -> & Y); eexists (_ :: a1), a2; split; [reflexivity|exact Y]).
    injection Ht as -> _. exists [], a. auto. }
  destruct X as (a1 & a2 & -> & Y). rewrite <- app_assoc in H. cbn in H. destruct (socket_event _ _ _ _ _ _ E H) as [?|(p & pk & X)]; [assumption|exfalso].
  apply in_split in X as (b1 & b2 & ->). rewrite <- app_assoc in H. cbn in H. specialize (W _ _ _ _ H).
  apply in_split in W as (c1 & c2 & ->). rewrite !opened_app in Y. cbn in Y. destruct (opened c1); discriminate Y.
Qed.

(* after Close *)
Lemma after_close carried ls d a b f m args w t acc acc' : exec dstep (new_dock carried) ls = Some d -> state d = Alive -> hist d = a ++ EClosed :: b -> opened b = [] ->
  (forall p, ~ In (ECached f p) (hist d)) ->
  exists d', exec dstep d [LCall f m args w t; CStep (length (calls d)) acc; CStep (length (calls d)) acc'] = Some d' /\ state d' = Crashed NoSocket.
Proof.
  intros E A Hh Ho Hc.
  assert (Cl : slots d = []).
  { assert (X : cleared (hist d)).
    { assert (Y : forall ls d, exec dstep (new_dock carried) ls = Some d -> (In EClosed (hist d) \/ (exists n, closer d = KSock n)) -> cleared (hist d)).
      { clear. apply (reach (fun d => (In EClosed (hist d) \/ (exists n, closer d = KSock n)) -> cleared (hist d))); [intros [[]|[n X]]; discriminate X|].
        intros d l d' I _ T. unfold cleared in *. destruct T; proj; rewrite <- ?app_assoc, ?in_app_iff; cbn; try exact I; intros [X|X];
          try (left; apply I; solve [auto|intuition congruence]); try (apply I; solve [auto|intuition congruence]); try (destruct X as [n0 X]; discriminate X); auto;
          try (left; apply I; right; eauto). }
      eapply Y; [exact E|]. left. rewrite Hh, in_app_iff. right; left; reflexivity. }
    destruct (slots_inv _ _ _ E) as [[Y _]|[_ Y]]; [contradiction|exact Y]. }
  assert (So : sockets d = []).
  { rewrite (sockets_inv _ _ _ E), Hh. clear - Ho. induction b as [|x b IH] using rev_ind; [rewrite since_snoc; reflexivity|].
    rewrite opened_app in Ho. apply app_eq_nil in Ho as [H1 H2]. rewrite app_comm_cons, app_assoc, since_snoc. destruct x; auto. discriminate H2. }
  assert (Re : remote d f = None) by (specialize (cache_inv _ _ _ E f) as X; destruct (remote d f) as [p|]; [destruct X as (h1 & h2 & X & _); exfalso; apply (Hc p); rewrite X, in_app_iff; right; left; reflexivity|reflexivity]).
  cbn [exec]. unfold dstep at 1. rewrite A, Cl. cbn [aget]. unfold dstep at 1. proj. rewrite A. rewrite nth_error_app2 by lia. rewrite Nat.sub_diag. cbn [nth_error c_pc].
  unfold dstep at 1. proj. rewrite A. rewrite set_nth_same by (rewrite app_length; cbn; lia). cbn [c_pc]. unfold commit, at_call. proj. rewrite !set_nth_same by (rewrite app_length; cbn; lia).
  cbn [c_req c_orig q_slot]. rewrite Re, So. proj. rewrite set_nth_same by (rewrite app_length; cbn; lia). eexists. split; reflexivity.
Qed.
End P.
