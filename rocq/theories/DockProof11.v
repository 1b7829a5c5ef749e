(* One greeting per connection; what ends a dock. *)
From Verif Require Import Lts GoVal Tables DockModel DockSpec DockSpec2 DockProof DockProof2 DockProof3 DockProof4 DockProof5 DockProof7 DockProof8 DockProof9 DockProof10.
From Coq Require Import Arith Bool List ZArith Lia.
Import ListNotations.
Open Scope nat_scope.

Section P.
Context {V : Type}.
Notation dock := (DockModel.dock V).
Notation tr := (tr V).
Implicit Types d : dock.
Definition pending (p : nat) (l : list (nat * bool)) : nat := length (filter (fun x => negb (snd x) && (fst x =? p)) l).
Lemma pending_app p a b : pending p (a ++ b) = pending p a + pending p b.
Proof. unfold pending. now rewrite filter_app, app_length. Qed.
Lemma pending_done p l j q : nth_error l j = Some (q, false) -> pending p (set_nth l j (q, true)) + (if q =? p then 1 else 0) = pending p l.
Proof.
  unfold pending. revert j. induction l as [|[x []] l IH]; intros [|j] E; try discriminate; cbn in *.
  - apply IH, E.
  - injection E as ->. destruct (q =? p); cbn; lia.
  - specialize (IH _ E). destruct (x =? p); cbn; lia.
Qed.
Lemma greetings_app p (a b : list (event V)) : greetings p (a ++ b) = greetings p a + greetings p b.
Proof. unfold greetings. now rewrite filter_app, app_length. Qed.
Lemma connected_app p (a b : list (label V)) : connected p (a ++ b) = connected p a + connected p b.
Proof. unfold connected. now rewrite filter_app, app_length. Qed.
Lemma greet_step d l d' p : tr d l d' -> greetings p (hist d') + pending p (announcers d') = greetings p (hist d) + pending p (announcers d) + connected p [l].
Proof.
  intros T. destruct T; proj; rewrite ?greetings_app, ?pending_app; try (cbn [connected greetings filter length app]; lia);
    try match goal with H : match ?k with _ => _ end |- _ => destruct k; try destruct H; cbn; lia end.
  - unfold connected, pending, greetings. cbn. destruct (_ =? _); cbn; lia.
  - pose proof (pending_done p _ _ _ H). unfold greetings at 2, connected. cbn. destruct (p0 =? p); cbn in *; lia.
Qed.
Lemma greet_inv carried ls d p : exec dstep (new_dock carried) ls = Some d -> greetings p (hist d) + pending p (announcers d) = connected p ls.
Proof.
  revert d. induction ls as [|l ls IH] using rev_ind; intros d E; [injection E as <-; reflexivity|]. rewrite exec_app in E. destruct (exec dstep (new_dock carried) ls) as [d1|] eqn:E1; [|discriminate].
  cbn in E. destruct (dstep d1 l) as [d2|] eqn:Es; [|discriminate]. injection E as <-. rewrite connected_app, <- (IH _ eq_refl). apply greet_step. now apply dstep_tr in Es.
Qed.
Lemma greets_once carried ls d p : exec dstep (new_dock carried) ls = Some d -> greetings p (hist d) <= connected p ls /\
  (state d = Alive -> (forall j ns acc, dstep d (LAnnounce j ns acc) = None) -> greetings p (hist d) = connected p ls).
Proof.
  intros E. pose proof (greet_inv _ _ _ p E) as G. split; [lia|]. intros A N. enough (pending p (announcers d) = 0) by lia.
  unfold pending. destruct (filter _ (announcers d)) as [|[q b] t] eqn:F; [reflexivity|]. exfalso. assert (I : In (q, b) (filter (fun x => negb (snd x) && (fst x =? p)) (announcers d))) by (rewrite F; now left).
  apply filter_In in I as [I B]. destruct b; [discriminate|]. apply In_nth_error in I as [j J]. specialize (N j (collected d) true). unfold dstep in N. rewrite A, J, reorders_refl in N. discriminate.
Qed.
Lemma exit_step d l d' : tr d l d' -> state d = Alive -> (state d' = Exited <-> net_failure l).
Proof.
  intros T A. destruct T; proj; rewrite ?A; cbn; try (split; [discriminate|intros []]); try (split; [reflexivity|intros; exact I]); try (split; [intros; exact I|reflexivity]);
    try (split; [discriminate|]; first [destruct acc; intros []|destruct ok; intros []|intros []]).
Qed.
Lemma exits carried ls d : exec dstep (new_dock carried) ls = Some d -> (state d = Exited <-> exists l, In l ls /\ net_failure l).
Proof.
  revert d. induction ls as [|l ls IH] using rev_ind; intros d E; [injection E as <-; split; [discriminate|intros (l & [] & _)]|]. rewrite exec_app in E. destruct (exec dstep (new_dock carried) ls) as [d1|] eqn:E1; [|discriminate].
  cbn in E. destruct (dstep d1 l) as [d2|] eqn:Es; [|discriminate]. injection E as <-. assert (A : state d1 = Alive) by (unfold dstep in Es; destruct (state d1); auto; discriminate).
  specialize (IH _ eq_refl). rewrite A in IH. apply dstep_tr in Es as [_ Es]. rewrite (exit_step _ _ _ Es A). split.
  - intros N. exists l. split; auto. apply in_or_app. right. now left.
  - intros (x & I & N). apply in_app_or in I as [I|[<-|[]]]; auto. assert (Alive = Exited) by (apply IH; eauto). discriminate.
Qed.
End P.
