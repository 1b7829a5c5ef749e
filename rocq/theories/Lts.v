(* Transition systems given by a partial step function: a label says which step is
   taken next, None that it cannot be taken.  Quantifying over all label lists is
   quantifying over all schedules. *)
From Coq Require Export List Lia.
Export ListNotations.

Section Lts.
Context {S L : Type} (step : S -> L -> option S).

Fixpoint exec (s : S) (ls : list L) : option S :=
  match ls with
  | [] => Some s
  | l :: r => match step s l with Some s' => exec s' r | None => None end
  end.

Lemma exec_app s a b : exec s (a ++ b) = match exec s a with Some s' => exec s' b | None => None end.
Proof. revert s. induction a as [|l a IH]; intros s; cbn; [reflexivity|]. destruct (step s l); auto. Qed.

(* invariants *)
Lemma exec_inv (I : S -> Prop) : (forall s l s', I s -> step s l = Some s' -> I s') ->
  forall ls s s', I s -> exec s ls = Some s' -> I s'.
Proof.
  intros H ls. induction ls as [|l ls IH]; intros s s' Hi E; cbn in E; [congruence|].
  destruct (step s l) eqn:El; [|discriminate]. eapply IH; [|exact E]. eapply H; eauto.
Qed.
(* relations between the two ends of an execution *)
Lemma exec_rel (R : S -> S -> Prop) : (forall s, R s s) -> (forall a b c, R a b -> R b c -> R a c) ->
  (forall s l s', step s l = Some s' -> R s s') -> forall ls s s', exec s ls = Some s' -> R s s'.
Proof.
  intros H0 Ht Hs ls. induction ls as [|l ls IH]; intros s s' E; cbn in E; [injection E as <-; auto|].
  destruct (step s l) eqn:El; [|discriminate]. eauto.
Qed.
(* relations under an invariant *)
Lemma exec_inv_rel (I : S -> Prop) (R : S -> S -> Prop) :
  (forall s l s', I s -> step s l = Some s' -> I s') ->
  (forall s, R s s) -> (forall a b c, R a b -> R b c -> R a c) ->
  (forall s l s', I s -> step s l = Some s' -> R s s') -> forall ls s s', I s -> exec s ls = Some s' -> R s s'.
Proof.
  intros Hi H0 Ht Hs ls. induction ls as [|l ls IH]; intros s s' Is E; cbn in E; [injection E as <-; auto|].
  destruct (step s l) eqn:El; [|discriminate]. eauto.
Qed.
Lemma exec_split ls1 ls2 s s' : exec s (ls1 ++ ls2) = Some s' -> exists m, exec s ls1 = Some m /\ exec m ls2 = Some s'.
Proof. rewrite exec_app. destruct (exec s ls1) as [m|]; [|discriminate]. eauto. Qed.
End Lts.

(* run a concrete schedule: [E] is the equation, later computed with vm_compute *)
Ltac concrete step init ls s E :=
  destruct (exec step init ls) as [s|] eqn:E; [|exfalso; vm_compute in E; discriminate E].

(* where an event of a growing history comes from *)
Section Origin.
Context {S L E : Type} (step : S -> L -> option S) (hist : S -> list E).
Hypothesis grows : forall s l s', step s l = Some s' -> exists es, hist s' = hist s ++ es.

Lemma exec_grows ls s s' : exec step s ls = Some s' -> exists es, hist s' = hist s ++ es.
Proof.
  revert s. induction ls as [|l ls IH]; intros s H; cbn in H; [injection H as <-; exists []; symmetry; apply app_nil_r|].
  destruct (step s l) as [s1|] eqn:Es; [|discriminate]. destruct (grows _ _ _ Es) as [e1 H1]. destruct (IH _ H) as [e2 H2].
  exists (e1 ++ e2). rewrite H2, H1, app_assoc. reflexivity.
Qed.
Lemma origin ls s s' : exec step s ls = Some s' -> forall a e b, hist s' = a ++ e :: b -> length (hist s) <= length a ->
  exists ls1 l ls2 s1 s2 es1 es2, ls = ls1 ++ l :: ls2 /\ exec step s ls1 = Some s1 /\ step s1 l = Some s2 /\ exec step s2 ls2 = Some s' /\
    a = hist s1 ++ es1 /\ hist s2 = hist s1 ++ es1 ++ e :: es2.
Proof.
  revert s. induction ls as [|l ls IH]; intros s H a e b Hh Ha; cbn in H.
  - injection H as <-. rewrite Hh, app_length in Ha. cbn in Ha. lia.
  - destruct (step s l) as [s1|] eqn:Es; [|discriminate]. destruct (grows _ _ _ Es) as [e1 H1]. destruct (exec_grows _ _ _ H) as [e2 H2].
    destruct (PeanoNat.Nat.le_gt_cases (length (hist s1)) (length a)) as [Le|Lt].
    + destruct (IH _ H _ _ _ Hh Le) as (ls1 & l' & ls2 & s2 & s3 & es1 & es2 & -> & B & C & D & F & G).
      exists (l :: ls1), l', ls2, s2, s3, es1, es2. cbn. rewrite Es. auto 10.
    + exists [], l, ls, s, s1. cbn. rewrite Hh, H1 in H2.
      (* a ++ e :: b = (hist s ++ e1) ++ e2, |hist s| <= |a| < |hist s ++ e1| *)
      rewrite H1 in Lt. rewrite app_length in Lt.
      assert (A : a = hist s ++ firstn (length a - length (hist s)) e1).
      { transitivity (firstn (length a) (a ++ e :: b)); [rewrite firstn_app, firstn_all, PeanoNat.Nat.sub_diag; cbn; rewrite app_nil_r; reflexivity|].
        rewrite H2, <- app_assoc, firstn_app, firstn_all2 by lia. f_equal. rewrite firstn_app.
        replace (length a - length (hist s) - length e1) with 0 by lia. cbn. apply app_nil_r. }
      set (es1 := firstn (length a - length (hist s)) e1) in *. set (r := skipn (length a - length (hist s)) e1).
      assert (R : e1 = es1 ++ r) by (symmetry; apply firstn_skipn).
      rewrite A, R in H2. rewrite <- !app_assoc in H2. apply app_inv_head in H2. apply app_inv_head in H2.
      destruct r as [|x r'].
      * exfalso. rewrite app_nil_r in R. assert (X : length a = length (hist s) + length e1) by (rewrite A, app_length, <- R; reflexivity). lia.
      * cbn in H2. injection H2 as <- _. exists es1, r'. rewrite H1, R. auto 10.
Qed.
End Origin.
