(* The parts of a full system run as in their own models; what features are asked to do. *)
From Verif Require Import Lts GoVal Tables DockModel DockSpec DockProof DockProof2 DockProof3 DockProof4 DockProof7 SysModel SysSpec SysProof SysProof2 SysProof4 FullModel FullSpec.
From Verif Require ChanModel ChanSpec ChanProof ChanProof2 ChanProof4 HubModel.
From Coq Require Import Arith Bool List ZArith Lia.
Import ListNotations.
Open Scope nat_scope.

(* ---- facts about a callee ---- *)
Section Callee.
Context {O V : Type} (T : ChanModel.target O V).
Implicit Types c : ChanModel.chan O V.
Definition matched (ls : list (ChanModel.label V)) : Prop := forall g k m a, In (ChanModel.LCall g k m a) ls -> g = k.

Lemma chan_grows c l c' : ChanModel.cstep T c l = Some c' -> exists es, ChanModel.hist c' = ChanModel.hist c ++ es /\
  (forall r g k m a, In (ChanModel.EIssue r g k m a) es -> l = ChanModel.LCall g k m a /\ r = ChanModel.nreqs c /\ ChanModel.gor c g = ChanModel.GIdle).
Proof.
  intros H. assert (Z : forall h : list (ChanModel.event V), h = h ++ []) by (intros; now rewrite app_nil_r).
  destruct l; ChanProof.steps H; eexists; (split; [cbn; try (apply Z; fail); reflexivity|]); cbn; intros r' g' k' m' a'; try (intros []; fail); intros [X|[]]; try discriminate X.
  injection X as <- <- <- <- <-. auto.
Qed.
Lemma call_enabled c g k m a : ChanModel.crashed c = false -> ChanModel.gor c g = ChanModel.GIdle ->
  exists c', ChanModel.cstep T c (ChanModel.LCall g k m a) = Some c'.
Proof. intros C G. unfold ChanModel.cstep. rewrite C, G. eauto. Qed.
Lemma call_effect c g k m a c' : ChanModel.cstep T c (ChanModel.LCall g k m a) = Some c' ->
  ChanModel.hist c' = ChanModel.hist c ++ [ChanModel.EIssue (ChanModel.nreqs c) g k m a] /\
  (forall g', ChanModel.gor c' g' = if g' =? g then ChanModel.GSending (ChanModel.nreqs c) else ChanModel.gor c g').
Proof. intros H. ChanProof.steps H. split; reflexivity. Qed.
Lemma receive_effect c g c' : ChanModel.cstep T c (ChanModel.LReceive g) = Some c' ->
  exists r o a, ChanModel.gor c g = ChanModel.GWaiting r /\ nth_error (ChanModel.responses c (ChanModel.rq_caller (ChanModel.reqs c r))) 0 = Some (o, a) /\
    ChanModel.hist c' = ChanModel.hist c ++ [ChanModel.EReturn g r o a] /\ (forall g', ChanModel.gor c' g' = if g' =? g then ChanModel.GIdle else ChanModel.gor c g').
Proof.
  intros H. unfold ChanModel.cstep in H. destruct (ChanModel.crashed c); [discriminate|]. destruct (ChanModel.gor c g) as [| |r] eqn:G; try discriminate.
  cbv zeta in H. destruct (ChanModel.responses c _) as [|[o a] rest] eqn:R; [discriminate|]. injection H as <-.
  exists r, o, a. rewrite R. cbn. repeat split; auto.
Qed.
(* goroutines leave and enter GIdle only by calls *)
Lemma gor_kept c l c' g : ChanModel.cstep T c l = Some c' -> (forall k m a, l <> ChanModel.LCall g k m a) -> l <> ChanModel.LReceive g ->
  (ChanModel.gor c' g = ChanModel.GIdle <-> ChanModel.gor c g = ChanModel.GIdle).
Proof.
  intros H N1 N2. destruct l; ChanProof.steps H; cbn; try tauto; unfold ChanModel.upd; destruct (Nat.eqb_spec g g0); subst; try tauto; try congruence.
  all: try (split; intros X; try discriminate X; congruence).
Qed.
Lemma busy_issued o ls c g : exec (ChanModel.cstep T) (ChanModel.new_chan o) ls = Some c -> ChanModel.gor c g <> ChanModel.GIdle ->
  exists r k m a, In (ChanModel.EIssue r g k m a) (ChanModel.hist c).
Proof.
  intros H. revert g. revert H. apply (exec_inv (ChanModel.cstep T) (fun c => forall g, ChanModel.gor c g <> ChanModel.GIdle -> exists r k m a, In (ChanModel.EIssue r g k m a) (ChanModel.hist c))).
  - intros a l b I H g N. destruct (chan_grows _ _ _ H) as (es & He & _). rewrite He.
    assert (X : (exists k m x, l = ChanModel.LCall g k m x) \/ ChanModel.gor a g <> ChanModel.GIdle).
    { destruct l; ChanProof.steps H; auto; cbn in N; unfold ChanModel.upd in N; destruct (Nat.eqb_spec g g0); subst; eauto; right; congruence. }
    destruct X as [(k & m & x & ->)|X].
    + destruct (call_effect _ _ _ _ _ _ H) as [E _]. rewrite <- He, E. do 4 eexists. apply in_or_app. right. now left.
    + destruct (I _ X) as (r & k & m & x & J). do 4 eexists. apply in_or_app. left. exact J.
  - intros g N. destruct N. reflexivity.
Qed.
(* g calls through its own caller object *)
Lemma matched_calling ls g k : matched ls -> ChanSpec.calling ls g = Some k -> k = g.
Proof.
  induction ls as [|l ls IH] using rev_ind; intros M; [discriminate|]. rewrite ChanProof2.calling_snoc.
  assert (M' : matched ls) by (intros a b e d X; eapply M, in_or_app; left; exact X).
  assert (Ml : forall a b e d, l = ChanModel.LCall a b e d -> a = b) by (intros a b e d ->; eapply M, in_or_app; right; now left).
  destruct l; auto.
  - destruct (Nat.eqb_spec g0 g); auto. intros [= <-]. subst. symmetry. eapply Ml; reflexivity.
  - destruct (Nat.eqb_spec g0 g); auto. discriminate.
Qed.
Lemma matched_discipline o ls c : exec (ChanModel.cstep T) (ChanModel.new_chan o) ls = Some c -> matched ls -> ChanSpec.one_goroutine_per_caller ls.
Proof.
  revert c. induction ls as [|l ls IH] using rev_ind; intros c H M.
  - intros a g k m args b E. destruct a; discriminate.
  - destruct (exec_split _ _ _ _ _ H) as (c1 & H1 & H2). cbn in H2. destruct (ChanModel.cstep T c1 l) as [c2|] eqn:E2; [|discriminate].
    assert (M' : matched ls) by (intros a b d e X; eapply M, in_or_app; left; exact X).
    specialize (IH _ H1 M'). intros a g k m args b E g' Hc. destruct b as [|x b] using rev_ind.
    + apply app_inj_tail in E as [-> ->]. assert (g = k) as <- by (eapply M, in_or_app; right; now left).
      apply matched_calling in Hc as Eg; auto. subst g'.
      destruct (ChanProof2.own_exec T _ _ _ H1 IH) as [_ Tr]. specialize (Tr g). rewrite Hc in Tr. unfold ChanProof2.active in Tr.
      unfold ChanModel.cstep in E2. destruct (ChanModel.crashed c1); [discriminate|]. destruct (ChanModel.gor c1 g); discriminate.
    + rewrite app_comm_cons, app_assoc in E. apply app_inj_tail in E as [-> _]. eapply IH; eauto.
Qed.
End Callee.

(* ---- what a dock's step does to its serving goroutines ---- *)
Section Dock.
Context {V : Type}.
Implicit Types d : dock V.
Lemma local_app (a b : list (event V)) : local_calls (a ++ b) = local_calls a ++ local_calls b.
Proof. apply flat_map_app. Qed.
Lemma dock_evolves d l d' : dstep d l = Some d' ->
  (forall k sv, nth_error (servers d) k = Some sv -> exists sv', nth_error (servers d') k = Some sv' /\ s_req sv' = s_req sv /\ (s_pc sv <> SRun -> s_pc sv' <> SRun) /\
     (s_pc sv' = SRun -> forall res err, l <> SExec k res err) /\ (s_pc sv' <> SRun -> s_pc sv = SRun -> exists res err, l = SExec k res err)) /\
  (forall k sv', nth_error (servers d) k = None -> nth_error (servers d') k = Some sv' -> s_pc sv' = SRun) /\
  exists es, hist d' = hist d ++ es /\ (forall k res err, In (ERan k res err) es -> l = SExec k res err) /\
    local_calls es = match l with LCall f m args _ _ => match aget (slots d) f with Some _ => [(f, m, args)] | None => [] end | _ => [] end.
Proof.
  intros H. apply dstep_tr in H as [_ T].
  assert (Z : forall k (sv : server V), nth_error (servers d) k = Some sv -> (forall res err, l <> SExec k res err) -> exists sv', nth_error (servers d) k = Some sv' /\ s_req sv' = s_req sv /\ (s_pc sv <> SRun -> s_pc sv' <> SRun) /\
     (s_pc sv' = SRun -> forall res err, l <> SExec k res err) /\ (s_pc sv' <> SRun -> s_pc sv = SRun -> exists res err, l = SExec k res err)) by (intros k sv E N; exists sv; intuition congruence).
  assert (Zn : forall k (sv : server V), nth_error (servers d) k = None -> nth_error (servers d) k = Some sv -> s_pc sv = SRun) by (intros; congruence).
  destruct T; proj; (split; [|split]); rewrite <- ?app_assoc; cbn [app];
    try exact Zn; try (intros k0 sv0 E0; apply Z; [exact E0|intros; discriminate]);
    try (eexists; split; [first [reflexivity|symmetry; apply app_nil_r]|]; split; [intros k0 res0 err0; cbn; intuition congruence|cbn; rewrite ?H; try reflexivity; destruct k; reflexivity]).
  - (* a request *) intros k sv E. exists sv. rewrite nth_error_app1 by (apply nth_error_Some; congruence). intuition congruence.
  - intros k sv' E E'. destruct (Nat.eq_dec k (length (servers d))) as [->|N].
    + rewrite nth_error_app2, Nat.sub_diag in E' by lia. injection E' as <-. reflexivity.
    + apply nth_error_None in E. rewrite nth_error_app2 in E' by lia. destruct (k - length (servers d)) as [|[|?]] eqn:?; cbn in E'; try discriminate. lia.
  - (* SExec *) intros k0 s0 E0. destruct (Nat.eq_dec k0 k) as [->|N].
    + rewrite H in E0. injection E0 as <-. eexists. split; [apply set_nth_same; apply nth_error_Some; congruence|]. cbn. split; [reflexivity|]. split; [congruence|]. split; [discriminate|]. eauto.
    + exists s0. rewrite set_nth_other by auto. intuition congruence.
  - intros k0 s0 E0 E1. destruct (Nat.eq_dec k0 k) as [->|N]; [congruence|]. rewrite set_nth_other in E1 by auto. congruence.
  - (* SSend *) intros k0 s0 E0. destruct (Nat.eq_dec k0 k) as [->|N].
    + rewrite H in E0. injection E0 as <-. eexists. split; [apply set_nth_same; apply nth_error_Some; congruence|]. cbn. split; [reflexivity|]. rewrite H0. split; [congruence|]. split; [discriminate|]. congruence.
    + exists s0. rewrite set_nth_other by auto. intuition congruence.
  - intros k0 s0 E0 E1. destruct (Nat.eq_dec k0 k) as [->|N]; [congruence|]. rewrite set_nth_other in E1 by auto. congruence.
Qed.
End Dock.
