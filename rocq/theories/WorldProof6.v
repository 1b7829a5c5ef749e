(* When nothing is left to do, calls have returned. *)
From Verif Require Import Lts GoVal Tables DockModel DockSpec DockProof DockProof2 DockProof3 DockProof4 DockProof8 DockProof9 DockProof10.
From Verif Require Import SysModel SysSpec SysProof SysProof2 SysProof3 SysProof4 WorldModel WorldSpec WorldProof WorldProof2 WorldProof3 WorldProof4 WorldProof5.
From Verif Require HubModel HubSpec HubProof HubProof2 HubProof3 HubProof4.
From Coq Require Import Arith Bool List ZArith Lia.
Import ListNotations.
Open Scope nat_scope.

Section Dock.
Context {V : Type}.
Implicit Types d : dock V.
(* a call past its first step and without its request has been committed *)
Definition gone d : Prop := state d = Alive -> forall c r, nth_error (calls d) c = Some r -> c_req r = None -> c_pc r = CPut \/ exists p acc, In (ECommit c p acc) (hist d).
Lemma gone_inv c0 ls d : exec dstep (new_dock c0) ls = Some d -> gone d.
Proof.
  apply (reach (fun d => gone d)); [intros _ [|c] r H; discriminate H|]. clear. intros d l d' I A T A' c r Hr Hq. specialize (I A).
  assert (Old : forall es, nth_error (calls d) c = Some r -> c_pc r = CPut \/ exists p acc, In (ECommit c p acc) (hist d ++ es)).
  { intros es K. destruct (I _ _ K Hq) as [X|(p & acc & X)]; auto. right. exists p, acc. apply in_or_app. auto. }
  assert (Old0 : nth_error (calls d) c = Some r -> c_pc r = CPut \/ exists p acc, In (ECommit c p acc) (hist d)).
  { intros K. exact (I _ _ K Hq). }
  destruct T; proj; rewrite <- ?app_assoc; try discriminate; auto;
    try (apply set_nth_case in Hr as [[-> ->]|[N Hr]]; cbn [c_req c_pc] in *; [|auto]);
    try (right; exists k, acc; apply in_or_app; right; now left); try discriminate.
  all: try (destruct (I _ _ H Hq) as [X|X]; [congruence|now right]).
  all: try (destruct (I _ _ H Hq) as [X|(p' & acc' & X)]; [congruence|right; exists p', acc'; apply in_or_app; auto]).
  all: try congruence.
  - apply nth_snoc in Hr as [Hr|[-> ->]]; [auto|left; reflexivity].
  - match goal with E : nth_error (calls d) _ = Some r0 |- _ => exact (I _ _ E Hq) end.
Qed.
End Dock.

Section P.
Context {V : Type}.
Variables (carried : nat -> list (name * bool)).
Variable carry : nat -> nat -> list V -> option (list V).
Variables (black : list Z) (raddr : nat -> name).
Notation sys := (SysModel.sys V).
Notation wstep := (wstep carry black raddr).
Notation run ls w := (exec wstep (winit carried) ls = Some w).
Implicit Types w : world V.

Section Settled.
Variables (ls : list (wlab V)) (w : world V).
Hypotheses (R : run ls w) (H : healthy (ws w)) (S : settled carry black raddr w).
Lemma dock_due i l : due (WDock i l) -> dstep (sd (ws w) i) l = None.
Proof.
  intros D. destruct (dstep (sd (ws w) i) l) as [d|] eqn:E; auto. exfalso. destruct S as [S1 _]. specialize (S1 _ D).
  destruct l; try destruct D; cbn in S1; unfold dock_step in S1; rewrite E in S1; discriminate.
Qed.
Lemma all_idle i p : handlers (sd (ws w) i) p = HIdle.
Proof.
  assert (A := h_alive _ H i). assert (G := dock_due i (HGo p) Logic.I). unfold dstep in G. rewrite A in G.
  destruct (handlers (sd (ws w) i) p) as [|sl|f sl todo|f sl todo c|f sl todo c|sl|sl|n|n| | |a|a] eqn:E; auto; exfalso; try discriminate G.
  - destruct sl; discriminate.
  - destruct todo as [|k todo]; [discriminate|]. assert (P := dock_due i (HPick p k) Logic.I). unfold dstep in P. rewrite A, E in P.
    destruct (zget (rpcs (sd (ws w) i)) k); [discriminate|]. cbn in P. rewrite Z.eqb_refl in P. discriminate.
  - assert (P := dock_due i (HCommit p true) Logic.I). unfold dstep in P. rewrite A, E in P. discriminate.
  - assert (P := dock_due i (HSend p (collected (sd (ws w) i)) true) Logic.I). unfold dstep in P. rewrite A, reorders_refl, E in P. discriminate.
  - destruct sl; discriminate.
  - destruct S as [S1 _]. specialize (S1 (WListen i p false) Logic.I). cbn in S1. rewrite E in S1. cbn in S1. unfold dock_step, dstep in S1. rewrite A, E in S1. discriminate.
  - assert (P := dock_due i (HSend p (collected (sd (ws w) i)) true) Logic.I). unfold dstep in P. rewrite A, reorders_refl, E in P. discriminate.
  - destruct S as [S1 _]. specialize (S1 (WFail i p) Logic.I). cbn in S1. rewrite E in S1. cbn in S1. unfold dock_step, dstep in S1. rewrite A, E in S1. discriminate.
Qed.
Lemma no_backlog i q : ~ In q (backlog w i).
Proof.
  intros I. destruct S as [S1 _]. specialize (S1 (WAccept i q) Logic.I). cbn in S1.
  assert (X : existsb (Nat.eqb q) (backlog w i) = true) by (apply existsb_exists; exists q; split; auto; apply Nat.eqb_refl). rewrite X in S1.
  unfold dock_step, dstep in S1. rewrite (h_alive _ H i) in S1. discriminate.
Qed.
Lemma no_wire i p : wire (ws w) i p = [].
Proof.
  destruct (wire (ws w) i p) as [|k q] eqn:E; auto. exfalso. destruct S as [S1 _]. specialize (S1 (WDeliver i p) Logic.I). unfold WorldModel.wstep in S1.
  destruct (existsb (Nat.eqb p) (backlog w i)) eqn:X; [apply existsb_exists in X as (x & X & _); eapply no_backlog; eauto|].
  destruct (deliverable (ends w) hub_end carry black raddr hostport (ws w) i p k q E (h_alive _ H i) (all_idle i p)) as (s' & E' & _). rewrite E' in S1. discriminate.
Qed.
Lemma all_announced i p : ~ In (p, false) (announcers (sd (ws w) i)).
Proof.
  intros I. apply In_nth_error in I as [n I]. assert (G := dock_due i (LAnnounce n (collected (sd (ws w) i)) true) Logic.I). unfold dstep in G.
  rewrite (h_alive _ H i), I, reorders_refl in G. discriminate.
Qed.
Lemma hub_idle h : HubModel.handlers (sh (ws w)) h = HubModel.HIdle.
Proof.
  destruct (hub_runs _ _ _ _ _ _ _ _ (run_ok _ _ _ _ _ _ R)) as [lh Lh]. apply HubProof3.qinv_exec in Lh as (Iv & _).
  assert (Ok := HubProof2.i_handler _ _ Iv h). destruct S as [S1 _]. specialize (S1 (WHub (HubModel.HStep h)) Logic.I). cbn in S1. unfold hub_step, HubModel.hstep in S1.
  rewrite (h_hub _ H) in S1. destruct (HubModel.handlers (sh (ws w)) h) as [|t sl|t host n [|f sl]|t [|f sl]|t f i sl|t f i sl] eqn:E; auto; exfalso; try discriminate S1.
  - destruct (HubModel.allocate _ _); discriminate.
  - destruct Ok as (_ & _ & _ & _ & L & _). destruct (nth_error (HubModel.docks (sh (ws w)) f) i) eqn:En; [destruct (_ =? _); discriminate|].
    apply nth_error_None in En. lia.
Qed.
Lemma no_hwire h : hwire (ws w) h = [].
Proof.
  destruct (hwire (ws w) h) as [|k q] eqn:E; auto. exfalso. destruct S as [S1 _]. specialize (S1 (WHubDeliver h) Logic.I). cbn in S1. rewrite E in S1.
  unfold hub_step, HubModel.hstep in S1. cbn [set_hwire sh] in S1. rewrite (h_hub _ H), hub_idle in S1. destruct k; discriminate.
Qed.
Lemma marked_all j f : nothing_lost ls -> runner (sd (ws w) j) <> NDial -> carries (carried j) f true -> exists k, In (HubModel.EMark f k) (HubModel.hist (sh (ws w))).
Proof.
  intros Nl Nr Cf. destruct (all_coming _ _ _ _ _ _ R Nl H j f Nr Cf) as [K|ns K Kf|t ns K Kf|t host n ns K Kf|t host n ns K X|n K X|K X|ns K Kf X|(m & sl & A & B & C)].
  - destruct (all_announced _ _ K).
  - rewrite no_hwire in K. destruct K.
  - rewrite hub_idle in K. discriminate.
  - rewrite hub_idle in K. discriminate.
  - rewrite hub_idle in K. discriminate.
  - rewrite no_wire in K. destruct K.
  - rewrite all_idle in K. destruct K.
  - rewrite no_hwire in K. destruct K.
  - destruct (hub_runs _ _ _ _ _ _ _ _ (run_ok _ _ _ _ _ _ R)) as [lh Lh].
    destruct (HubProof4.ready_marks _ _ _ _ _ _ _ _ Lh A B C (hub_idle j)) as (k & _ & K). eauto.
Qed.
Lemma lift_polls t : forall n w0 h, exec (HubModel.hstep black raddr) (sh (ws w0)) (repeat (HubModel.QStep t) n) = Some h ->
  exists w', exec wstep w0 (repeat (WHub (HubModel.QStep t)) n) = Some w' /\ sh (ws w') = h.
Proof.
  induction n as [|n IH]; intros w0 h E; [injection E as <-; exists w0; auto|]. cbn [repeat exec] in *.
  destruct (HubModel.hstep black raddr (sh (ws w0)) (HubModel.QStep t)) as [h1|] eqn:Eh; [|discriminate]. cbn [WorldModel.wstep sstep]. unfold hub_step. rewrite Eh. cbn [on option_map].
  apply IH. cbn [ws with_sys]. destruct (hub_posts_rest hub_end hostport (new_events (HubModel.hist (sh (ws w0))) (HubModel.hist h1)) (set_hub h1 (ws w0))) as (_ & X & _).
  rewrite X. exact E.
Qed.
Lemma not_sought i c q : nothing_lost ls -> (exists k, In (HubModel.EMark (q_slot q) k) (HubModel.hist (sh (ws w)))) -> ~ pending (sd (ws w) i) c q.
Proof.
  intros Nl [km Mk] P. destruct (all_sought _ _ _ _ _ _ R Nl H i c q P) as [[K|t K|a K _|p a K _|p j r _ _ K]|[p K]].
  - rewrite no_hwire in K. destruct K.
  - destruct (hub_runs _ _ _ _ _ _ _ _ (run_ok _ _ _ _ _ _ R)) as [lh Lh]. destruct (HubProof3.qinv_exec _ _ _ _ Lh) as (_ & _ & Q).
    assert (X := HubProof3.q_pc _ _ Q t).
    assert (Y : nth_error (HubModel.hist (sh (ws w))) t = Some (HubModel.ERecv i (HubModel.PQuery (q_slot q))) /\ HubModel.queries (sh (ws w)) t <> HubModel.QDone).
    { destruct K as [K|[k K]]; rewrite K in *; split; try discriminate; tauto. }
    destruct Y as [Y Y']. destruct (HubProof3.can_finish _ _ _ _ _ _ _ _ Lh (h_hub _ H) Y Mk) as (n & h & E & N).
    destruct (lift_polls t n w h E) as (w' & E' & <-). destruct S as [_ S2]. apply N. rewrite (S2 _ _ _ E'). apply (HubProof3.q_open _ _ Q _ Y').
  - rewrite no_wire in K. destruct K.
  - rewrite all_idle in K. discriminate.
  - destruct K as [K|[[ns K]|[[sl K]|(ns & K & _)]]].
    + destruct (all_announced _ _ K).
    + rewrite no_wire in K. destruct K.
    + rewrite all_idle in K. discriminate.
    + rewrite no_wire in K. destruct K.
  - rewrite all_idle in K. destruct K.
Qed.
Lemma settled_calls i c q : nothing_lost ls -> (forall i j l, carry i j l <> None) -> In (ENew c q) (hist (sd (ws w) i)) ->
  (exists k, In (HubModel.EMark (q_slot q) k) (HubModel.hist (sh (ws w)))) -> returns c (hist (sd (ws w) i)) <> [].
Proof.
  intros Nl Ct Nq Mk. destruct (docks_run _ _ _ _ _ _ _ _ (run_ok _ _ _ _ _ _ R) i) as [li Li].
  assert (A := h_alive _ H i). destruct (inv_inv _ _ _ Li) as ([I1 I2] & _ & _ & I4 & _ & [I6 _]). assert (Hq := I2 _ _ Nq).
  assert (exists r, nth_error (calls (sd (ws w) i)) c = Some r /\ c_orig r = q) as (r & Hr & Ho).
  { rewrite <- I1, nth_error_map in Hq. destruct (nth_error (calls (sd (ws w) i)) c) as [r|]; [|discriminate]. exists r. cbn in Hq. split; congruence. }
  assert (St := fun acc => dock_due i (CStep c acc) Logic.I). assert (St' := St). specialize (St true). unfold dstep in St. rewrite A, Hr in St. rewrite (I6 _ _ Hr).
  destruct (c_pc r) as [| | |x|x] eqn:Ep; try discriminate. destruct (c_buf r) eqn:Eb; [discriminate|]. exfalso. clear St.
  assert (Bs := fun b => dock_due i (BStep b) Logic.I).
  destruct (c_req r) as [q'|] eqn:Eq.
  - destruct (proj1 (committing_inv _ _ _ Li) _ _ Hr) as ([X|X] & _); [congruence|]. assert (q' = q) as -> by congruence.
    destruct (kept_inv _ _ _ Li (h_ids _ H i) c q Hq) as [Z|(b & cb & Hb & Hc)].
    + apply (not_sought i c q Nl Mk). exists r. repeat split; auto; congruence.
    + specialize (Bs b). unfold dstep in Bs. rewrite A, Hb in Bs. destruct (b_pc cb) eqn:Ec.
      * rewrite Hc, Hr, Eb in Bs. destruct (c_closed r); discriminate.
      * destruct (given_inv _ _ _ Li _ _ Hb) as (r' & X1 & X2); [congruence|]. rewrite Hc, Hr in X1. injection X1 as <-. destruct X2 as [X2|(x & [X2|X2])]; congruence.
      * destruct (given_inv _ _ _ Li _ _ Hb) as (r' & X1 & X2); [congruence|]. rewrite Hc, Hr in X1. injection X1 as <-. destruct X2 as [X2|(x & [X2|X2])]; congruence.
  - destruct (gone_inv _ _ _ Li A _ _ Hr Eq) as [X|(p & acc & X)]; [congruence|].
    destruct (in_split _ _ X) as (u & v & Ex). destruct (commit_spec _ _ _ _ _ _ _ _ Li Ex) as (q1 & v' & _ & -> & _ & sl & Rs & _).
    assert (acc = true) as ->. { destruct acc; auto. exfalso. apply (h_taken _ H i p (KRequest q1)). rewrite Ex. apply in_or_app. right. right. now left. }
    assert (Rs' : In (ERecv p (KRegister sl)) (hist (sd (ws w) i))) by (rewrite Ex; apply in_or_app; auto).
    assert (O := run_ok _ _ _ _ _ _ R). destruct (run_sys _ _ _ _ _ _ R) as (Wi & ls' & Rs1 & Ll). assert (W := wi_wired _ Wi).
    pose proof (came_from _ _ _ _ _ _ _ _ _ _ _ O Rs') as C. destruct (ends w i p) as [|j p'|h] eqn:El; [destruct C| |apply hub_packets in C as [[? C]|[? C]]; discriminate].
    assert (Rt : returns c (hist (sd (ws w) i)) <> []).
    { eapply committed_returns with (j := j) (p' := p') (p := p); [exact W|apply Rs1, extends_refl|auto|auto|auto|apply H|exact X|exact El|apply H|apply H|apply H|apply no_wire|apply no_wire| | | | |apply H];
        intros; apply dock_due; exact Logic.I. }
    rewrite (I6 _ _ Hr), Ep in Rt. congruence.
Qed.
End Settled.

Lemma dialled_stays ls w j : run ls w -> In (WDial j true) ls -> runner (sd (ws w) j) <> NDial.
Proof.
  revert ls w. apply (run_ind carried carry black raddr (fun ls w => In (WDial j true) ls -> runner (sd (ws w) j) <> NDial)); [intros []|].
  intros ls w l w' R Wi IH R' X I.
  assert (K : forall E s b l es s', dmove carry E s b l es s' -> runner (sd s j) <> NDial -> runner (sd s' j) <> NDial).
  { clear. intros E s b l es s' M N. destruct (Nat.eq_dec j b) as [->|Nb]; [|rewrite (dm_other _ _ _ _ _ _ _ M); auto].
    assert (T := dm_tr _ _ _ _ _ _ _ M). destruct T; proj; auto; discriminate. }
  apply in_app_or in I as [I|[->|[]]].
  - specialize (IH I). inversion X; subst; eauto.
    + rewrite (hm_docks _ _ _ _ _ _ H). auto.
    + rewrite H3. auto.
  - inversion X; subst.
    + destruct H6 as (_ & _ & [=]).
    + destruct H4 as [H4|[h H4]]; discriminate.
    + eapply K; eauto. assert (T := dm_tr _ _ _ _ _ _ _ H0). inversion T. cbn. discriminate.
    + contradiction.
Qed.

Theorem every_call ls w i c q j : run ls w -> nothing_lost ls -> (forall i j l, carry i j l <> None) -> healthy (ws w) -> settled carry black raddr w ->
  In (ENew c q) (hist (sd (ws w) i)) -> In (WDial j true) ls -> carries (carried j) (q_slot q) true ->
  exists x j' k, returns c (hist (sd (ws w) i)) = [x] /\ executed carried (ends w) carry (ws w) i q j' k x.
Proof.
  intros R Nl Ct H S Nq Dj Cf.
  assert (Rt : returns c (hist (sd (ws w) i)) <> []).
  { eapply settled_calls; eauto. eapply marked_all; eauto. eapply dialled_stays; eauto. }
  destruct (docks_run _ _ _ _ _ _ _ _ (run_ok _ _ _ _ _ _ R) i) as [li Li].
  destruct (run_sys _ _ _ _ _ _ R) as (Wi & ls' & Rs1 & _). assert (W := wi_wired _ Wi).
  destruct (inv_inv _ _ _ Li) as ([I1 I2] & _ & _ & I4 & _ & [I6 _]). assert (Hq := I2 _ _ Nq).
  assert (exists r, nth_error (calls (sd (ws w) i)) c = Some r /\ c_orig r = q) as (r & Hr & Ho).
  { rewrite <- I1, nth_error_map in Hq. destruct (nth_error (calls (sd (ws w) i)) c) as [r|]; [|discriminate]. exists r. cbn in Hq. split; congruence. }
  rewrite (I6 _ _ Hr) in *. destruct (c_pc r) as [| | |x|x] eqn:Ep; try congruence.
  assert (Ret : In (EReturn c x) (hist (sd (ws w) i))).
  { assert (X := I6 _ _ Hr). unfold retok in X. rewrite Ep in X. assert (Y : In x (returns c (hist (sd (ws w) i)))) by (rewrite X; now left).
    unfold returns in Y. apply in_flat_map in Y as (e & Ie & Y). destruct e; try destruct Y. destruct (Nat.eqb_spec c0 c) as [->|]; [|destruct Y]. destruct Y as [->|[]]. exact Ie. }
  destruct (remote_call_spec _ _ _ _ _ _ _ W _ _ _ _ _ (Rs1 _ (extends_refl _)) (h_ids _ H i) Ret) as (q1 & j' & k & N1 & E1 & _).
  assert (q1 = q) as -> by (apply I2 in N1; congruence). exists x, j', k. split; auto.
Qed.
End P.
