(* Endless runs: receive routines of docks become idle, connections are accepted and packets are received. *)
From Verif Require Import Lts GoVal Tables DockModel DockSpec DockProof DockProof2 DockProof3 DockProof4 DockProof9 SysModel SysSpec SysProof SysProof2 SysProof3 WorldModel WorldSpec WorldProof WorldProof2 WorldProof3 WorldProof4 WorldProof5 LiveSpec LiveProof.
From Verif Require HubModel HubSpec HubProof HubProof2 HubProof3 HubProof4.
From Coq Require Import Arith Bool List ZArith Lia.
Import ListNotations.
Open Scope nat_scope.

Section Backlog.
Context {V : Type}.
Variables (carry : nat -> nat -> list V -> option (list V)) (black : list Z) (raddr : nat -> name).
Lemma wstep_backlog w wl w' : wstep carry black raddr w wl = Some w' ->
  match wl with
  | WAccept j q => backlog w' = updp (backlog w) j (filter (fun x => negb (x =? q)) (backlog w j)) /\ ends w' = ends w
  | WConnect i _ j _ => backlog w' = backlog (join i j w) /\ ends w' = ends (join i j w)
  | _ => backlog w' = backlog w /\ ends w' = ends w
  end.
Proof.
  intros H. assert (On : forall w1 (o : option (sys V)), on w1 o = Some w' -> backlog w' = backlog w1 /\ ends w' = ends w1).
  { intros w1 [s'|]; [|discriminate]. intros [= <-]. auto. }
  unfold wstep in H. destruct wl; cbv beta iota; try (apply (On _ _ H); fail).
  - destruct l; try discriminate; apply (On w _ H).
  - destruct (existsb _ _); [discriminate|]. apply (On w _ H).
  - destruct (handlers _ p); try discriminate. destruct (ok && _); [discriminate|]. apply On in H. destruct ok; exact H.
  - destruct (handlers _ p); try discriminate. destruct (_ && _); [|discriminate]. apply On in H. exact H.
  - destruct (handlers _ p); try discriminate. apply On in H. exact H.
  - destruct (existsb _ _); [|discriminate]. apply On in H. exact H.
Qed.
Lemma announcers_step (d : dock V) l d' p b : tr V d l d' -> In (p, b) (announcers d) -> exists b', In (p, b') (announcers d').
Proof.
  intros T H. destruct T; proj; eauto.
  - exists b. apply in_or_app. auto.
  - apply In_nth_error in H as [m Hm]. destruct (Nat.eq_dec m j) as [->|N].
    + exists true. assert (p = p0) as -> by congruence. eapply nth_error_In. apply set_nth_same. eapply nth_lt; eauto.
    + exists b. eapply nth_error_In. rewrite set_nth_other; eauto.
Qed.
Lemma connected_tr (d : dock V) p d' : tr V d (LConnected p) d' -> In (p, false) (announcers d').
Proof. intros T. inversion T. cbn. apply in_or_app. right. now left. Qed.
End Backlog.

Section Live.
Context {V : Type}.
Variables (carried : nat -> list (name * bool)).
Variable carry : nat -> nat -> list V -> option (list V).
Variables (black : list Z) (raddr : nat -> name).
Variables (r : nat -> world V) (lab : nat -> option (wlab V)).
Hypothesis Run : endless carried carry black raddr r lab.
Hypothesis Fair : fair carry black raddr r lab.
Hypothesis Calm : undisturbed r lab.
Hypothesis Range : ranges_end r.
Notation wstep := (wstep carry black raddr).
Notation dk n i := (sd (ws (r n)) i).
Notation hb n := (sh (ws (r n))).
Notation hl n := (HubModel.hist (sh (ws (r n)))).
Notation taken T n := (exists l, lab n = Some l /\ of_task T l).
Notation dnext := (dnext carry r lab).
Let Hh := Hh r lab Calm.
Let alive := alive r lab Calm.
Let Wi := Wi carried carry black raddr r lab Run Calm.
Let Ok := Ok carried carry black raddr r lab Run Calm.
Let drun := drun carried carry black raddr r lab Run Calm.
Let hrun := hrun carried carry black raddr r lab Run Calm.
Let seen := seen carried carry black raddr r lab Run Calm.
Let lead := lead carry black raddr r lab Fair.
Let dock_next := dock_next carried carry black raddr r lab Run Calm.
Let hub_next := hub_next carried carry black raddr r lab Run Calm.
Let rest_next := rest_next carried carry black raddr r lab Run Calm.
Let ends_stay := ends_stay carried carry black raddr r lab Run Calm.
Let listeners_stay := listeners_stay carried carry black raddr r lab Run Calm.
Let hist_stay := hist_stay carried carry black raddr r lab Run Calm.
Let event_stays := event_stays carried carry black raddr r lab Run Calm.
Let hhist_stay := hhist_stay carried carry black raddr r lab Run Calm.
Let hevent_stays := hevent_stays carried carry black raddr r lab Run Calm.
Let wire_next := wire_next carried carry black raddr r lab Run Calm.
Let hwire_next := hwire_next carried carry black raddr r lab Run Calm.

(* receive routines *)
Lemma shown_own (wl : wlab V) i p : of_task (THandler i p) wl -> exists l, shown wl i l /\ own p l.
Proof.
  intros H. cbn in H. destruct wl; try contradiction.
  - destruct l; try contradiction; destruct H as [-> ->]; match goal with |- exists l, shown (WDock _ ?x) _ _ /\ _ => exists x end; split; reflexivity.
  - destruct H as [-> ->]. exists (HNet p ok). split; [destruct ok; left; reflexivity|reflexivity].
  - destruct H as [-> ->]. exists (HNet p true). split; [right; eauto|reflexivity].
  - destruct H as [-> ->]. exists (HNet p false). split; [right; reflexivity|reflexivity].
Qed.
Lemma own_only (wl : wlab V) i p l : of_task (THandler i p) wl -> shown wl i l -> own p l.
Proof.
  intros H Sh. cbn in H. destruct l; cbn in Sh; try destruct ok; repeat destruct Sh as [Sh|Sh]; try (destruct Sh as (j' & m & Sh)); subst wl; cbn in *; try contradiction; tauto.
Qed.
Lemma handler_next n i p : handlers (dk n i) p <> HIdle ->
  (handlers (dk (S n) i) p = handlers (dk n i) p /\ ~ taken (THandler i p) n) \/
  mu (handlers (dk (S n) i) p) < mu (handlers (dk n i) p) \/
  (ranging (handlers (dk n i) p) /\ ranging (handlers (dk (S n) i) p) /\ mu (handlers (dk (S n) i) p) = mu (handlers (dk n i) p)).
Proof.
  intros N. destruct (dock_next n i) as [[E Ns]|(l & es & d1 & x & D)].
  - left. rewrite E. split; auto. intros (wl & El & Ho). destruct (shown_own _ _ _ Ho) as (l & Sh & _). exact (Ns _ _ El Sh).
  - rewrite (dn_new _ _ _ _ _ _ _ _ _ D). cbn [handlers with_announcers].
    destruct (handler_step _ _ _ p (dn_tr _ _ _ _ _ _ _ _ _ D) (dn_alive _ _ _ _ _ _ _ _ _ D) N) as [[E Ow]|[Ow X]]; [left|right; exact X].
    split; auto. intros (wl & El & Ho). destruct (dn_lab _ _ _ _ _ _ _ _ _ D) as (wl' & El' & Sh). rewrite El in El'. injection El' as <-. apply Ow. eapply own_only; eauto.
Qed.
Lemma dock_enabled n i l d' : dstep (dk n i) l = Some d' -> match l with LConnected _ | LDial _ | LRecv _ _ | HNet _ _ => False | _ => True end -> wstep (r n) (WDock i l) <> None.
Proof.
  intros E N. unfold WorldModel.wstep. destruct l; try contradiction; cbn; unfold dock_step; rewrite E; discriminate.
Qed.
Lemma handler_enabled n i p : handlers (dk n i) p <> HIdle -> ~ resting carry black raddr (THandler i p) (r n).
Proof.
  intros N R. assert (A := alive n i).
  assert (G : forall l, of_task (THandler i p) (WDock i l) -> match l with LConnected _ | LDial _ | LRecv _ _ | HNet _ _ => False | _ => True end -> dstep (dk n i) l = None).
  { intros l Ho Nl. destruct (dstep (dk n i) l) as [d|] eqn:E; auto. exfalso. apply (dock_enabled _ _ _ _ E Nl), R, Ho. }
  assert (Go := G (HGo p) (conj eq_refl eq_refl) Logic.I). unfold dstep in Go. rewrite A in Go.
  destruct (handlers (dk n i) p) as [|sl|f sl todo|f sl todo c|f sl todo c|sl|sl|m|m| | |a|a] eqn:E; try discriminate Go; try congruence.
  - destruct sl; discriminate.
  - destruct todo as [|k todo]; [discriminate|]. assert (P := G (HPick p k) (conj eq_refl eq_refl) Logic.I). unfold dstep in P. rewrite A, E in P.
    destruct (zget (rpcs (dk n i)) k); [discriminate|]. cbn in P. rewrite Z.eqb_refl in P. discriminate.
  - assert (P := G (HCommit p true) (conj eq_refl eq_refl) Logic.I). unfold dstep in P. rewrite A, E in P. discriminate.
  - assert (P := G (HSend p (collected (dk n i)) true) (conj eq_refl eq_refl) Logic.I). unfold dstep in P. rewrite A, reorders_refl, E in P. discriminate.
  - destruct sl; discriminate.
  - specialize (R (WListen i p false) (conj eq_refl eq_refl)). cbn in R. rewrite E in R. cbn in R. unfold dock_step, dstep in R. rewrite A, E in R. discriminate.
  - assert (P := G (HSend p (collected (dk n i)) true) (conj eq_refl eq_refl) Logic.I). unfold dstep in P. rewrite A, reorders_refl, E in P. discriminate.
  - specialize (R (WFail i p) (conj eq_refl eq_refl)). cbn in R. rewrite E in R. cbn in R. unfold dock_step, dstep in R. rewrite A, E in R. discriminate.
Qed.
(* something else than h, a state in which the routine is at work *)
Lemma handler_goes n i p : handlers (dk n i) p <> HIdle -> exists m, n <= m /\ mu (handlers (dk m i) p) < mu (handlers (dk n i) p).
Proof.
  intros N. set (h0 := handlers (dk n i) p) in *.
  assert (Dr : ranging h0 \/ ~ ranging h0) by (unfold ranging; destruct h0; auto).
  destruct Dr as [Rg|Rg].
  - apply (until (fun k => ranging (handlers (dk k i) p) /\ mu (handlers (dk k i) p) = mu h0) (fun k => mu (handlers (dk k i) p) < mu h0) n); auto.
    + intros k L [Rk Mk]. assert (Nk : handlers (dk k i) p <> HIdle) by (intros E; rewrite E in Rk; destruct Rk).
      destruct (handler_next k i p Nk) as [[E _]|[X|(_ & R' & M')]]; [left; rewrite E; auto|right; lia|left; split; auto; lia].
    + destruct (Range i p n) as (m & L & Nr). exists m. split; auto. intros [X _]. contradiction.
  - apply (lead (THandler i p) (fun k => handlers (dk k i) p = h0) (fun k => mu (handlers (dk k i) p) < mu h0) n); auto.
    + intros k L Ek. destruct (handler_next k i p) as [[E Nt]|[X|(Rk & _)]]; rewrite Ek in *; auto. contradiction.
    + intros k L Ek. apply handler_enabled. rewrite Ek. exact N.
Qed.
Lemma handler_idles n i p : exists m, n <= m /\ handlers (dk m i) p = HIdle.
Proof.
  remember (mu (handlers (dk n i) p)) as v eqn:Ev. revert n Ev. induction v as [v IH] using lt_wf_ind. intros n Ev.
  destruct v; [exists n; split; auto; apply mu_idle; auto|].
  destruct (handler_goes n i p) as (m & L & M); [intros E; rewrite E in Ev; discriminate|].
  destruct (IH _ ltac:(rewrite Ev; exact M) m eq_refl) as (k & Lk & K). exists k. split; [lia|auto].
Qed.

(* connections *)
Lemma backlog_next n j q : In q (backlog (r n) j) -> In q (backlog (r (S n)) j) \/ exists es d1 x, dnext n j (LConnected q) es d1 x.
Proof.
  intros I. destruct (seen n) as [[El E]|(wl & El & St & X)]; [left; now rewrite E|].
  assert (B := wstep_backlog _ _ _ _ _ _ St). destruct wl; try (destruct B as [-> _]; auto; fail).
  - destruct B as [-> _]. left. cbn. unfold updp. destruct (Nat.eqb_spec j j0) as [->|]; auto. apply in_or_app. auto.
  - destruct B as [B _]. rewrite B. unfold updp. destruct (Nat.eqb_spec j j0) as [->|]; auto.
    destruct (Nat.eq_dec q q0) as [->|N].
    + right. destruct (dock_next n j0) as [[_ Ns]|(l & es & d1 & x & D)]; [destruct (Ns _ (LConnected q0) El eq_refl)|].
      destruct (dn_lab _ _ _ _ _ _ _ _ _ D) as (wl & El' & Sh). rewrite El in El'. injection El' as <-.
      destruct l; cbn in Sh; try destruct ok; repeat destruct Sh as [Sh|Sh]; try discriminate; try (destruct Sh as (? & ? & Sh); discriminate). injection Sh as <-. eauto.
    + left. apply filter_In. split; auto. destruct (Nat.eqb_spec q q0); auto; congruence.
Qed.
Lemma backlog_new n j q : In q (backlog (r (S n)) j) -> In q (backlog (r n) j) \/ ends (r n) j q = Nowhere.
Proof.
  intros I. destruct (seen n) as [[El E]|(wl & El & St & X)]; [left; now rewrite <- E|].
  assert (B := wstep_backlog _ _ _ _ _ _ St). destruct wl; try (destruct B as [B _]; rewrite B in I; auto; fail).
  - destruct B as [B _]. rewrite B in I. cbn in I. unfold updp in I. destruct (Nat.eqb_spec j j0) as [->|]; auto. apply in_app_or in I as [I|[<-|[]]]; auto.
    right. destruct (ends (r n) j0 _) eqn:E; auto; exfalso.
    + assert (F := wi_fresh _ (Wi n) j0 _ ltac:(rewrite E; discriminate)). revert F; destruct (Nat.eqb_spec j0 i) as [->|]; lia.
    + assert (F := wi_fresh _ (Wi n) j0 _ ltac:(rewrite E; discriminate)). revert F; destruct (Nat.eqb_spec j0 i) as [->|]; lia.
  - destruct B as [B _]. rewrite B in I. unfold updp in I. destruct (Nat.eqb_spec j j0) as [->|]; auto. apply filter_In in I as [I _]. auto.
Qed.
Lemma accept_enabled n j q : In q (backlog (r n) j) -> ~ resting carry black raddr (TAccept j q) (r n).
Proof.
  intros I R. specialize (R (WAccept j q) eq_refl). cbn in R.
  assert (X : existsb (Nat.eqb q) (backlog (r n) j) = true) by (apply existsb_exists; exists q; split; auto; apply Nat.eqb_refl). rewrite X in R.
  unfold dock_step, dstep in R. rewrite (alive n j) in R. discriminate.
Qed.
Lemma backlog_ends n j q : In q (backlog (r n) j) \/ ~ In q (backlog (r n) j).
Proof. destruct (in_dec Nat.eq_dec q (backlog (r n) j)); auto. Qed.
Lemma accept_taken n j q : In q (backlog (r n) j) -> taken (TAccept j q) n -> ~ In q (backlog (r (S n)) j).
Proof.
  intros I (wl & El & ->). destruct (seen n) as [[El' _]|(wl & El' & St & _)]; [congruence|]. rewrite El in El'. injection El' as <-.
  destruct (wstep_backlog _ _ _ _ _ _ St) as [-> _]. rewrite updp_same. intros K. apply filter_In in K as [_ K]. rewrite Nat.eqb_refl in K. discriminate.
Qed.
Lemma accepted_by n j q : exists m, n <= m /\ ~ In q (backlog (r m) j).
Proof.
  destruct (backlog_ends n j q) as [I|I]; [|exists n; auto].
  apply (lead (TAccept j q) (fun k => In q (backlog (r k) j)) (fun k => ~ In q (backlog (r k) j)) n); auto.
  - intros k L K. destruct (backlog_ends (S k) j q) as [K'|K']; auto. right. split; auto. intros T. exact (accept_taken _ _ _ K T K').
  - intros k L K. now apply accept_enabled.
Qed.
Lemma accepted_stays n m j q : n <= m -> ends (r n) j q <> Nowhere -> ~ In q (backlog (r n) j) -> ~ In q (backlog (r m) j).
Proof.
  intros L N B. induction L as [|m L IH]; auto. intros I. destruct (backlog_new _ _ _ I) as [X|X]; auto. apply N. rewrite <- X. symmetry. apply ends_stay; auto.
Qed.
Lemma announcers_next n j q b : In (q, b) (announcers (dk n j)) -> exists b', In (q, b') (announcers (dk (S n) j)).
Proof.
  intros I. destruct (dock_next n j) as [[-> _]|(l & es & d1 & x & D)]; eauto. rewrite (dn_new _ _ _ _ _ _ _ _ _ D). cbn.
  destruct (announcers_step _ _ _ _ _ (dn_tr _ _ _ _ _ _ _ _ _ D) I) as (b' & Hb). exists b'. apply in_or_app. auto.
Qed.
(* a connection is accepted and then announced *)
Lemma greeted n : forall j q i p, ends (r n) j q = ToDock i p -> In q (backlog (r n) j) \/ exists b, In (q, b) (announcers (dk n j)).
Proof.
  induction n as [|n IH]; intros j q i p E.
  - rewrite (e_start _ _ _ _ _ _ Run) in E. cbn in E. destruct q; discriminate.
  - destruct (ends (r n) j q) as [|i0 p0|h0] eqn:E0.
    + destruct (seen n) as [[El X]|(wl & El & St & X)]; [rewrite X in E; congruence|].
      inversion X as [i1 l0 es w1 M E1 E2 E3 E4 Nn wl' Hwl|i1 p1 k es w1 M E1 E2 E3 E4|i1 p1 m es w1 M E1 E2 E3 Hh0 Pf E4|i1 p1 es w1 M E1 E2 E3 E4 E5|l0 es w1 M E1 E2 E3 E4 wl' Hwl
        |i1 es1 es2 s1 w1 M1 M2 E1 E2 E3 E4|i1 p1 j1 m a es1 es2 s1 s2 M1 M2 Hh0 Ha Hl|w1 E1 E2 E3 E4 E5 E6 wl' Hwl]; subst; try (rewrite E1 in E; congruence).
      match goal with Y : with_sys s2 _ = _ |- _ => rename Y into Hw end. rewrite <- Hw in E.
      cbn in E. unfold updp in E. destruct (Nat.eqb_spec j j1) as [->|Nj].
      * cbn. rewrite updp_same. unfold updp. destruct (Nat.eqb_spec q (if j1 =? i1 then S (peers (r n) i1) else peers (r n) j1)) as [->|Nq]; [left; apply in_or_app; right; now left|].
        destruct (Nat.eqb_spec j1 i1) as [->|]; [|congruence]. destruct (Nat.eqb_spec q (peers (r n) i1)) as [->|]; [|congruence].
        right. exists false. assert (T := dm_tr _ _ _ _ _ _ _ M2). apply (connected_tr _ _ _ T).
      * destruct (Nat.eqb_spec j i1) as [->|]; [|congruence]. destruct (Nat.eqb_spec q (peers (r n) i1)) as [->|]; [|congruence].
        right. exists false. assert (T := dm_tr _ _ _ _ _ _ _ M2). apply (connected_tr _ _ _ T).
    + destruct (IH _ _ _ _ E0) as [I|[b I]].
      * destruct (backlog_next _ _ _ I) as [I'|(es & d1 & x & D)]; auto. right. rewrite (dn_new _ _ _ _ _ _ _ _ _ D). cbn.
        exists false. apply in_or_app. left. assert (T := dn_tr _ _ _ _ _ _ _ _ _ D). apply (connected_tr _ _ _ T).
      * right. eapply announcers_next; eauto.
    + rewrite (proj1 (rest_next n)) in E by congruence. congruence.
Qed.

(* packets *)
Lemma idle_next n i p : handlers (dk n i) p = HIdle -> handlers (dk (S n) i) p = HIdle \/ lab n = Some (WDeliver i p).
Proof.
  intros H. destruct (dock_next n i) as [[-> _]|(l & es & d1 & x & D)]; auto. rewrite (dn_new _ _ _ _ _ _ _ _ _ D). cbn [handlers with_announcers].
  destruct (dn_lab _ _ _ _ _ _ _ _ _ D) as (wl & El & Sh). rewrite El. assert (T := dn_tr _ _ _ _ _ _ _ _ _ D). clear D.
  destruct T; proj; auto; cbn in Sh; (destruct (Nat.eq_dec p p0) as [->|N]; [|left; rewrite ?updp_other by auto; auto; fail]); try congruence; auto; right; congruence.
Qed.
Lemma delivered n i p : wire (ws (r n)) i p <> [] -> exists m, n <= m /\ lab m = Some (WDeliver i p).
Proof.
  intros Ne.
  assert (Stay : forall k m, n <= k -> k <= m -> wire (ws (r k)) i p <> [] -> wire (ws (r m)) i p <> [] \/ exists m, n <= m /\ lab m = Some (WDeliver i p)).
  { intros k m L L' Nk. induction L' as [|m L' IH]; auto. destruct IH as [IH|IH]; auto. destruct (wire_next m i p) as [[_ (more & E)]|(k0 & rest & more & es & d1 & x & El & _)].
    - left. rewrite E. intros X. apply app_eq_nil in X as [X _]. auto.
    - right. exists m. split; [lia|auto]. }
  assert (Nw : ends (r n) i p <> Nowhere).
  { apply (proj2 (wi_open _ (Wi n))). exact Ne. }
  destruct (accepted_by n i p) as (m1 & L1 & B1). destruct (handler_idles m1 i p) as (m2 & L2 & I2).
  destruct (Stay n m2 ltac:(lia) ltac:(lia) Ne) as [N2|X]; auto.
  assert (B2 : forall m, m2 <= m -> ~ In p (backlog (r m) i)).
  { intros m L. apply (accepted_stays m1); auto; [lia|]. rewrite (ends_stay n m1); auto. }
  destruct (lead (TDeliver i p) (fun k => wire (ws (r k)) i p <> [] /\ handlers (dk k i) p = HIdle) (fun k => exists m, n <= m /\ lab m = Some (WDeliver i p)) m2) as (_ & _ & X); auto.
  - intros k L [Wk Ik]. destruct (wire_next k i p) as [[Nl (more & E)]|(k0 & rest & more & es & d1 & x & El & _)]; [|left; exists k; split; [lia|auto]].
    right. split; [split|].
    + rewrite E. intros X. apply app_eq_nil in X as [X _]. auto.
    + destruct (idle_next _ _ _ Ik); [auto|contradiction].
    + intros (wl & El & ->). contradiction.
  - intros k L [Wk Ik] R. specialize (R _ eq_refl). unfold WorldModel.wstep in R.
    destruct (existsb (Nat.eqb p) (backlog (r k) i)) eqn:X; [apply existsb_exists in X as (y & Y & Z); apply Nat.eqb_eq in Z; subst; eapply B2; eauto|].
    destruct (wire (ws (r k)) i p) as [|pk q] eqn:E; [congruence|].
    destruct (deliverable (ends (r k)) hub_end carry black raddr hostport (ws (r k)) i p pk q E (alive k i) Ik) as (s' & E' & _). rewrite E' in R. discriminate.
Qed.
Lemma received n i p k : In k (wire (ws (r n)) i p) -> exists m es d1 x, n <= m /\ dnext m i (LRecv p k) es d1 x.
Proof.
  intros I. apply In_nth_error in I as [y Hy]. revert n Hy. induction y as [y IH] using lt_wf_ind. intros n Hy.
  destruct (delivered n i p) as (m & L & El); [intros E; rewrite E in Hy; destruct y; discriminate|].
  remember (m - n) as v eqn:Ev. revert n Hy L Ev. induction v as [|v IHv]; intros n Hy L Ev.
  - assert (n = m) as -> by lia. destruct (wire_next m i p) as [[Nl _]|(k0 & rest & more & es & d1 & x & _ & D & E & E')]; [contradiction|].
    rewrite E in Hy. destruct y as [|y]; cbn in Hy; [injection Hy as ->; eauto 6|].
    destruct (IH y ltac:(lia) (S m)) as (m' & es' & d1' & x' & L' & D'); [rewrite E'; apply nth_app; auto|]. exists m', es', d1', x'. split; [lia|auto].
  - destruct (wire_next n i p) as [[Nl (more & E)]|(k0 & rest & more & es & d1 & x & _ & D & E & E')].
    + destruct (IHv (S n)) as (m' & es' & d1' & x' & L' & D'); [rewrite E; apply nth_app; auto|lia|lia|]. exists m', es', d1', x'. split; [lia|auto].
    + rewrite E in Hy. destruct y as [|y]; cbn in Hy; [injection Hy as ->; eauto 6|].
      destruct (IH y ltac:(lia) (S n)) as (m' & es' & d1' & x' & L' & D'); [rewrite E'; apply nth_app; auto|]. exists m', es', d1', x'. split; [lia|auto].
Qed.
End Live.
