(* Endless runs: calls return. *)
From Verif Require Import Lts GoVal Tables DockModel DockSpec DockProof DockProof2 DockProof3 DockProof4 DockProof7 DockProof8 DockProof9 DockProof10.
From Verif Require Import SysModel SysSpec SysProof SysProof2 SysProof3 SysProof4 WorldModel WorldSpec WorldProof WorldProof2 WorldProof3 WorldProof4 WorldProof5 WorldProof6.
From Verif Require Import LiveSpec LiveProof LiveProof2 LiveProof3 LiveProof4.
From Verif Require HubModel HubSpec.
From Coq Require Import Arith Bool List ZArith Lia.
Import ListNotations.
Open Scope nat_scope.

Section Dock.
Context {V : Type}.
Implicit Types d : dock V.
Ltac evs G := rewrite <- ?app_assoc in G; first [apply app_inv_head in G; subst|match type of G with ?h = ?h ++ _ => rewrite <- (app_nil_r h) in G at 1; apply app_inv_head in G; subst end].
Lemma answered_cb carried ls d a p rs b c q : exec dstep (new_dock carried) ls = Some d -> NoDup (map q_index (requests (hist d))) ->
  hist d = a ++ ERecv p (KResponse rs) :: b -> In (ENew c q) a -> p_index rs = q_index q -> cb_of c d.
Proof.
  intros E N H Hn Hi. destruct (behind _ _ _ _ _ _ E H) as (ls1 & l & ls2 & d1 & d2 & es1 & es2 & _ & E1 & T & E2 & F & G).
  assert (N1 : NoDup (map q_index (requests (hist d1)))).
  { rewrite H, F in N. rewrite !requests_app, !map_app, <- app_assoc in N. apply NoDup_app_l in N. exact N. }
  pose proof (kept_inv _ _ _ E1 N1) as K. pose proof (inv_inv _ _ _ E1) as J.
  assert (C : cb_of c d2).
  { event T G; rewrite ?app_nil_r in *; specialize (K c q ltac:(destruct J as ((_ & J) & _); apply J, Hn)).
    - destruct K as [K|(j & cb & X & Y)]; [|exists j, cb; proj; split; [apply nth_app, X|exact Y]].
      rewrite Hi, K in H1. injection H1 as <-. exists (length (callbacks d1)). eexists. proj. rewrite nth_error_app2, Nat.sub_diag by lia. split; reflexivity.
    - destruct K as [K|(j & cb & X & Y)]; [|exists j, cb; proj; auto]. rewrite Hi in H1. congruence. }
  revert C E2; apply reach_from; intros s l0 s' I _ T'; eapply cb_of_step; eauto.
Qed.
Lemma cstep_dec c (l : label V) : (exists acc, l = CStep c acc) \/ forall acc, l <> CStep c acc.
Proof. destruct l; try (right; discriminate). destruct (Nat.eq_dec c0 c) as [->|]; [left; eauto|right; congruence]. Qed.
Lemma call_tr d l d' c r : tr V d l d' -> (forall acc, l <> CStep c acc) -> nth_error (calls d) c = Some r ->
  exists r', nth_error (calls d') c = Some r' /\ c_pc r' = c_pc r /\ (c_buf r' = c_buf r \/ c_buf r' <> None).
Proof.
  intros T N H.
  assert (S : forall c' r0 x, nth_error (calls d) c' = Some r0 -> (c' = c -> r0 = r -> c_pc x = c_pc r /\ (c_buf x = c_buf r \/ c_buf x <> None)) ->
    exists r', nth_error (set_nth (calls d) c' x) c = Some r' /\ c_pc r' = c_pc r /\ (c_buf r' = c_buf r \/ c_buf r' <> None)).
  { intros c' r0 x E X. destruct (Nat.eq_dec c' c) as [->|Nc]; [exists x; rewrite set_nth_same by (eapply nth_lt; eauto); split; auto; apply X; congruence|exists r; rewrite set_nth_other by auto; auto]. }
  destruct T; proj; try (exists r; auto; fail); try (exists r; split; [apply nth_app, H|auto]);
    (eapply S; [eassumption|]; intros Ec Er; subst; cbn; try (split; [congruence|auto; right; discriminate]); try (exfalso; eapply N; reflexivity)).
Qed.
Lemma own_call d acc d' c r : tr V d (CStep c acc) d' -> state d' = Alive -> nth_error (calls d) c = Some r ->
  exists r', nth_error (calls d') c = Some r' /\
    match c_pc r with CPut => c_pc r' = CSet | CSet => c_pc r' = CWait | CWait => exists x, c_pc r' = CGot x | CGot x => In (EReturn c x) (hist d') | CDone _ => False end.
Proof.
  intros T A H. inversion T; subst; proj; try discriminate; match goal with X : nth_error (calls d) c = Some ?y |- _ => assert (y = r) as -> by congruence end;
    (eexists; split; [apply set_nth_same; eapply nth_lt; eauto|]); match goal with X : c_pc r = _ |- _ => rewrite X end; cbn; eauto. apply in_or_app. right. now left.
Qed.
Lemma callback_tr d l d' b cb : tr V d l d' -> state d' = Alive -> nth_error (callbacks d) b = Some cb -> b_pc cb = BPut ->
  (l <> BStep b /\ nth_error (callbacks d') b = Some cb) \/
  (exists r r', nth_error (calls d) (b_call cb) = Some r /\ nth_error (calls d') (b_call cb) = Some r' /\ c_pc r' = c_pc r /\ c_buf r' <> None).
Proof.
  intros T A H P. destruct T; proj; try discriminate; try (left; split; [discriminate|auto; apply nth_app, H]).
  - destruct (Nat.eq_dec b0 b) as [->|N]; [right|left; split; [congruence|rewrite set_nth_other; auto]].
    assert (cb0 = cb) as -> by congruence. eexists _, _. split; [eassumption|]. split; [apply set_nth_same; eapply nth_lt; eauto|]. cbn. split; [reflexivity|discriminate].
  - left. destruct (Nat.eq_dec b0 b) as [->|N]; [congruence|split; [congruence|rewrite set_nth_other; auto]].
Qed.
Lemma server_tr d l d' es k sv : tr V d l d' -> hist d' = hist d ++ es -> nth_error (servers d) k = Some sv ->
  (nth_error (servers d') k = Some sv /\ (forall res err, l <> SExec k res err) /\ forall acc, l <> SSend k acc) \/
  (s_pc sv = SRun /\ exists res err, nth_error (servers d') k = Some (mkServer (s_peer sv) (s_req sv) (SReply res err))) \/
  (exists acc, In (EReplied k acc) es).
Proof.
  intros T G H. destruct T; proj; try (left; split; [auto; apply nth_app, H|split; discriminate]).
  - destruct (Nat.eq_dec k0 k) as [->|N]; [right; left|left; split; [rewrite set_nth_other; auto|split; congruence]].
    assert (sv0 = sv) as -> by congruence. split; auto. exists res, err. apply set_nth_same. eapply nth_lt; eauto.
  - destruct (Nat.eq_dec k0 k) as [->|N]; [right; right|left; split; [rewrite set_nth_other; auto|split; congruence]].
    exists acc. evs G. now left.
Qed.
End Dock.

Section Sys.
Context {V : Type}.
Variables (carried : nat -> list (name * bool)) (link : nat -> nat -> wend) (hublink : nat -> option (nat * nat)).
Variable carry : nat -> nat -> list V -> option (list V).
Variables (black : list Z) (raddr : nat -> name) (hostport : name -> Z -> name).
Hypothesis W : wired link hublink.
Notation step := (sstep link hublink carry black raddr hostport).
Lemma response_cb ls (s : sys V) i c q p j p' rs : exec step (sinit carried) ls = Some s -> NoDup (map q_index (requests (hist (sd s i)))) ->
  In (ENew c q) (hist (sd s i)) -> link i p = ToDock j p' -> In (ERecv p (KResponse rs)) (hist (sd s i)) -> p_index rs = q_index q -> cb_of c (sd s i).
Proof.
  intros H N Nq Lk Hk2 Ei. assert (Lk' := Lk). apply W in Lk'. pose proof (reach_ok _ _ _ _ _ _ _ W _ _ H) as O. destruct (docks_run _ _ _ _ _ _ _ _ O i) as [li Li].
  destruct (in_split _ _ Hk2) as (x & y & Ex).
  destruct (SysProof4.received _ _ _ _ _ _ _ _ _ _ _ _ _ _ H Ex) as (ls1 & ls2 & s1' & rr & -> & E3 & Wr & es & ->).
  assert (O1 := reach_ok _ _ _ _ _ _ _ W _ _ E3).
  assert (Fl : In (KResponse rs) (flow s1' i p)) by (apply in_or_app; right; rewrite Wr; now left).
  pose proof (came_flow _ _ _ _ _ _ _ _ _ _ _ O1 Fl) as C. rewrite Lk in C. destruct C as (k0 & Hs3 & A4).
  assert (exists r0, k0 = KResponse r0 /\ p_index r0 = p_index rs) as (r0 & -> & Ir0) by (inversion A4; subst; eauto).
  destruct (docks_run _ _ _ _ _ _ _ _ O1 j) as [lj1 Lj1]. destruct (in_split _ _ Hs3) as (u1 & v1 & Ej1).
  destruct (response_event _ _ _ _ _ _ _ _ Lj1 Ej1) as (u2 & k3 & ->).
  assert (Ej2 : hist (sd s1' j) = u2 ++ EReplied k3 true :: ESend p' (KResponse r0) true :: v1) by (rewrite Ej1, <- app_assoc; reflexivity).
  destruct (reply_spec _ _ _ _ _ _ _ Lj1 Ej2) as (p3 & q3 & res3 & err3 & r3 & b3 & Acc4 & _ & Eb & Ans3). injection Eb as <- <- _.
  assert (Rq : In (ERecv p' (KRequest q3)) (hist (sd s1' j))).
  { rewrite Ej2. apply in_or_app. left. eapply accepted_recv, nth_error_In, Acc4. }
  destruct (request_source _ _ _ _ _ _ _ W _ _ _ _ O1 Rq) as (i4 & p4 & c4 & q4 & _ & E4 & N4 & _ & _ & A5 & _).
  rewrite Lk' in E4. injection E4 as <- <-. destruct Ans3 as (I3 & _).
  assert (I4 : q_index q4 = p_index rs). { inversion A5; subst; [|other]. cbn in *. congruence. }
  assert (N4' : In (ENew c4 q4) (hist (sd s i))) by (rewrite Ex; apply in_or_app; left; apply in_or_app; now left).
  destruct (call_unique _ _ _ _ _ _ _ Li N N4' Nq) as [-> ->]; [congruence|].
  eapply (answered_cb _ _ _ _ _ _ _ c _ Li N Ex); eauto. apply in_or_app; now left.
Qed.
End Sys.

Section Live.
Context {V : Type}.
Variables (carried : nat -> list (name * bool)).
Variable carry : nat -> nat -> list V -> option (list V).
Variables (black : list Z) (raddr : nat -> name).
Variables (r : nat -> world V) (lab : nat -> option (wlab V)).
Hypothesis Run : endless carried carry black raddr r lab.
Hypothesis Fair : fair carry black raddr r lab.
Hypothesis Calm : undisturbed r lab.
Hypothesis Range : ranges_end r.
Notation wstep := (wstep carry black raddr).
Notation dk n i := (sd (ws (r n)) i).
Notation hb n := (sh (ws (r n))).
Notation hl n := (HubModel.hist (sh (ws (r n)))).
Notation taken T n := (exists l, lab n = Some l /\ of_task T l).
Notation dnext := (dnext carry r lab).
Let Hh := Hh r lab Calm.
Let alive := alive r lab Calm.
Let Wi := Wi carried carry black raddr r lab Run Calm.
Let Ok := Ok carried carry black raddr r lab Run Calm.
Let drun := drun carried carry black raddr r lab Run Calm.
Let hrun := hrun carried carry black raddr r lab Run Calm.
Let seen := seen carried carry black raddr r lab Run Calm.
Let lead := lead carry black raddr r lab Fair.
Let dock_next := dock_next carried carry black raddr r lab Run Calm.
Let hub_next := hub_next carried carry black raddr r lab Run Calm.
Let rest_next := rest_next carried carry black raddr r lab Run Calm.
Let ends_stay := ends_stay carried carry black raddr r lab Run Calm.
Let listeners_stay := listeners_stay carried carry black raddr r lab Run Calm.
Let hist_stay := hist_stay carried carry black raddr r lab Run Calm.
Let event_stays := event_stays carried carry black raddr r lab Run Calm.
Let hhist_stay := hhist_stay carried carry black raddr r lab Run Calm.
Let hevent_stays := hevent_stays carried carry black raddr r lab Run Calm.
Let wire_next := wire_next carried carry black raddr r lab Run Calm.
Let hwire_next := hwire_next carried carry black raddr r lab Run Calm.
Let handler_next := handler_next carried carry black raddr r lab Run Calm.
Let handler_idles := handler_idles carried carry black raddr r lab Run Fair Calm Range.
Let handler_goes := handler_goes carried carry black raddr r lab Run Fair Calm Range.
Let accepted_by := accepted_by carried carry black raddr r lab Run Fair Calm.
Let greeted := greeted carried carry black raddr r lab Run Calm.
Let received := received carried carry black raddr r lab Run Fair Calm Range.
Let flow_is := flow_is carried carry black raddr r lab Run Calm.
Let reached := reached carried carry black raddr r lab Run Calm.
Let hreceived := hreceived carried carry black raddr r lab Run Fair Calm.
Let query_told := query_told carried carry black raddr r lab Run Fair Calm.
Let announced := announced carried carry black raddr r lab Run Fair Calm.
Let collected_all := collected_all carried carry black raddr r lab Run Calm.
Let arrives_later := arrives_later carried carry black raddr r lab Run Fair Calm Range.
Let pends_ends := pends_ends carried carry black raddr r lab Run Fair Calm Range.
Let marked_eventually := marked_eventually carried carry black raddr r lab Run Fair Calm Range.
Let dock_enabled := dock_enabled carry black raddr r.
Lemma dock_label n i l es d1 x : dnext n i l es d1 x -> match l with LRecv _ _ | LConnected _ | LDial _ | HNet _ _ => False | _ => True end -> lab n = Some (WDock i l).
Proof. intros D N. destruct (dn_lab _ _ _ _ _ _ _ _ _ D) as (wl & El & Sh). destruct l; try contradiction; cbn in Sh; congruence. Qed.
Lemma label_dock n i l l' es d1 x : dnext n i l es d1 x -> lab n = Some (WDock i l') -> l = l'.
Proof.
  intros D E. destruct (dn_lab _ _ _ _ _ _ _ _ _ D) as (wl & El & Sh). rewrite E in El. injection El as <-.
  destruct l; cbn in Sh; try destruct ok; repeat destruct Sh as [Sh|Sh]; try discriminate; try (destruct Sh as (? & ? & Sh); discriminate); congruence.
Qed.
Lemma still n i l : (forall wl l, lab n = Some wl -> ~ shown wl i l) -> match l with LRecv _ _ | LConnected _ | LDial _ | HNet _ _ => False | _ => True end -> lab n <> Some (WDock i l).
Proof. intros S N E. apply (S _ l E). destruct l; try contradiction; reflexivity. Qed.

Section Call.
Variables (i c : nat).
Lemma call_goes n r0 : nth_error (calls (dk n i)) c = Some r0 -> (c_pc r0 = CWait -> c_buf r0 <> None) -> (forall x, c_pc r0 <> CDone x) ->
  exists m acc es d1 x r1, n <= m /\ dnext m i (CStep c acc) es d1 x /\ nth_error (calls (dk m i)) c = Some r1 /\ c_pc r1 = c_pc r0.
Proof.
  intros H0 B0 Nd.
  destruct (lead (TCall i c) (fun k => exists r1, nth_error (calls (dk k i)) c = Some r1 /\ c_pc r1 = c_pc r0 /\ (c_pc r0 = CWait -> c_buf r1 <> None))
    (fun _ => exists m acc es d1 x r1, n <= m /\ dnext m i (CStep c acc) es d1 x /\ nth_error (calls (dk m i)) c = Some r1 /\ c_pc r1 = c_pc r0) n) as (_ & _ & X); auto.
  - exists r0. auto.
  - intros k L (r1 & H1 & P1 & B1). destruct (dock_next k i) as [[E Ns]|(l & es & d1 & x & D)].
    + right. rewrite E. split; [eauto|]. intros (wl & El & acc & ->). (eapply still; [exact Ns| |exact El]; exact Logic.I).
    + destruct (cstep_dec c l) as [[acc ->]|Nl].
      * left. exists k, acc, es, d1, x, r1. auto.
      * right. destruct (call_tr _ _ _ _ _ (dn_tr _ _ _ _ _ _ _ _ _ D) Nl H1) as (r2 & H2 & P2 & B2). split.
        -- exists r2. rewrite (dn_new _ _ _ _ _ _ _ _ _ D). split; auto. split; [congruence|]. intros Y. destruct B2 as [->|B2]; auto.
        -- intros (wl & El & acc & ->). eapply Nl. eapply label_dock; eauto.
  - intros k L (r1 & H1 & P1 & B1) R.
    destruct (dstep (dk k i) (CStep c true)) as [d'|] eqn:E; [apply (dock_enabled _ _ _ _ E ltac:(exact Logic.I)), R; exists true; reflexivity|].
    unfold dstep in E. rewrite (alive k i), H1, P1 in E. destruct (c_pc r0) as [| | |x|x]; try discriminate.
    + destruct (c_buf r1); [discriminate|]. apply B1; auto.
    + destruct (Nd x eq_refl).
Qed.
Definition fin n := exists m, n <= m /\ returns c (hist (dk m i)) <> [].
Lemma fin_from n m : n <= m -> fin m -> fin n.
Proof. intros L (k & Lk & X). exists k. split; [lia|auto]. Qed.
Lemma call_steps n r0 : nth_error (calls (dk n i)) c = Some r0 -> (c_pc r0 = CWait -> c_buf r0 <> None) -> (forall x, c_pc r0 <> CDone x) ->
  exists m r', n <= m /\ nth_error (calls (dk m i)) c = Some r' /\
    match c_pc r0 with CPut => c_pc r' = CSet | CSet => c_pc r' = CWait | CWait => exists x, c_pc r' = CGot x | CGot x => In (EReturn c x) (hist (dk m i)) | CDone _ => False end.
Proof.
  intros H B N. destruct (call_goes _ _ H B N) as (m & acc & es & d1 & x & r1 & L & D & H1 & P1).
  destruct (own_call _ _ _ _ _ (dn_tr _ _ _ _ _ _ _ _ _ D) (dn_alive _ _ _ _ _ _ _ _ _ D) H1) as (r' & H' & P').
  exists (S m), r'. split; [lia|]. rewrite (dn_new _ _ _ _ _ _ _ _ _ D). split; [exact H'|]. rewrite P1 in P'. exact P'.
Qed.
Lemma got_fin n r0 x : nth_error (calls (dk n i)) c = Some r0 -> c_pc r0 = CGot x -> fin n.
Proof.
  intros H P. destruct (call_steps _ _ H) as (m & r' & L & _ & X); [congruence|congruence|]. rewrite P in X. exists m. split; auto. intros E.
  assert (Y : In x (returns c (hist (dk m i)))); [|rewrite E in Y; destruct Y]. unfold returns. apply in_flat_map. eexists. split; [exact X|]. cbn. rewrite Nat.eqb_refl. now left.
Qed.
Lemma buf_fin n r0 : nth_error (calls (dk n i)) c = Some r0 -> c_pc r0 = CWait -> c_buf r0 <> None -> fin n.
Proof.
  intros H P B. destruct (call_steps _ _ H) as (m & r' & L & H' & X); [auto|congruence|]. rewrite P in X. destruct X as [x X].
  apply (fin_from n m); auto. eapply got_fin; eauto.
Qed.
Lemma cb_fin n : cb_of c (dk n i) -> past (dk n i) c -> fin n.
Proof.
  intros (b & cb & Hb & Hc) (r0 & H0 & Np). destruct (drun n i) as [li Li].
  assert (Dn : forall x, c_pc r0 = CDone x -> fin n).
  { intros x P. exists n. split; auto. destruct (inv_inv _ _ _ Li) as (_ & _ & _ & _ & _ & [I6 _]). rewrite (I6 _ _ H0), P. discriminate. }
  destruct (c_pc r0) as [| | |x|x] eqn:P; [destruct Np; congruence|destruct Np; congruence| |eapply got_fin; eauto|eauto].
  destruct (c_buf r0) as [y|] eqn:B; [eapply buf_fin; eauto; congruence|].
  destruct (b_pc cb) eqn:Pb; [|destruct (given_inv _ _ _ Li _ _ Hb) as (r' & X1 & X2); [congruence|]; rewrite Hc, H0 in X1; injection X1 as <-; destruct X2 as [X2|(x & [X2|X2])]; congruence..].
  destruct (lead (TBack i b) (fun k => nth_error (callbacks (dk k i)) b = Some cb /\ exists r1, nth_error (calls (dk k i)) c = Some r1 /\ c_pc r1 = CWait /\ c_buf r1 = None)
    (fun k => exists r1, nth_error (calls (dk k i)) c = Some r1 /\ c_pc r1 = CWait /\ c_buf r1 <> None) n) as (m & L & r1 & H1 & P1 & B1).
  - split; auto. exists r0. auto.
  - intros k L [Hk (r1 & H1 & P1 & B1)]. destruct (dock_next k i) as [[E Ns]|(l & es & d1 & x & D)].
    + right. rewrite E. split; [eauto|]. intros (wl & El & ->). (eapply still; [exact Ns| |exact El]; exact Logic.I).
    + assert (T := dn_tr _ _ _ _ _ _ _ _ _ D). assert (A := dn_alive _ _ _ _ _ _ _ _ _ D). rewrite (dn_new _ _ _ _ _ _ _ _ _ D). cbn [calls callbacks with_announcers].
      destruct (callback_tr _ _ _ _ _ T A Hk Pb) as [[Nl H2]|(r2 & r3 & H2 & H3 & P3 & B3)].
      * assert (Nc : forall acc, l <> CStep c acc).
        { intros acc ->. destruct (own_call _ _ _ _ _ T A H1) as (r2 & _ & X). clear X. inversion T; subst; congruence. }
        destruct (call_tr _ _ _ _ _ T Nc H1) as (r2 & Hr2 & Pr2 & Br2). destruct (c_buf r2) as [y|] eqn:B2.
        -- left. exists r2. split; auto. split; congruence.
        -- right. split; [split; auto; exists r2; repeat split; auto; congruence|]. intros (wl & El & ->). apply Nl. eapply label_dock; eauto.
      * left. exists r3. rewrite Hc in H2, H3. split; auto. split; [congruence|auto].
  - intros k L [Hk (r1 & H1 & P1 & B1)] R.
    destruct (dstep (dk k i) (BStep b)) as [d'|] eqn:E; [apply (dock_enabled _ _ _ _ E ltac:(exact Logic.I)), R; reflexivity|].
    unfold dstep in E. rewrite (alive k i), Hk, Pb, Hc, H1, B1 in E. destruct (c_closed r1); discriminate.
  - apply (fin_from n m); auto. eapply buf_fin; eauto.
Qed.
Lemma past_stays n m : n <= m -> past (dk n i) c -> past (dk m i) c.
Proof.
  intros L H. apply (stays (fun k => past (dk k i) c) n); auto. intros k _ P. destruct (dock_next k i) as [[-> _]|(l & es & d1 & x & D)]; auto.
  rewrite (dn_new _ _ _ _ _ _ _ _ _ D). apply (past_tr _ _ _ _ (dn_tr _ _ _ _ _ _ _ _ _ D) P).
Qed.
Lemma call_past n q : In (ENew c q) (hist (dk n i)) -> exists m, n <= m /\ past (dk m i) c.
Proof.
  intros Nq. destruct (drun n i) as [li Li]. destruct (inv_inv _ _ _ Li) as ([I1 I2] & _). assert (Hq := I2 _ _ Nq).
  assert (exists r0, nth_error (calls (dk n i)) c = Some r0) as (r0 & H0).
  { rewrite <- I1, nth_error_map in Hq. destruct (nth_error (calls (dk n i)) c) as [r0|]; [eauto|discriminate]. }
  assert (Set_ : forall n r0, nth_error (calls (dk n i)) c = Some r0 -> c_pc r0 = CSet -> exists m, n <= m /\ past (dk m i) c).
  { intros n1 r1 H1 P1. destruct (call_steps _ _ H1) as (m & r' & L & H' & X); [congruence|congruence|]. rewrite P1 in X. exists m. split; auto. exists r'. rewrite X. split; auto. split; discriminate. }
  assert (Pd : forall n r0, nth_error (calls (dk n i)) c = Some r0 -> c_pc r0 <> CPut -> c_pc r0 <> CSet -> past (dk n i) c) by (intros n1 r1 H1 A B; exists r1; auto).
  destruct (c_pc r0) as [| | |x|x] eqn:P; [|eauto|exists n; split; auto; eapply Pd; eauto; congruence..].
  destruct (call_steps _ _ H0) as (m & r' & L & H' & X); [congruence|congruence|]. rewrite P in X. destruct (Set_ _ _ H' X) as (m' & L' & X'). exists m'. split; [lia|auto].
Qed.
End Call.

(* committed calls *)
Lemma server_replies j n k sv : nth_error (servers (dk n j)) k = Some sv -> exists m, n <= m /\ In (EReplied k true) (hist (dk m j)).
Proof.
  assert (Acc : forall m acc, In (EReplied k acc) (hist (dk m j)) -> acc = true).
  { intros m acc I. destruct (in_split _ _ I) as (a & b & E). destruct (drun m j) as [lj Lj]. destruct (reply_spec _ _ _ _ _ _ _ Lj E) as (p & q & res & err & r2 & b' & _ & _ & -> & _).
    destruct acc; auto. destruct (h_taken _ (Hh m) j p (KResponse r2)). rewrite E. apply in_or_app. right. right. now left. }
  assert (Go : forall n sv, nth_error (servers (dk n j)) k = Some sv -> s_pc sv <> SDone ->
    exists m, n <= m /\ ((s_pc sv = SRun /\ exists res err, nth_error (servers (dk m j)) k = Some (mkServer (s_peer sv) (s_req sv) (SReply res err))) \/ In (EReplied k true) (hist (dk m j)))).
  { clear n sv. intros n sv H Np. apply (lead (TServe j k) (fun m => nth_error (servers (dk m j)) k = Some sv)
      (fun m => (s_pc sv = SRun /\ exists res err, nth_error (servers (dk m j)) k = Some (mkServer (s_peer sv) (s_req sv) (SReply res err))) \/ In (EReplied k true) (hist (dk m j)))); auto.
    - intros m L Hm. destruct (dock_next m j) as [[E Ns]|(l & es & d1 & x & D)].
      + right. rewrite E. split; auto. intros (wl & El & [(res & err & ->)|(acc & ->)]); (eapply still; [exact Ns| |exact El]; exact Logic.I).
      + destruct (server_tr _ _ _ _ _ _ (dn_tr _ _ _ _ _ _ _ _ _ D) (dn_hist1 _ _ _ _ _ _ _ _ _ D) Hm) as [(H' & N1 & N2)|[(P & res & err & H')|(acc & I)]].
        * right. rewrite (dn_new _ _ _ _ _ _ _ _ _ D). split; auto. intros (wl & El & [(res & err & ->)|(acc & ->)]); [eapply N1|eapply N2]; eapply label_dock; eauto.
        * left. left. split; auto. exists res, err. rewrite (dn_new _ _ _ _ _ _ _ _ _ D). exact H'.
        * left. right. assert (I' : In (EReplied k acc) (hist (dk (S m) j))) by (rewrite (dn_hist _ _ _ _ _ _ _ _ _ D); apply in_or_app; auto). rewrite <- (Acc _ _ I'). exact I'.
    - intros m L Hm R. destruct (s_pc sv) as [|res err|] eqn:P; [| |congruence].
      + destruct (dstep (dk m j) (SExec k [] None)) as [d'|] eqn:E; [apply (dock_enabled _ _ _ _ E ltac:(exact Logic.I)), R; left; eauto|].
        unfold dstep in E. rewrite (alive m j), Hm, P in E. discriminate.
      + destruct (dstep (dk m j) (SSend k true)) as [d'|] eqn:E; [apply (dock_enabled _ _ _ _ E ltac:(exact Logic.I)), R; right; eauto|].
        unfold dstep in E. rewrite (alive m j), Hm, P in E. discriminate. }
  assert (Rep : forall n sv res err, nth_error (servers (dk n j)) k = Some sv -> s_pc sv = SReply res err -> exists m, n <= m /\ In (EReplied k true) (hist (dk m j))).
  { intros n1 sv1 res err H P. destruct (Go _ _ H) as (m & L & [[X _]|X]); [congruence|congruence|eauto]. }
  intros H. destruct (s_pc sv) as [|res err|] eqn:P; [| eapply Rep; eauto|].
  - destruct (Go _ _ H) as (m & L & [(_ & res & err & X)|X]); [congruence| |eauto]. destruct (Rep _ _ res err X eq_refl) as (m' & L' & X'). exists m'. split; [lia|auto].
  - exists n. split; auto. destruct (drun n j) as [lj Lj]. destruct (working_inv _ _ _ Lj) as [Wk _]. specialize (Wk _ _ H). unfold servok in Wk. rewrite P in Wk. destruct Wk as [_ Wk].
    unfold replies in Wk. destruct (filter _ _) as [|e l] eqn:E; [discriminate|]. assert (X : In e (e :: l)) by now left. rewrite <- E in X. apply filter_In in X as [X Y]. destruct e; try discriminate.
    apply Nat.eqb_eq in Y. subst. rewrite <- (Acc _ _ X). exact X.
Qed.
Hypothesis Total : forall i j l, carry i j l <> None.
Lemma committed_fin n i c q p : In (ENew c q) (hist (dk n i)) -> In (ECommit c p true) (hist (dk n i)) -> past (dk n i) c -> fin i c n.
Proof.
  intros Nq Hc Pa. assert (W := wi_wired _ (Wi n)). destruct (drun n i) as [li Li].
  destruct (in_split _ _ Hc) as (u & v & Ex). destruct (commit_spec _ _ _ _ _ _ _ _ Li Ex) as (q1 & v' & N1 & -> & _ & sl & Rs & _).
  assert (q1 = q) as ->. { destruct (inv_inv _ _ _ Li) as ([_ I2] & _). apply I2 in Nq. assert (N1' : In (ENew c q1) (hist (dk n i))) by (rewrite Ex; apply in_or_app; auto). apply I2 in N1'. congruence. }
  assert (Rs' : In (ERecv p (KRegister sl)) (hist (dk n i))) by (rewrite Ex; apply in_or_app; auto).
  assert (Hs : In (ESend p (KRequest q) true) (hist (dk n i))) by (rewrite Ex; apply in_or_app; right; right; now left).
  pose proof (came_from _ _ _ _ _ _ _ _ _ _ _ (Ok n) Rs') as C. destruct (ends (r n) i p) as [|j p'|h] eqn:El; [destruct C| |apply hub_packets in C as [[? C]|[? C]]; discriminate]. clear C.
  assert (El' : ends (r n) j p' = ToDock i p) by (apply W, El).
  (* the request arrives *)
  destruct (carry i j (q_args q)) as [a'|] eqn:Ca; [|destruct (Total _ _ _ Ca)].
  destruct (arrives_later n j p' i p (KRequest q) (KRequest (mkReq (q_index q) (q_slot q) (q_method q) a' (q_withres q))) Hs El') as (m1 & L1 & Hk); [cbn; rewrite Ca; reflexivity|].
  (* it is served *)
  destruct (drun m1 j) as [lj Lj]. destruct (serving_inv _ _ _ Lj) as [Sv _].
  destruct (request_source _ _ _ _ _ _ _ (wi_wired _ (Wi m1)) _ _ _ _ (Ok m1) Hk) as (i' & p1 & c' & q0 & _ & _ & _ & _ & _ & A2 & sl' & Hsl & Hin).
  assert (Cr : carries (carried j) (q_slot q) true).
  { assert (Hin' : In (q_slot q) sl') by (inversion A2; subst; [exact Hin|other]).
    destruct (in_split _ _ Hsl) as (y & z & Ez). destruct (announce_event _ _ _ _ _ _ sl' _ _ Lj Ez (or_introl eq_refl)) as [An1 An2].
    apply An1; auto. intros X. apply An2 in X as ->. destruct Hin'. }
  assert (Acc : In (p', mkReq (q_index q) (q_slot q) (q_method q) a' (q_withres q)) (accepted (map fst (carried j)) (hist (dk m1 j)))).
  { apply accepted_in; auto; [apply (h_open _ (Hh m1))|]. cbn. destruct Cr as (x & y & -> & _). rewrite map_app. apply in_or_app. right. now left. }
  apply In_nth_error in Acc as [k Acc]. assert (Acc' := Acc). rewrite <- Sv, nth_error_map in Acc'. destruct (nth_error (servers (dk m1 j)) k) as [sv|] eqn:Es; [|discriminate].
  destruct (server_replies _ _ _ _ Es) as (m2 & L2 & Hr).
  (* the answer arrives *)
  destruct (in_split _ _ Hr) as (u2 & v2 & Ej). destruct (drun m2 j) as [lj2 Lj2].
  destruct (reply_spec _ _ _ _ _ _ _ Lj2 Ej) as (p2 & q2 & res & err & r2 & b2 & Acc2 & _ & -> & Ans).
  assert (Acc3 : nth_error (accepted (map fst (carried j)) (hist (dk m2 j))) k = Some (p2, q2)).
  { rewrite Ej, accepted_app. rewrite nth_error_app1; auto. apply nth_error_Some. congruence. }
  destruct (hist_stay m1 m2 j L2) as (es & Eh). rewrite Eh, accepted_app, nth_error_app1, Acc in Acc3 by (apply nth_error_Some; congruence). injection Acc3 as <- <-.
  assert (Hs2 : In (ESend p' (KResponse r2) true) (hist (dk m2 j))) by (rewrite Ej; apply in_or_app; right; right; now left).
  destruct (carry j i (p_result r2)) as [a2|] eqn:Ca2; [|destruct (Total _ _ _ Ca2)].
  destruct (arrives_later m2 i p j p' (KResponse r2) (KResponse (mkResp (p_index r2) (p_slot r2) (p_method r2) a2 (p_err r2))) Hs2) as (m3 & L3 & Hk3);
    [rewrite (ends_stay n) by (lia || congruence); exact El|cbn; rewrite Ca2; reflexivity|].
  (* and the call returns *)
  apply (fin_from i c n m3); [lia|]. apply cb_fin; [|apply (past_stays i c n); [lia|auto]].
  destruct (reached m3) as (ls & R & _). destruct (run_sys _ _ _ _ _ _ R) as (_ & ls' & Rs1 & _).
  eapply (response_cb carried (ends (r m3)) hub_end carry black raddr hostport (wi_wired _ (Wi m3))); [apply Rs1, extends_refl|apply (h_ids _ (Hh m3))| | |exact Hk3|].
  - eapply event_stays; [|exact Nq]. lia.
  - rewrite (ends_stay n) by (lia || congruence). exact El.
  - cbn. destruct Ans as (I1 & _). exact I1.
Qed.
Lemma call_returns n i c q km : In (ENew c q) (hist (dk n i)) -> In (HubModel.EMark (q_slot q) km) (hl n) -> fin i c n.
Proof.
  intros Nq Mk. destruct (call_past _ _ _ _ Nq) as (m1 & L1 & P1). destruct (pends_ends i c q m1 km) as (m & L & Np); [eapply event_stays; eauto|eapply hevent_stays; eauto|].
  apply (fin_from i c n m); [lia|]. assert (P := past_stays i c m1 m L P1). assert (Nm : In (ENew c q) (hist (dk m i))) by (eapply event_stays; [|exact Nq]; lia).
  destruct (drun m i) as [li Li]. assert (A := alive m i). destruct (inv_inv _ _ _ Li) as ([I1 I2] & _). assert (Hq := I2 _ _ Nm). assert (P' := P). destruct P' as (r0 & Hr & Np1 & Np2).
  assert (Ho : c_orig r0 = q). { rewrite <- I1, nth_error_map, Hr in Hq. cbn in Hq. congruence. }
  destruct (c_req r0) as [q'|] eqn:Eq.
  - destruct (proj1 (committing_inv _ _ _ Li) _ _ Hr) as ([X|X] & _); [congruence|]. assert (q' = q) as -> by congruence.
    destruct (kept_inv _ _ _ Li (h_ids _ (Hh m) i) c q Hq) as [Z|(b & cb & Hb & Hc)].
    + exfalso. apply Np. exists r0. auto.
    + apply cb_fin; auto. exists b, cb. auto.
  - destruct (gone_inv _ _ _ Li A _ _ Hr Eq) as [X|(p & acc & X)]; [congruence|].
    assert (acc = true) as ->. { destruct acc; auto. destruct (in_split _ _ X) as (u & v & Ex). destruct (commit_spec _ _ _ _ _ _ _ _ Li Ex) as (q1 & v' & _ & -> & _).
      destruct (h_taken _ (Hh m) i p (KRequest q1)). rewrite Ex. apply in_or_app. right. right. now left. }
    eapply committed_fin; eauto.
Qed.
Theorem fair_call n i c q j n' : In (ENew c q) (hist (dk n i)) -> lab n' = Some (WDial j true) -> carries (carried j) (q_slot q) true ->
  exists m x j' k, n <= m /\ returns c (hist (dk m i)) = [x] /\ executed carried (ends (r m)) carry (ws (r m)) i q j' k x.
Proof.
  intros Nq Dj Cf.
  assert (Rn : runner (dk (S n') j) <> NDial).
  { destruct (reached n') as (ls & R & _). apply (dialled_stays carried carry black raddr (ls ++ [WDial j true]) _ j); [|apply in_or_app; right; now left].
    rewrite exec_app, R. cbn [exec]. assert (St := e_step _ _ _ _ _ _ Run n'). rewrite Dj in St. rewrite St. reflexivity. }
  destruct (marked_eventually _ _ Cf _ Rn) as (n1 & km & L1 & Mk).
  destruct (call_returns (max n n1) i c q km) as (m & L & Rt); [eapply event_stays; [|exact Nq]; lia|eapply hevent_stays; [|exact Mk]; lia|].
  assert (Nm : In (ENew c q) (hist (dk m i))) by (eapply event_stays; [|exact Nq]; lia). destruct (reached m) as (ls & R & _). destruct (drun m i) as [li Li].
  destruct (run_sys _ _ _ _ _ _ R) as (Wm & ls' & Rs1 & _). assert (W := wi_wired _ Wm).
  destruct (inv_inv _ _ _ Li) as ([I1 I2] & _ & _ & I4 & _ & [I6 _]). assert (Hq := I2 _ _ Nm).
  assert (exists r0, nth_error (calls (dk m i)) c = Some r0 /\ c_orig r0 = q) as (r0 & Hr & Ho).
  { rewrite <- I1, nth_error_map in Hq. destruct (nth_error (calls (dk m i)) c) as [r0|]; [|discriminate]. exists r0. cbn in Hq. split; congruence. }
  assert (X := I6 _ _ Hr). rewrite X in Rt. unfold retok in *. destruct (c_pc r0) as [| | |x|x] eqn:Ep; try congruence.
  assert (Ret : In (EReturn c x) (hist (dk m i))).
  { assert (Y : In x (returns c (hist (dk m i)))) by (rewrite X; now left).
    unfold returns in Y. apply in_flat_map in Y as (e & Ie & Y). destruct e; try destruct Y. destruct (Nat.eqb_spec c0 c) as [->|]; [|destruct Y]. destruct Y as [->|[]]. exact Ie. }
  destruct (remote_call_spec _ _ _ _ _ _ _ W _ _ _ _ _ (Rs1 _ (extends_refl _)) (h_ids _ (Hh m) i) Ret) as (q1 & j' & k & N1 & E1 & _).
  assert (q1 = q) as -> by (apply I2 in N1; congruence). exists m, x, j', k. split; [lia|]. split; auto.
Qed.
End Live.
