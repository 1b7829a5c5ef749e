(* Endless runs: a waiting call whose feature is registered gets to be committed. *)
From Verif Require Import Lts GoVal Tables DockModel DockSpec DockProof DockProof2 DockProof3 DockProof4 DockProof9 DockProof10 SysModel SysSpec SysProof SysProof2 SysProof3 SysProof4 WorldModel WorldSpec WorldProof WorldProof2 WorldProof3 WorldProof4 WorldProof5 LiveSpec LiveProof LiveProof2 LiveProof3.
From Verif Require HubModel HubSpec HubProof HubProof2 HubProof3 HubProof4.
From Coq Require Import Arith Bool List ZArith Lia.
Import ListNotations.
Open Scope nat_scope.

Section Dock.
Context {V : Type}.
Implicit Types d : dock V.
Ltac evs G := rewrite <- ?app_assoc in G; first [apply app_inv_head in G; subst|match type of G with ?h = ?h ++ _ => rewrite <- (app_nil_r h) in G at 1; apply app_inv_head in G; subst end].
Lemma recv_event d p k d' es : tr V d (LRecv p k) d' -> hist d' = hist d ++ es -> In (ERecv p k) es.
Proof. intros T G. inversion T; subst; proj; evs G; now left. Qed.
Lemma query_unknown d l d' es k f : tr V d l d' -> hist d' = hist d ++ es -> In (EQuery k f) es -> remote d f = None.
Proof.
  intros T G I. destruct T; proj; evs G; cbn in I; repeat match goal with X : _ \/ _ |- _ => destruct X end; try discriminate; try contradiction;
    match goal with X : EQuery _ _ = EQuery _ _ |- _ => injection X as <- <-; assumption end.
Qed.
Lemma announced_sent c0 ls d p : exec dstep (new_dock c0) ls = Some d -> In (p, true) (announcers d) -> exists ns acc, In (ESend p (KRegister ns) acc) (hist d).
Proof.
  intros E. assert (X : forall p, In (p, true) (announcers d) -> exists ns acc, In (ESend p (KRegister ns) acc) (hist d)); [|apply X]. revert E.
  apply (reach (fun d => forall p, In (p, true) (announcers d) -> exists ns acc, In (ESend p (KRegister ns) acc) (hist d))); [intros q []|].
  clear. intros d l d' I _ T p.
  assert (O : forall es, In (p, true) (announcers d) -> exists ns acc, In (ESend p (KRegister ns) acc) (hist d ++ es)).
  { intros es K. destruct (I _ K) as (ns & acc & X). exists ns, acc. apply in_or_app. auto. }
  destruct T; proj; rewrite <- ?app_assoc; auto.
  - rewrite in_app_iff. intros [K|[[=]|[]]]. auto.
  - intros K. apply In_nth_error in K as [y K]. apply set_nth_case in K as [[-> K]|[N K]]; [|apply O; eapply nth_error_In; eauto].
    injection K as <-. exists ns, acc. apply in_or_app. right. now left.
Qed.
Lemma hears_first p (b : list (event V)) : hears p b -> exists b1 k b2, b = b1 ++ ERecv p k :: b2 /\ ~ hears p b1.
Proof.
  induction b as [|e b IH]; intros [k H]; [destruct H|].
  assert (D : (exists k', e = ERecv p k') \/ forall k', e <> ERecv p k').
  { destruct e; try (right; discriminate). destruct (Nat.eq_dec p0 p) as [->|]; [left; eauto|right; congruence]. }
  destruct D as [[k' ->]|D]; [exists [], k', b; split; auto; intros [? []]|].
  destruct IH as (b1 & k1 & b2 & -> & N); [destruct H as [H|H]; [destruct (D _ H)|exists k; exact H]|].
  exists (e :: b1), k1, b2. split; auto. intros [k2 [X|X]]; [exact (D _ X)|apply N; exists k2; exact X].
Qed.
Lemma registered_cached c0 ls d p ns f : exec dstep (new_dock c0) ls = Some d -> In (ERecv p (KRegister ns)) (hist d) -> handlers d p = HIdle -> In f ns -> In (ECached f p) (hist d).
Proof.
  intros E I H Hf. apply in_split in I as (a & b & Ea).
  assert (X : exists b1 b2, b = b1 ++ b2 /\ handled p (KRegister ns) b1).
  { assert (D : hears p b \/ ~ hears p b).
    { clear. induction b as [|e b IH]; [right; intros [? []]|].
      assert (D : (exists k', e = ERecv p k') \/ forall k', e <> ERecv p k').
      { destruct e; try (right; discriminate). destruct (Nat.eq_dec p0 p) as [->|]; [left; eauto|right; congruence]. }
      destruct D as [[k' ->]|D]; [left; exists k'; now left|]. destruct IH as [[k X]|X]; [left; exists k; now right|right; intros [k [Y|Y]]; [exact (D _ Y)|apply X; exists k; exact Y]]. }
    destruct D as [D|D]; [|exists b, []; split; [now rewrite app_nil_r|eapply handled_idle; eauto]].
    destruct (hears_first _ _ D) as (b1 & k & b2 & -> & N). exists b1, (ERecv p k :: b2). split; auto. eapply handled_next; eauto. }
  destruct X as (b1 & b2 & -> & _ & Hc). rewrite Ea. apply in_or_app. right. right. apply in_or_app. left.
  rewrite <- Hc in Hf. unfold cachedby in Hf. apply in_flat_map in Hf as (e & He & Hk). destruct e; try destruct Hk.
  destruct (Nat.eqb_spec p0 p) as [->|]; [|destruct Hk]. destruct Hk as [->|[]]. exact He.
Qed.
Lemma pending_dec c0 ls d c q : exec dstep (new_dock c0) ls = Some d -> In (ENew c q) (hist d) -> pending d c q \/ ~ pending d c q.
Proof.
  intros E Nq. destruct (inv_inv _ _ _ E) as ([I1 I2] & _). assert (Hq := I2 _ _ Nq).
  assert (exists r, nth_error (calls d) c = Some r /\ c_orig r = q) as (r & Hr & Ho).
  { rewrite <- I1, nth_error_map in Hq. destruct (nth_error (calls d) c) as [r|]; [|discriminate]. exists r. cbn in Hq. split; congruence. }
  unfold pending. destruct (proj1 (committing_inv _ _ _ E) _ _ Hr) as ([X|X] & _).
  - right. intros (r' & H1 & H2 & _). congruence.
  - assert (D : (c_pc r <> CPut /\ c_pc r <> CSet) \/ ~ (c_pc r <> CPut /\ c_pc r <> CSet)).
    { destruct (c_pc r); try (left; split; discriminate); right; intros [A B]; congruence. }
    destruct D as [D|D]; [|right; intros (r' & H1 & _ & H2 & _); apply D; rewrite Hr in H1; injection H1 as <-; exact H2].
    destruct (zget (rpcs d) (q_index q)) as [c'|] eqn:Ez; [|right; intros (r' & _ & _ & _ & H); congruence].
    destruct (Nat.eq_dec c' c) as [->|N]; [left|right; intros (r' & _ & _ & _ & H); congruence]. exists r. repeat split; try tauto. congruence.
Qed.
Definition past d (c : nat) : Prop := exists r, nth_error (calls d) c = Some r /\ c_pc r <> CPut /\ c_pc r <> CSet.
Lemma past_tr d l d' c : tr V d l d' -> past d c -> past d' c.
Proof.
  intros T (r & Hr & P). unfold past.
  assert (S : forall c' r0 x, nth_error (calls d) c' = Some r0 -> (r0 = r -> c_pc x <> CPut /\ c_pc x <> CSet) -> exists r, nth_error (set_nth (calls d) c' x) c = Some r /\ c_pc r <> CPut /\ c_pc r <> CSet).
  { intros c' r0 x E X. destruct (Nat.eq_dec c' c) as [->|N]; [exists x; rewrite set_nth_same by (eapply nth_lt; eauto); split; auto; apply X; congruence|exists r; rewrite set_nth_other by auto; auto]. }
  destruct T; proj; try (exists r; auto; fail); try (exists r; split; [apply nth_app, Hr|exact P]);
    (eapply S; [eassumption|]; intros ->; cbn; try (split; discriminate); try exact P; destruct P; congruence).
Qed.
End Dock.

Section Live.
Context {V : Type}.
Variables (carried : nat -> list (name * bool)).
Variable carry : nat -> nat -> list V -> option (list V).
Variables (black : list Z) (raddr : nat -> name).
Variables (r : nat -> world V) (lab : nat -> option (wlab V)).
Hypothesis Run : endless carried carry black raddr r lab.
Hypothesis Fair : fair carry black raddr r lab.
Hypothesis Calm : undisturbed r lab.
Hypothesis Range : ranges_end r.
Notation wstep := (wstep carry black raddr).
Notation dk n i := (sd (ws (r n)) i).
Notation hb n := (sh (ws (r n))).
Notation hl n := (HubModel.hist (sh (ws (r n)))).
Notation taken T n := (exists l, lab n = Some l /\ of_task T l).
Notation dnext := (dnext carry r lab).
Let Hh := Hh r lab Calm.
Let alive := alive r lab Calm.
Let Wi := Wi carried carry black raddr r lab Run Calm.
Let Ok := Ok carried carry black raddr r lab Run Calm.
Let drun := drun carried carry black raddr r lab Run Calm.
Let hrun := hrun carried carry black raddr r lab Run Calm.
Let seen := seen carried carry black raddr r lab Run Calm.
Let lead := lead carry black raddr r lab Fair.
Let dock_next := dock_next carried carry black raddr r lab Run Calm.
Let hub_next := hub_next carried carry black raddr r lab Run Calm.
Let rest_next := rest_next carried carry black raddr r lab Run Calm.
Let ends_stay := ends_stay carried carry black raddr r lab Run Calm.
Let listeners_stay := listeners_stay carried carry black raddr r lab Run Calm.
Let hist_stay := hist_stay carried carry black raddr r lab Run Calm.
Let event_stays := event_stays carried carry black raddr r lab Run Calm.
Let hhist_stay := hhist_stay carried carry black raddr r lab Run Calm.
Let hevent_stays := hevent_stays carried carry black raddr r lab Run Calm.
Let wire_next := wire_next carried carry black raddr r lab Run Calm.
Let hwire_next := hwire_next carried carry black raddr r lab Run Calm.
Let handler_next := handler_next carried carry black raddr r lab Run Calm.
Let handler_idles := handler_idles carried carry black raddr r lab Run Fair Calm Range.
Let handler_goes := handler_goes carried carry black raddr r lab Run Fair Calm Range.
Let accepted_by := accepted_by carried carry black raddr r lab Run Fair Calm.
Let greeted := greeted carried carry black raddr r lab Run Calm.
Let received := received carried carry black raddr r lab Run Fair Calm Range.
Let flow_is := flow_is carried carry black raddr r lab Run Calm.
Let reached := reached carried carry black raddr r lab Run Calm.
Let hreceived := hreceived carried carry black raddr r lab Run Fair Calm.
Let query_told := query_told carried carry black raddr r lab Run Fair Calm.
Let announced := announced carried carry black raddr r lab Run Fair Calm.
Let collected_all := collected_all carried carry black raddr r lab Run Calm.
Notation leads := (leads carried raddr).
Notation seeking n i f := (seeking carried raddr (ends (r n)) (listeners (r n)) (ws (r n)) i f).
Lemma wireds n : wired (ends (r n)) hub_end. Proof. apply (wi_wired _ (Wi n)). Qed.
Lemma taken_send n i p k acc : In (ESend p k acc) (hist (dk n i)) -> acc = true.
Proof. destruct acc; auto. intros H. destruct (h_taken _ (Hh n) i p k H). Qed.
Lemma step_send n i l es d1 x p k acc : dnext n i l es d1 x -> In (ESend p k acc) es -> acc = true.
Proof. intros D H. apply (taken_send (S n) i p k). rewrite (dn_hist _ _ _ _ _ _ _ _ _ D). apply in_or_app. auto. Qed.
Lemma arrives_later n i p j q k k' : In (ESend q k true) (hist (dk n j)) -> ends (r n) i p = ToDock j q -> pass carry j i k = Some k' -> exists m, n <= m /\ In (ERecv p k') (hist (dk m i)).
Proof.
  intros I E P. assert (F := flow_is n n i p (le_n n)). unfold source in F. rewrite E in F.
  assert (K : In k' (flow (ws (r n)) i p)).
  { rewrite F. apply sent_in in I. clear - I P. induction (sent_on q (hist (dk n j))) as [|y l IH]; [destruct I|]. cbn. destruct I as [->|I].
    - rewrite P. now left.
    - destruct (pass carry j i y); [right|]; auto. }
  unfold flow in K. apply in_app_or in K as [K|K].
  - exists n. split; auto. apply got_in, K.
  - destruct (received _ _ _ _ K) as (m & es & d1 & x & L & D). exists (S m). split; [lia|]. rewrite (dn_hist _ _ _ _ _ _ _ _ _ D). apply in_or_app. right.
    eapply recv_event; [apply (dn_tr _ _ _ _ _ _ _ _ _ D)|apply (dn_hist1 _ _ _ _ _ _ _ _ _ D)].
Qed.

(* queries lead to connections *)
Lemma connected_now w i p j m w' : wstep w (WConnect i p j m) = Some w' -> exists a, handlers (sd (ws w) i) p = ADial a /\ a = hostport (machine raddr j) m /\ listens w j m = true /\
  ends w' = ends (join i j w) /\ In (peers w i, false) (announcers (sd (ws w') i)).
Proof.
  intros H. unfold WorldModel.wstep in H. destruct (handlers (sd (ws w) i) p) eqn:Eh; try discriminate. destruct (_ && _) eqn:Ea; [|discriminate]. apply andb_prop in Ea as [Ea El].
  cbn [exec] in H. destruct (sstep _ _ _ _ _ _ (ws w) (SDock i (HNet p true) [])) as [s1|] eqn:E1; [|discriminate].
  destruct (sstep _ _ _ _ _ _ s1 (SDock i (LConnected (peers w i)) [])) as [s2|] eqn:E2; [|discriminate]. injection H as <-.
  eexists. split; [reflexivity|]. split; [destruct (zlist_eqb_spec addr (hostport (machine raddr j) m)); auto; discriminate|]. split; auto. split; [reflexivity|].
  destruct (dock_moves _ _ _ _ _ _ _ E2) as (d & es & Ed & _ & Es & _). cbn [ws with_sys]. rewrite Es, updp_same. apply dstep_tr in Ed as [_ T]. apply (connected_tr _ _ _ T).
Qed.
Definition joined n i f := exists p j q, ends (r n) i p = ToDock j q /\ carries (carried j) f true /\ meeting (ws (r n)) i p j q f.
Definition joins n i f := exists m, n <= m /\ joined m i f.
Lemma joins_from n m i f : n <= m -> joins m i f -> joins n i f.
Proof. intros L (k & Lk & X). exists k. split; [lia|auto]. Qed.
Lemma dial_joins n i p a f : handlers (dk n i) p = ADial a -> leads (listeners (r n)) a f -> joins n i f.
Proof.
  intros H Ld. apply (until (fun k => handlers (dk k i) p = ADial a) (fun k => joined k i f)); auto.
  - intros k L Hk. destruct (dock_next k i) as [[E _]|(l & es & d1 & x & D)]; [left; congruence|].
    destruct (dial_step _ _ _ _ _ (dn_tr _ _ _ _ _ _ _ _ _ D) (dn_alive _ _ _ _ _ _ _ _ _ D) Hk) as [H'| ->]; [left; rewrite (dn_new _ _ _ _ _ _ _ _ _ D); exact H'|right].
    destruct (dn_lab _ _ _ _ _ _ _ _ _ D) as (wl & El & Sh). destruct (seen k) as [[X _]|(wl' & X & St & Vw)]; [congruence|]. assert (wl' = wl) as -> by congruence.
    destruct Sh as [->|(j & m & ->)]; [exfalso; cbn in St; rewrite Hk in St; discriminate|].
    assert (Wk := Wi k). destruct (reached k) as (ls & R & _).
    destruct (connected_now _ _ _ _ _ _ St) as (a0 & Hh0 & Ha & Hl & Hw & Ia). rewrite Hk in Hh0. injection Hh0 as ->. subst a0.
    destruct (join_ends carried carry raddr i j (r k) Wk) as (_ & _ & _ & Ej & _). cbv zeta in Ej.
    eexists _, j, _. rewrite Hw. split; [exact Ej|]. split.
    + eapply leads_to; [exact R|apply Hh| |reflexivity|exact Hl]. eapply leads_more; [apply listeners_stay, L|exact Ld].
    + left. exact Ia.
  - destruct (handler_idles n i p) as (m & L & E). exists m. split; auto. congruence.
Qed.
Lemma told_joins n i f : told carried raddr r n i f -> joins n i f.
Proof.
  intros (m & a & L & I & Ld). destruct (received _ _ _ _ I) as (m' & es & d1 & x & L' & D). apply (joins_from n (S m')); [lia|]. apply (dial_joins (S m') i 0 a).
  - rewrite (dn_new _ _ _ _ _ _ _ _ _ D). cbn [handlers with_announcers]. assert (T := dn_tr _ _ _ _ _ _ _ _ _ D). inversion T; subst; proj; [now rewrite updp_same|contradiction].
  - eapply leads_more; [apply (listeners_stay m); lia|exact Ld].
Qed.
Lemma seek_joins n i f km : In (HubModel.EMark f km) (hl n) -> seeking n i f -> joins n i f.
Proof.
  intros Mk [K|t K|a K Ld|p a K Ld|p j q Le Cf K].
  - destruct (hreceived _ _ _ K) as (m & L & St). apply (joins_from n (S m)); [lia|]. apply told_joins. apply (query_told (length (hl m)) i f km); [eapply hevent_stays; [|exact Mk]; lia|left].
    unfold HubModel.hstep in St. rewrite (h_hub _ (Hh m)) in St. destruct (HubModel.handlers (hb m) i); try discriminate. injection St as St. rewrite <- St. cbn. now rewrite updp_same.
  - apply told_joins. eapply query_told; eauto.
  - apply told_joins. exists n, a. auto.
  - eapply dial_joins; eauto.
  - exists n. split; auto. exists p, j, q. auto.
Qed.

(* connections bring announcements *)
Lemma ready_comes n i p ns : In (KReady ns) (wire (ws (r n)) i p) -> exists m, n <= m /\ handlers (dk m i) p = RNext ns.
Proof.
  intros I. destruct (received _ _ _ _ I) as (m & es & d1 & x & L & D). exists (S m). split; [lia|].
  rewrite (dn_new _ _ _ _ _ _ _ _ _ D). cbn [handlers with_announcers]. assert (T := dn_tr _ _ _ _ _ _ _ _ _ D). inversion T; subst; proj; [now rewrite updp_same|contradiction].
Qed.
Definition ready_at m i p f := exists ns, handlers (dk m i) p = RNext ns /\ In f ns.
Lemma gsend_comes n i p j q f sl : ends (r n) i p = ToDock j q -> carries (carried j) f true -> handlers (dk n j) q = GSend sl -> exists m, n <= m /\ ready_at m i p f.
Proof.
  intros E Cf H. destruct (until (fun k => handlers (dk k j) q = GSend sl) (fun k => exists ns, In (KReady ns) (wire (ws (r k)) i p) /\ In f ns) n) as (m & L & ns & I & Hf); auto.
  - intros k L Hk. destruct (dock_next k j) as [[Eq _]|(l & es & d1 & x & D)]; [left; congruence|].
    destruct (gsend_step _ _ _ _ _ _ (dn_tr _ _ _ _ _ _ _ _ _ D) (dn_hist1 _ _ _ _ _ _ _ _ _ D) Hk) as [H'|(ns & acc & _ & Is & Ro)]; [left; rewrite (dn_new _ _ _ _ _ _ _ _ _ D); exact H'|right].
    exists ns. assert (acc = true) as -> by (eapply step_send; eauto). split; [|eapply collected_all; eauto].
    eapply (dn_sent _ _ _ _ _ _ _ _ _ D q (KReady ns)); eauto. apply (wireds k). rewrite (ends_stay n k) by (auto; congruence). exact E.
  - destruct (handler_idles n j q) as (m & L & X). exists m. split; auto. congruence.
  - destruct (ready_comes _ _ _ _ I) as (m' & L' & X). exists m'. split; [lia|]. exists ns. auto.
Qed.
Lemma register_comes n i p j q f ns : ends (r n) i p = ToDock j q -> carries (carried j) f true -> In (KRegister ns) (wire (ws (r n)) j q) -> exists m, n <= m /\ ready_at m i p f.
Proof.
  intros E Cf I. destruct (received _ _ _ _ I) as (m & es & d1 & x & L & D). destruct (gsend_comes (S m) i p j q f ns) as (m' & L' & X); auto.
  - rewrite (ends_stay n) by (auto; congruence). exact E.
  - rewrite (dn_new _ _ _ _ _ _ _ _ _ D). cbn [handlers with_announcers]. assert (T := dn_tr _ _ _ _ _ _ _ _ _ D). inversion T; subst; proj; [now rewrite updp_same|contradiction].
  - exists m'. split; [lia|auto].
Qed.
Lemma joined_ready n i f : joined n i f -> exists m p, n <= m /\ ready_at m i p f.
Proof.
  intros (p & j & q & E & Cf & K). assert (X : exists m, n <= m /\ ready_at m i p f); [|destruct X as (m & X); exists m, p; auto].
  destruct K as [K|[[ns K]|[[sl K]|(ns & K & Kf)]]].
  - destruct (announced _ _ _ K) as (m & l & es & d1 & x & ns & L & D & Is & _). destruct (register_comes (S m) i p j q f ns) as (m' & L' & X); auto.
    + rewrite (ends_stay n) by (auto; congruence). exact E.
    + eapply (dn_sent _ _ _ _ _ _ _ _ _ D p (KRegister ns)); eauto. rewrite (ends_stay n) by (auto; congruence). exact E.
    + exists m'. split; [lia|auto].
  - eapply register_comes; eauto.
  - eapply gsend_comes; eauto.
  - destruct (ready_comes _ _ _ _ K) as (m & L & X). exists m. split; auto. exists ns. auto.
Qed.
Lemma announces n j q i p f : ends (r n) j q = ToDock i p -> carries (carried j) f true -> exists m ns, n <= m /\ In (ESend q (KRegister ns) true) (hist (dk m j)) /\ In f ns.
Proof.
  intros E Cf.
  assert (Old : forall m b, In (q, b) (announcers (dk m j)) -> exists m' ns, m <= m' /\ In (ESend q (KRegister ns) true) (hist (dk m' j)) /\ In f ns).
  { intros m [] I.
    - destruct (drun m j) as [lj Lj]. destruct (announced_sent _ _ _ _ Lj I) as (ns & acc & Is). assert (acc = true) as -> by (eapply taken_send; eauto). exists m, ns. split; auto. split; auto.
      destruct (in_split _ _ Is) as (y & z & Ez). destruct (announce_event _ _ _ _ _ _ ns _ _ Lj Ez (or_introl eq_refl)) as [An1 _].
      apply An1; auto. intros Y. apply (h_open _ (Hh m) j). unfold cleared in *. rewrite Ez. apply in_or_app. auto.
    - destruct (announced _ _ _ I) as (m' & l & es & d1 & x & ns & L & D & Is & Ro). exists (S m'), ns. split; [lia|]. split; [|eapply collected_all; eauto].
      rewrite (dn_hist _ _ _ _ _ _ _ _ _ D). apply in_or_app. auto. }
  destruct (greeted _ _ _ _ _ E) as [_|[b I]]; [|eauto].
  destruct (accepted_by n j q) as (m & L & B). assert (E' : ends (r m) j q = ToDock i p) by (rewrite (ends_stay n) by (auto; congruence); exact E).
  destruct (greeted _ _ _ _ _ E') as [X|[b I]]; [contradiction|]. destruct (Old _ _ I) as (m' & ns & L' & X). exists m', ns. split; [lia|auto].
Qed.
Lemma joined_cached n i f : joined n i f -> exists m p, n <= m /\ In (ECached f p) (hist (dk m i)).
Proof.
  intros (p & j & q & E & Cf & _). assert (E' := E). apply (wireds n) in E'. destruct (announces _ _ _ _ _ f E' Cf) as (m & ns & L & Is & Hf).
  destruct (arrives_later m i p j q (KRegister ns) (KRegister ns) Is) as (m1 & L1 & Ir); [rewrite (ends_stay n) by (auto; congruence); exact E|reflexivity|].
  destruct (handler_idles m1 i p) as (m2 & L2 & Hi). destruct (drun m2 i) as [li Li]. exists m2, p. split; [lia|]. apply (registered_cached _ _ _ _ ns _ Li); auto. eapply event_stays; eauto.
Qed.
Lemma cached_known n i f p : In (ECached f p) (hist (dk n i)) -> remote (dk n i) f <> None.
Proof. intros I E. destruct (drun n i) as [li Li]. assert (C := cache_inv _ _ _ Li f). rewrite E in C. exact (C _ I). Qed.

(* waiting calls *)
Section Waiting.
Variables (i c : nat) (q : request V).
Notation pends n := (pending (dk n i) c q).
Lemma pends_dec n : In (ENew c q) (hist (dk n i)) -> pends n \/ ~ pends n.
Proof. destruct (drun n i) as [li Li]. eapply pending_dec; eauto. Qed.
Lemma staged n p : In (ENew c q) (hist (dk n i)) -> pends n -> stage (q_slot q) c (q_index q) (handlers (dk n i) p) ->
  exists m, n <= m /\ (~ pends m \/ exists k, m = S k /\ n <= k /\ remote (dk k i) (q_slot q) = None /\ In (HubModel.PQuery (q_slot q)) (hwire (ws (r m)) i)).
Proof.
  intros Nq P0 S0. apply (until (fun k => pends k /\ stage (q_slot q) c (q_index q) (handlers (dk k i) p))
    (fun m => ~ pends m \/ exists k, m = S k /\ n <= k /\ remote (dk k i) (q_slot q) = None /\ In (HubModel.PQuery (q_slot q)) (hwire (ws (r m)) i))); auto.
  - intros k L [Pk Sk]. destruct (pends_dec (S k)) as [Pn|Pn]; [eapply event_stays; [|exact Nq]; lia| |auto].
    destruct (dock_next k i) as [[E _]|(l & es & d1 & x & D)]; [left; rewrite E; auto|].
    assert (Pd : pending d1 c q) by (rewrite (dn_new _ _ _ _ _ _ _ _ _ D) in Pn; exact Pn).
    destruct (stage_step _ _ _ _ _ _ _ (dn_tr _ _ _ _ _ _ _ _ _ D) (dn_hist1 _ _ _ _ _ _ _ _ _ D) (dn_alive _ _ _ _ _ _ _ _ _ D) Pk Pd Sk) as [S'|[s Is]].
    + left. split; auto. rewrite (dn_new _ _ _ _ _ _ _ _ _ D). exact S'.
    + right. right. exists k. split; auto. split; auto. split; [eapply query_unknown; [apply (dn_tr _ _ _ _ _ _ _ _ _ D)|apply (dn_hist1 _ _ _ _ _ _ _ _ _ D)|exact Is]|].
      assert (s = DockModel.SHub) as ->. { apply (h_asked _ (Hh (S k)) i s (q_slot q)). rewrite (dn_hist _ _ _ _ _ _ _ _ _ D). apply in_or_app. auto. }
      apply (dn_asked _ _ _ _ _ _ _ _ _ D _ Is).
  - destruct (handler_idles n i p) as (m & L & E). exists m. split; auto. rewrite E. intros [_ []].
Qed.
Lemma pends_joins n km : In (ENew c q) (hist (dk n i)) -> In (HubModel.EMark (q_slot q) km) (hl n) -> pends n -> exists m, n <= m /\ (~ pends m \/ joined m i (q_slot q)).
Proof.
  intros Nq Mk P. destruct (reached n) as (ls & R & Nl).
  destruct (all_sought _ _ _ _ _ _ R Nl (Hh n) i c q P) as [Sk|[p Sk]].
  - destruct (seek_joins _ _ _ _ Mk Sk) as (m & L & J). exists m. auto.
  - destruct (staged n p Nq P Sk) as (m & L & [X|(k & -> & Lk & _ & X)]); [exists m; auto|].
    destruct (seek_joins (S k) i (q_slot q) km) as (m & L' & J); [eapply hevent_stays; eauto|apply sk_asked; exact X|]. exists m. split; [lia|auto].
Qed.
Lemma pends_ends n km : In (ENew c q) (hist (dk n i)) -> In (HubModel.EMark (q_slot q) km) (hl n) -> exists m, n <= m /\ ~ pends m.
Proof.
  intros Nq Mk. assert (Nq' : forall m, n <= m -> In (ENew c q) (hist (dk m i))) by (intros; eapply event_stays; eauto).
  assert (Mk' : forall m, n <= m -> In (HubModel.EMark (q_slot q) km) (hl m)) by (intros; eapply hevent_stays; eauto).
  assert (Again : forall m, n <= m -> exists m', m <= m' /\ (~ pends m' \/ joined m' i (q_slot q))).
  { intros m L. destruct (pends_dec m (Nq' m L)) as [P|P]; [eapply pends_joins; eauto|exists m; auto]. }
  destruct (Again n (le_n n)) as (m1 & L1 & [X|J1]); [eauto|]. destruct (joined_cached _ _ _ J1) as (m2 & p & L2 & C).
  destruct (Again m2 ltac:(lia)) as (m3 & L3 & [X|J3]); [exists m3; split; [lia|auto]|]. destruct (joined_ready _ _ _ J3) as (m4 & p' & L4 & ns & Hr & Hf).
  destruct (pends_dec m4 (Nq' m4 ltac:(lia))) as [P|P]; [|exists m4; split; [lia|auto]].
  destruct (staged m4 p' (Nq' m4 ltac:(lia)) P) as (m5 & L5 & [X|(k & -> & Lk & X & _)]); [rewrite Hr; exact Hf|exists m5; split; [lia|auto]|].
  exfalso. apply (cached_known k i (q_slot q) p); auto. eapply event_stays; [|exact C]. lia.
Qed.
End Waiting.
End Live.
