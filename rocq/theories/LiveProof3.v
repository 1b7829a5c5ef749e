(* Endless runs: receive routines of the hub become idle, its packets are received, docks that have dialled it are marked and queries get answers. *)
From Verif Require Import Lts GoVal Tables DockModel DockSpec DockProof DockProof2 DockProof3 DockProof4 DockProof9 SysModel SysSpec SysProof SysProof2 SysProof3 WorldModel WorldSpec WorldProof WorldProof2 WorldProof3 WorldProof4 WorldProof5 LiveSpec LiveProof LiveProof2.
From Verif Require HubModel HubSpec HubProof HubProof2 HubProof3 HubProof4.
From Coq Require Import Arith Bool List ZArith Lia.
Import ListNotations.
Open Scope nat_scope.

Section Dock.
Context {V : Type}.
Implicit Types d : dock V.
Lemma announce_nth d l d' es y p : tr V d l d' -> hist d' = hist d ++ es -> nth_error (announcers d) y = Some (p, false) ->
  (nth_error (announcers d') y = Some (p, false) /\ forall ns acc, l <> LAnnounce y ns acc) \/
  exists ns acc, l = LAnnounce y ns acc /\ In (ESend p (KRegister ns) acc) es /\ reorders ns (collected d) = true.
Proof.
  intros T G H. destruct T; proj; try (left; split; [exact H|discriminate]).
  - left. split; [apply nth_app, H|discriminate].
  - destruct (Nat.eq_dec y j) as [->|N]; [right|left; split; [rewrite set_nth_other; auto|congruence]].
    apply app_inv_head in G. subst es. assert (p0 = p) as -> by congruence. exists ns, acc. repeat split; auto. now left.
Qed.
End Dock.

Section Live.
Context {V : Type}.
Variables (carried : nat -> list (name * bool)).
Variable carry : nat -> nat -> list V -> option (list V).
Variables (black : list Z) (raddr : nat -> name).
Variables (r : nat -> world V) (lab : nat -> option (wlab V)).
Hypothesis Run : endless carried carry black raddr r lab.
Hypothesis Fair : fair carry black raddr r lab.
Hypothesis Calm : undisturbed r lab.
Hypothesis Range : ranges_end r.
Notation wstep := (wstep carry black raddr).
Notation dk n i := (sd (ws (r n)) i).
Notation hb n := (sh (ws (r n))).
Notation hl n := (HubModel.hist (sh (ws (r n)))).
Notation taken T n := (exists l, lab n = Some l /\ of_task T l).
Notation dnext := (dnext carry r lab).
Let Hh := Hh r lab Calm.
Let alive := alive r lab Calm.
Let Wi := Wi carried carry black raddr r lab Run Calm.
Let Ok := Ok carried carry black raddr r lab Run Calm.
Let drun := drun carried carry black raddr r lab Run Calm.
Let hrun := hrun carried carry black raddr r lab Run Calm.
Let seen := seen carried carry black raddr r lab Run Calm.
Let lead := lead carry black raddr r lab Fair.
Let dock_next := dock_next carried carry black raddr r lab Run Calm.
Let hub_next := hub_next carried carry black raddr r lab Run Calm.
Let rest_next := rest_next carried carry black raddr r lab Run Calm.
Let ends_stay := ends_stay carried carry black raddr r lab Run Calm.
Let listeners_stay := listeners_stay carried carry black raddr r lab Run Calm.
Let hist_stay := hist_stay carried carry black raddr r lab Run Calm.
Let event_stays := event_stays carried carry black raddr r lab Run Calm.
Let hhist_stay := hhist_stay carried carry black raddr r lab Run Calm.
Let hevent_stays := hevent_stays carried carry black raddr r lab Run Calm.
Let wire_next := wire_next carried carry black raddr r lab Run Calm.
Let hwire_next := hwire_next carried carry black raddr r lab Run Calm.
Let handler_next := handler_next carried carry black raddr r lab Run Calm.
Let handler_idles := handler_idles carried carry black raddr r lab Run Fair Calm Range.
Let handler_goes := handler_goes carried carry black raddr r lab Run Fair Calm Range.
Let accepted_by := accepted_by carried carry black raddr r lab Run Fair Calm.
Let greeted := greeted carried carry black raddr r lab Run Calm.
Let received := received carried carry black raddr r lab Run Fair Calm Range.
Notation hmoves n l es := (hmove black raddr (ws (r n)) l es (ws (r (S n)))).

Lemma hshown_inv l l' (wl : wlab V) : hshown wl (HubModel.HStep l) -> hshown wl l' -> l' = HubModel.HStep l.
Proof. cbn. intros ->. destruct l'; cbn; congruence. Qed.
Lemma hshown_query t l' (wl : wlab V) : hshown wl (HubModel.QStep t) -> hshown wl l' -> l' = HubModel.QStep t.
Proof. cbn. intros ->. destruct l'; cbn; congruence. Qed.
Lemma hub_inv n : HubProof2.inv raddr (hb n) /\ HubProof3.marks (hb n) /\ HubProof3.qinv raddr (hb n).
Proof. destruct (hrun n) as [ls L]. eapply HubProof3.qinv_exec; eauto. Qed.
Lemma hub_scans n h : HubProof4.scan_ok (hl n) h (HubModel.handlers (hb n) h).
Proof.
  destruct (hrun n) as [ls L]. cut (HubProof2.inv raddr (hb n) /\ HubProof4.scans (hb n)); [intros [_ S]; apply (HubProof4.sc_scan _ S)|].
  revert L. apply (exec_inv (HubModel.hstep black raddr) (fun s => HubProof2.inv raddr s /\ HubProof4.scans s)).
  - intros a l b [I R] H. split; [eapply HubProof2.inv_step; eauto|eapply HubProof4.scans_step; eauto].
  - split; [apply HubProof2.inv_init|]. constructor; [intros p; exact I|intros f k []].
Qed.

(* receive routines *)
Lemma hub_handler_next n h : HubModel.handlers (hb n) h <> HubModel.HIdle ->
  (HubModel.handlers (hb (S n)) h = HubModel.handlers (hb n) h /\ ~ taken (THub h) n) \/ exists es, hmoves n (HubModel.HStep h) es.
Proof.
  intros Ni. destruct (hub_next n) as [[E Ns]|(l & es & wl & M & El & Sh)].
  - left. rewrite E. split; auto. intros (wl & El & ->). exact (Ns _ (HubModel.HStep h) El eq_refl).
  - assert (D : l = HubModel.HStep h \/ l <> HubModel.HStep h) by (destruct l; try (right; discriminate); destruct (Nat.eq_dec p h) as [->|]; [left; auto|right; congruence]).
    destruct D as [->|Nl]; [right; eauto|left]. split.
    + apply (hstep_handler _ _ _ _ _ _ (hm_step _ _ _ _ _ _ M)); auto. intros k ->. assert (St := hm_step _ _ _ _ _ _ M). unfold HubModel.hstep in St.
      destruct (HubModel.halted _); [discriminate|]. destruct (HubModel.handlers (hb n) h); congruence || discriminate.
    + intros (wl' & El' & ->). rewrite El in El'. injection El' as ->. apply Nl. eapply hshown_inv; eauto. reflexivity.
Qed.
Lemma hub_enabled n h : HubModel.handlers (hb n) h <> HubModel.HIdle -> ~ resting carry black raddr (THub h) (r n).
Proof.
  intros Ni R. destruct (hub_inv n) as (Iv & _). assert (K := HubProof2.i_handler _ _ Iv h). specialize (R _ eq_refl). cbn in R. unfold hub_step, HubModel.hstep in R.
  rewrite (h_hub _ (Hh n)) in R. destruct (HubModel.handlers (hb n) h) as [|t sl|t host m [|f sl]|t [|f sl]|t f i sl|t f i sl] eqn:E; try congruence; try discriminate R.
  - destruct (HubModel.allocate _ _); discriminate.
  - destruct K as (_ & _ & _ & _ & L & _). destruct (nth_error (HubModel.docks (hb n) f) i) eqn:En; [destruct (_ =? _); discriminate|].
    apply nth_error_None in En. lia.
Qed.
Lemma hub_goes n h c : HubModel.handlers (hb n) h = c -> c <> HubModel.HIdle -> exists m es, n <= m /\ HubModel.handlers (hb m) h = c /\ hmoves m (HubModel.HStep h) es.
Proof.
  intros E Nc. destruct (lead (THub h) (fun k => HubModel.handlers (hb k) h = c) (fun k => exists m es, n <= m /\ HubModel.handlers (hb m) h = c /\ hmoves m (HubModel.HStep h) es) n) as (_ & _ & X); auto.
  - intros k L Ek. destruct (hub_handler_next k h) as [[E' Nt]|(es & M)]; [congruence|right; split; auto; congruence|left; exists k, es; auto].
  - intros k L Ek. apply hub_enabled. congruence.
Qed.
Lemma ready_registered n h sl f : In (HubModel.ERecv h (HubModel.PReady sl)) (hl n) -> In f sl -> In h (HubSpec.registrants f (hl n)).
Proof.
  intros H Hf. assert (O := Ok n). assert (K0 := hub_known _ h (Wi n)).
  destruct (hub_in _ _ _ _ _ _ _ _ O _ _ (or_introl H)) as (i & p & Eh & Fm). injection Eh as <- <-. cbn in Fm.
  destruct (drun n h) as [li Li].
  assert (Cf : carries (carried h) f true).
  { destruct (in_split _ _ Fm) as (y & z & Ez). destruct (announce_event _ _ _ _ _ _ sl _ _ Li Ez (or_intror eq_refl)) as [An1 An2].
    apply An1; auto. intros X. apply An2 in X as ->. destruct Hf. }
  destruct (ready_after _ _ _ _ _ _ Li Fm) as [[sl0 X]|(m & X & _)]; pose proof (came_from _ _ _ _ _ _ _ _ _ _ _ O X) as C; rewrite K0 in C.
  { apply hub_packets in C as [[? C]|[? C]]; discriminate. }
  assert (Rn : In m (HubSpec.replies h (hl n))).
  { unfold hub_out in C. apply in_flat_map in C as (e & He & Hk). unfold HubSpec.replies. apply in_flat_map. exists e. split; auto.
    destruct e; cbn in Hk; try (destruct Hk; fail); (destruct (p =? h); [|destruct Hk]; destruct Hk as [Hk|[]]); [|discriminate]. injection Hk as ->. now left. }
  destruct (hrun n) as [lh Lh]. destruct (HubProof4.recorded_before_reply _ _ _ _ h Lh) as (more & Rc & _).
  assert (Rq : exists sl1, In (HubModel.ERecv h (HubModel.PRegister sl1)) (hl n) /\ forall g, In g sl1 -> exists p, In (g, p) (HubSpec.records (HubSpec.requests h (hl n)) (HubSpec.replies h (hl n)))).
  { assert (Lq : HubSpec.requests h (hl n) <> []).
    { assert (Rg := HubProof4.regs_exec _ _ _ _ Lh h). unfold HubProof4.reg_ok in Rg. intros E0. rewrite E0 in Rg. assert (L0 : length (HubSpec.replies h (hl n)) > 0) by (destruct (HubSpec.replies h (hl n)); [destruct Rn|cbn; lia]).
      destruct (HubModel.handlers (hb n) h).
      - destruct Rg as (R1 & R2 & _). rewrite R2 in R1. cbn in R1. lia.
      - destruct Rg as (l & R1 & _). destruct l; discriminate.
      - destruct Rg as (l & g & R1 & R2 & R3 & _). destruct l; discriminate.
      - destruct Rg as (R1 & R2 & _). rewrite R2 in R1. cbn in R1. lia.
      - destruct Rg as (R1 & R2 & _). rewrite R2 in R1. cbn in R1. lia.
      - destruct Rg as (R1 & R2 & _). rewrite R2 in R1. cbn in R1. lia. }
    destruct (HubSpec.requests h (hl n)) as [|sl1 rest] eqn:Eq; [congruence|]. exists sl1. split.
    - assert (In sl1 (HubSpec.requests h (hl n))) as I1 by (rewrite Eq; now left). unfold HubSpec.requests in I1. apply in_flat_map in I1 as (e & He & Hk).
      destruct e as [p []| | | | | | |]; try destruct Hk. destruct (Nat.eqb_spec p h) as [->|]; [|destruct Hk]. destruct Hk as [->|[]]. exact He.
    - intros g Hg. destruct (HubSpec.replies h (hl n)) as [|p0 ps]; [destruct Rn|]. exists p0. unfold HubSpec.records. cbn. apply in_or_app. left. apply in_map_iff. exists g. auto. }
  destruct Rq as (sl1 & Rq & Ra).
  assert (F1 : In f sl1).
  { destruct (hub_in _ _ _ _ _ _ _ _ O _ _ (or_introl Rq)) as (i & p & Eh & Fr). injection Eh as <- <-. cbn in Fr.
    destruct (in_split _ _ Fr) as (y & z & Ez). destruct (announce_event _ _ _ _ _ _ sl1 _ _ Li Ez (or_introl eq_refl)) as [An1 _].
    apply An1; auto. intros Y. apply (h_open _ (Hh n) h). unfold cleared in *. rewrite Ez. apply in_or_app. auto. }
  destruct (Ra _ F1) as (p1 & R1). assert (R2 : In (f, p1) (HubSpec.recorded h (hl n))) by (rewrite Rc; apply in_or_app; auto).
  unfold HubSpec.recorded in R2. apply in_flat_map in R2 as (e & He & Hk). unfold HubSpec.registrants, HubSpec.registrations. apply in_map_iff.
  destruct e; try destruct Hk. destruct (Nat.eqb_spec p h) as [->|]; [|destruct Hk]. destruct Hk as [[= -> ->]|[]]. exists (h, host, p1). split; auto.
  apply in_flat_map. eexists. split; [exact He|]. cbn. destruct (zlist_eqb_spec f f); [now left|congruence].
Qed.
Lemma registrants_stay n m f h k : n <= m -> nth_error (HubSpec.registrants f (hl n)) k = Some h -> nth_error (HubSpec.registrants f (hl m)) k = Some h.
Proof. intros L H. destruct (hhist_stay n m L) as (es & ->). rewrite HubProof4.registrants_app. apply nth_app, H. Qed.

Lemma push_idles h : forall todo n t host port, HubModel.handlers (hb n) h = HubModel.RPush t host port todo -> exists m, n <= m /\ HubModel.handlers (hb m) h = HubModel.HIdle.
Proof.
  induction todo as [|f todo IH]; intros n t host port E; destruct (hub_goes _ _ _ E ltac:(discriminate)) as (m & es & L & Em & M); assert (St := hm_step _ _ _ _ _ _ M);
    unfold HubModel.hstep in St; rewrite (h_hub _ (Hh m)), Em in St; injection St as St.
  - exists (S m). split; [lia|]. rewrite <- St. cbn. apply updp_same.
  - destruct (IH (S m) t host port) as (m' & L' & E'); [rewrite <- St; cbn; apply updp_same|]. exists m'. split; [lia|auto].
Qed.
Lemma alloc_goes h n t sl : HubModel.handlers (hb n) h = HubModel.RAlloc t sl -> exists m port, n <= m /\ HubModel.handlers (hb m) h = HubModel.RPush t (HubModel.pickIP (raddr h)) port sl.
Proof.
  intros E. destruct (hub_goes _ _ _ E ltac:(discriminate)) as (m & es & L & Em & M). assert (St := hm_step _ _ _ _ _ _ M). destruct (hrun m) as [lh Lh].
  destruct (HubProof4.search_ends _ _ _ _ _ _ _ Lh (h_hub _ (Hh m)) Em) as (s' & Es & X). rewrite St in Es. injection Es as <-.
  destruct X as [X|(port & X)]; [rewrite (h_hub _ (Hh (S m))) in X; discriminate|]. exists (S m). unfold HubModel.hstep in St. rewrite (h_hub _ (Hh m)), Em in St.
  destruct (HubModel.allocate _ _) as [p| |]; injection St as St.
  - exists p. split; [lia|]. rewrite <- St. cbn. apply updp_same.
  - assert (Y := h_hub _ (Hh (S m))). rewrite <- St in Y. discriminate.
  - exfalso. rewrite <- St in X. rewrite <- (app_nil_r (hl m)) in X at 1. apply app_inv_head in X. discriminate.
Qed.
Lemma scan_ends h k t f todo : forall v n i, (HubModel.handlers (hb n) h = HubModel.YScan t f i todo \/ HubModel.handlers (hb n) h = HubModel.YAdv t f i todo) ->
  nth_error (HubSpec.registrants f (hl n)) k = Some h -> k <= i + v -> exists m, n <= m /\ HubModel.handlers (hb m) h = HubModel.YNext t todo.
Proof.
  assert (Adv : forall v, (forall n i, HubModel.handlers (hb n) h = HubModel.YScan t f i todo -> nth_error (HubSpec.registrants f (hl n)) k = Some h -> k <= i + v -> exists m, n <= m /\ HubModel.handlers (hb m) h = HubModel.YNext t todo) ->
    forall n i, HubModel.handlers (hb n) h = HubModel.YAdv t f i todo -> nth_error (HubSpec.registrants f (hl n)) k = Some h -> k <= i + S v -> exists m, n <= m /\ HubModel.handlers (hb m) h = HubModel.YNext t todo).
  { intros v IH n i E Hk Le. destruct (hub_goes _ _ _ E ltac:(discriminate)) as (m & es & L & Em & M). assert (St := hm_step _ _ _ _ _ _ M).
    unfold HubModel.hstep in St. rewrite (h_hub _ (Hh m)), Em in St. injection St as St. destruct (Nat.ltb_spec (S i) (length (HubModel.docks (hb m) f))).
    - destruct (IH (S m) (S i)) as (m' & L' & E'); [rewrite <- St; cbn; apply updp_same|apply (registrants_stay n); auto|lia|]. exists m'. split; [lia|auto].
    - exists (S m). split; [lia|]. rewrite <- St. cbn. apply updp_same. }
  assert (Scan : forall v, (forall n i, HubModel.handlers (hb n) h = HubModel.YAdv t f i todo -> nth_error (HubSpec.registrants f (hl n)) k = Some h -> k <= i + v -> exists m, n <= m /\ HubModel.handlers (hb m) h = HubModel.YNext t todo) ->
    forall n i, HubModel.handlers (hb n) h = HubModel.YScan t f i todo -> nth_error (HubSpec.registrants f (hl n)) k = Some h -> k <= i + v -> exists m, n <= m /\ HubModel.handlers (hb m) h = HubModel.YNext t todo).
  { intros v IH n i E Hk Le. destruct (hub_goes _ _ _ E ltac:(discriminate)) as (m & es & L & Em & M). assert (St := hm_step _ _ _ _ _ _ M).
    unfold HubModel.hstep in St. rewrite (h_hub _ (Hh m)), Em in St. destruct (nth_error (HubModel.docks (hb m) f) i) as [st|]; [|discriminate].
    destruct (_ =? h); injection St as St.
    - exists (S m). split; [lia|]. rewrite <- St. cbn. apply updp_same.
    - destruct (IH (S m) i) as (m' & L' & E'); [rewrite <- St; cbn; apply updp_same|apply (registrants_stay n); auto|lia|]. exists m'. split; [lia|auto]. }
  assert (Z : forall n i, HubModel.handlers (hb n) h = HubModel.YAdv t f i todo -> nth_error (HubSpec.registrants f (hl n)) k = Some h -> k <= i + 0 -> exists m, n <= m /\ HubModel.handlers (hb m) h = HubModel.YNext t todo).
  { intros n i E Hk Le. exfalso. assert (Sc := hub_scans n h). rewrite E in Sc. cbn in Sc. apply (Sc k); auto. lia. }
  induction v as [|v IH]; intros n i [E|E] Hk Le.
  - eapply (Scan 0); eauto.
  - eapply Z; eauto.
  - apply (Scan (S v)) with (i := i); auto. apply Adv. intros n1 i1 E1. apply IH. auto.
  - apply (Adv v) with (i := i); auto. intros n1 i1 E1. apply IH. auto.
Qed.
Lemma next_idles h t : forall todo n, HubModel.handlers (hb n) h = HubModel.YNext t todo -> exists m, n <= m /\ HubModel.handlers (hb m) h = HubModel.HIdle.
Proof.
  induction todo as [|f todo IH]; intros n E; destruct (hub_goes _ _ _ E ltac:(discriminate)) as (m & es & L & Em & M); assert (St := hm_step _ _ _ _ _ _ M);
    unfold HubModel.hstep in St; rewrite (h_hub _ (Hh m)), Em in St; injection St as St.
  - exists (S m). split; [lia|]. rewrite <- St. cbn. apply updp_same.
  - assert (X : HubModel.handlers (hb (S m)) h = HubModel.YNext t todo \/ HubModel.handlers (hb (S m)) h = HubModel.YScan t f 0 todo).
    { rewrite <- St. cbn. rewrite updp_same. destruct (HubModel.docks (hb m) f); auto. }
    destruct X as [X|X]; [destruct (IH _ X) as (m' & L' & E'); exists m'; split; [lia|auto]|].
    assert (Rg : In h (HubSpec.registrants f (hl (S m)))).
    { destruct (hub_inv (S m)) as (Iv & _). assert (K := HubProof2.i_handler _ _ Iv h). rewrite X in K. destruct K as (sl & K1 & _ & K2 & _).
      eapply ready_registered; eauto. eapply nth_error_In; eauto. }
    apply In_nth_error in Rg as [k Hk]. destruct (scan_ends h k t f todo k (S m) 0 (or_introl X) Hk ltac:(lia)) as (m1 & L1 & E1).
    destruct (IH _ E1) as (m' & L' & E'). exists m'. split; [lia|auto].
Qed.
Lemma hub_idles n h : exists m, n <= m /\ HubModel.handlers (hb m) h = HubModel.HIdle.
Proof.
  destruct (HubModel.handlers (hb n) h) as [|t sl|t host m sl|t sl|t f i sl|t f i sl] eqn:E.
  - exists n. auto.
  - destruct (alloc_goes _ _ _ _ E) as (m & port & L & Em). destruct (push_idles _ _ _ _ _ _ Em) as (m' & L' & E'). exists m'. split; [lia|auto].
  - eapply push_idles; eauto.
  - eapply next_idles; eauto.
  - assert (Rg : In h (HubSpec.registrants f (hl n))).
    { destruct (hub_inv n) as (Iv & _). assert (K := HubProof2.i_handler _ _ Iv h). rewrite E in K. destruct K as (sl' & K1 & _ & K2 & _).
      eapply ready_registered; eauto. eapply nth_error_In; eauto. }
    apply In_nth_error in Rg as [k Hk]. destruct (scan_ends h k t f sl k n i (or_introl E) Hk ltac:(lia)) as (m1 & L1 & E1).
    destruct (next_idles _ _ _ _ E1) as (m' & L' & E'). exists m'. split; [lia|auto].
  - assert (Rg : In h (HubSpec.registrants f (hl n))).
    { destruct (hub_inv n) as (Iv & _). assert (K := HubProof2.i_handler _ _ Iv h). rewrite E in K. destruct K as (sl' & K1 & _ & K2 & _).
      eapply ready_registered; eauto. eapply nth_error_In; eauto. }
    apply In_nth_error in Rg as [k Hk]. destruct (scan_ends h k t f sl k n i (or_intror E) Hk ltac:(lia)) as (m1 & L1 & E1).
    destruct (next_idles _ _ _ _ E1) as (m' & L' & E'). exists m'. split; [lia|auto].
Qed.

(* packets to the hub *)
Lemma hub_idle_next n h : HubModel.handlers (hb n) h = HubModel.HIdle -> HubModel.handlers (hb (S n)) h = HubModel.HIdle \/ lab n = Some (WHubDeliver h).
Proof.
  intros H. destruct (hub_next n) as [[-> _]|(l & es & wl & M & El & Sh)]; auto. assert (St := hm_step _ _ _ _ _ _ M).
  assert (D : (exists k, l = HubModel.LRecv h k) \/ forall k, l <> HubModel.LRecv h k).
  { destruct l; try (right; discriminate). destruct (Nat.eq_dec p h) as [->|]; [left; eauto|right; congruence]. }
  destruct D as [[k ->]|D]; [right; cbn in Sh; congruence|left]. rewrite <- H. apply (hstep_handler _ _ _ _ _ _ St); auto.
  intros ->. unfold HubModel.hstep in St. rewrite (h_hub _ (Hh n)), H in St. discriminate.
Qed.
Lemma hdelivered n h : hwire (ws (r n)) h <> [] -> exists m, n <= m /\ lab m = Some (WHubDeliver h).
Proof.
  intros Ne.
  assert (Stay : forall m, n <= m -> hwire (ws (r m)) h <> [] \/ exists m, n <= m /\ lab m = Some (WHubDeliver h)).
  { intros m L'. induction L' as [|m L' IH]; auto. destruct IH as [IH|IH]; auto. destruct (hwire_next m h) as [[_ (more & E)]|(El & _)].
    - left. rewrite E. intros X. apply app_eq_nil in X as [X _]. auto.
    - right. exists m. split; [lia|auto]. }
  destruct (hub_idles n h) as (m2 & L2 & I2).
  destruct (Stay m2 L2) as [N2|X]; auto.
  destruct (lead (THubDeliver h) (fun k => hwire (ws (r k)) h <> [] /\ HubModel.handlers (hb k) h = HubModel.HIdle) (fun k => exists m, n <= m /\ lab m = Some (WHubDeliver h)) m2) as (_ & _ & X); auto.
  - intros k L [Wk Ik]. destruct (hwire_next k h) as [[Nl (more & E)]|(El & _)]; [|left; exists k; split; [lia|auto]].
    right. split; [split|].
    + rewrite E. intros X. apply app_eq_nil in X as [X _]. auto.
    + destruct (hub_idle_next _ _ Ik); [auto|contradiction].
    + intros (wl & El & ->). contradiction.
  - intros k L [Wk Ik] R. specialize (R _ eq_refl). cbn in R. destruct (hwire (ws (r k)) h) as [|pk q] eqn:E; [congruence|].
    unfold hub_step, HubModel.hstep in R. cbn [set_hwire sh] in R. rewrite (h_hub _ (Hh k)), Ik in R. destruct pk; discriminate.
Qed.
Lemma hreceived n h k : In k (hwire (ws (r n)) h) -> exists m, n <= m /\ HubModel.hstep black raddr (hb m) (HubModel.LRecv h k) = Some (hb (S m)).
Proof.
  intros I. apply In_nth_error in I as [y Hy]. revert n Hy. induction y as [y IH] using lt_wf_ind. intros n Hy.
  destruct (hdelivered n h) as (m & L & El); [intros E; rewrite E in Hy; destruct y; discriminate|].
  remember (m - n) as v eqn:Ev. revert n Hy L Ev. induction v as [|v IHv]; intros n Hy L Ev.
  - assert (n = m) as -> by lia. destruct (hwire_next m h) as [[Nl _]|(_ & k0 & rest & E & E' & D)]; [contradiction|].
    rewrite E in Hy. destruct y as [|y]; cbn in Hy; [injection Hy as ->; eauto|].
    destruct (IH y ltac:(lia) (S m)) as (m' & L' & D'); [rewrite E'; auto|]. exists m'. split; [lia|auto].
  - destruct (hwire_next n h) as [[Nl (more & E)]|(_ & k0 & rest & E & E' & D)].
    + destruct (IHv (S n)) as (m' & L' & D'); [rewrite E; apply nth_app; auto|lia|lia|]. exists m'. split; [lia|auto].
    + rewrite E in Hy. destruct y as [|y]; cbn in Hy; [injection Hy as ->; eauto|].
      destruct (IH y ltac:(lia) (S n)) as (m' & L' & D'); [rewrite E'; auto|]. exists m'. split; [lia|auto].
Qed.

(* queries *)
Lemma query_next n t : HubModel.queries (hb n) t <> HubModel.QNone ->
  (HubModel.queries (hb (S n)) t = HubModel.queries (hb n) t /\ ~ taken (TQuery t) n) \/ exists es, hmoves n (HubModel.QStep t) es.
Proof.
  intros Ni. destruct (hub_next n) as [[E Ns]|(l & es & wl & M & El & Sh)].
  - left. rewrite E. split; auto. intros (wl & El & ->). exact (Ns _ (HubModel.QStep t) El eq_refl).
  - assert (D : l = HubModel.QStep t \/ forall u, l = HubModel.QStep u -> u <> t) by (destruct l; try (right; discriminate); destruct (Nat.eq_dec t0 t) as [->|]; [left; auto|right; congruence]).
    destruct D as [->|Nl]; [right; eauto|left]. split.
    + destruct (hub_inv n) as (_ & _ & Qi). apply (HubProof3.others_step _ _ _ _ _ _ Qi Ni (hm_step _ _ _ _ _ _ M) Nl).
    + intros (wl' & El' & ->). rewrite El in El'. injection El' as ->. refine (Nl t _ eq_refl). eapply hshown_query; eauto. reflexivity.
Qed.
Lemma query_goes n t c : HubModel.queries (hb n) t = c -> c <> HubModel.QNone -> c <> HubModel.QDone -> exists m es, n <= m /\ HubModel.queries (hb m) t = c /\ hmoves m (HubModel.QStep t) es.
Proof.
  intros E Nc Nd. destruct (lead (TQuery t) (fun k => HubModel.queries (hb k) t = c) (fun k => exists m es, n <= m /\ HubModel.queries (hb m) t = c /\ hmoves m (HubModel.QStep t) es) n) as (_ & _ & X); auto.
  - intros k L Ek. destruct (query_next k t) as [[E' Nt]|(es & M)]; [congruence|right; split; auto; congruence|left; exists k, es; auto].
  - intros k L Ek R. destruct (hub_inv k) as (_ & _ & Qi). assert (K := HubProof3.q_pc _ _ Qi t). specialize (R _ eq_refl). cbn in R. unfold hub_step, HubModel.hstep in R.
    rewrite (h_hub _ (Hh k)) in R. destruct (HubModel.queries (hb k) t) as [|p f|p f i|] eqn:Eq; try congruence; [discriminate|].
    destruct K as (_ & K & _). destruct (nth_error (HubModel.docks (hb k) f) i) as [st|] eqn:En; [destruct (HubModel.st_ready st); discriminate|]. apply nth_error_None in En. lia.
Qed.
Notation leads := (leads carried raddr).
Definition told n i f := exists m a, n <= m /\ In (KAddress a) (wire (ws (r m)) i 0) /\ leads (listeners (r m)) a f.
Lemma told_later n m i f : n <= m -> told m i f -> told n i f.
Proof. intros L (k & a & Lk & X). exists k, a. split; [lia|auto]. Qed.
Lemma look_goes n t i f x : HubModel.queries (hb n) t = HubModel.QLook i f x -> told n i f \/
  exists m, n <= m /\ ~ In (HubModel.EMark f x) (hl m) /\ HubModel.queries (hb (S m)) t = match x with 0 => HubModel.QFetch i f | S x' => HubModel.QLook i f x' end.
Proof.
  intros E. destruct (query_goes _ _ _ E ltac:(discriminate) ltac:(discriminate)) as (m & es & L & Em & M). assert (St := hm_step _ _ _ _ _ _ M). assert (Hi := hm_hist _ _ _ _ _ _ M).
  unfold HubModel.hstep in St. rewrite (h_hub _ (Hh m)), Em in St. destruct (nth_error (HubModel.docks (hb m) f) x) as [st|] eqn:En; [|discriminate].
  destruct (HubModel.st_ready st) eqn:Er; injection St as St.
  - left. assert (Ia : In (HubModel.EAnswer t i f x (HubModel.st_host st) (HubModel.st_port st)) es).
    { rewrite <- St in Hi. cbn in Hi. apply app_inv_head in Hi. rewrite <- Hi. now left. }
    exists (S m), (hostport (HubModel.st_host st) (HubModel.st_port st)). split; [lia|]. split; [eapply hm_answer; eauto|].
    destruct (reached carried carry black raddr r lab Run Calm (S m)) as (ls & R & _). eapply answer_leads; eauto. rewrite Hi. apply in_or_app. eauto.
  - right. exists m. split; auto. split.
    + intros Mk. destruct (hub_inv m) as (_ & Mi & _). destruct (HubProof3.m_ready _ Mi _ _ Mk) as (st' & X & Y). congruence.
    + rewrite <- St. cbn. rewrite updp_same. reflexivity.
Qed.
Lemma look_high t i f km : forall v n, In (HubModel.EMark f km) (hl n) -> HubModel.queries (hb n) t = HubModel.QLook i f (km + v) -> told n i f.
Proof.
  induction v as [|v IH]; intros n Mk E; destruct (look_goes _ _ _ _ _ E) as [X|(m & L & Nm & Em)]; auto.
  - exfalso. apply Nm. rewrite Nat.add_0_r. eapply hevent_stays; eauto.
  - rewrite Nat.add_succ_r in Em. apply (told_later n (S m)); [lia|]. apply IH; auto. eapply hevent_stays; [|exact Mk]. lia.
Qed.
Lemma fetch_told t i f km n : In (HubModel.EMark f km) (hl n) -> HubModel.queries (hb n) t = HubModel.QFetch i f -> told n i f.
Proof.
  intros Mk E. destruct (query_goes _ _ _ E ltac:(discriminate) ltac:(discriminate)) as (m & es & L & Em & M). assert (St := hm_step _ _ _ _ _ _ M).
  unfold HubModel.hstep in St. rewrite (h_hub _ (Hh m)), Em in St. injection St as St.
  assert (Mk' : In (HubModel.EMark f km) (hl m)) by (eapply hevent_stays; eauto). destruct (hub_inv m) as (_ & Mi & _). destruct (HubProof3.m_ready _ Mi _ _ Mk') as (st & X & _).
  apply nth_lt in X. apply (told_later n (S m)); [lia|]. apply (look_high t i f km (pred (length (HubModel.docks (hb m) f)) - km)); [eapply hevent_stays; [|exact Mk']; lia|].
  rewrite <- St. destruct (HubModel.docks (hb m) f) as [|s0 l0] eqn:Ed; [cbn in X; lia|]. cbn. rewrite updp_same. f_equal. cbn in X. lia.
Qed.
Lemma look_low t i f km : forall x n, In (HubModel.EMark f km) (hl n) -> HubModel.queries (hb n) t = HubModel.QLook i f x -> told n i f.
Proof.
  induction x as [|x IH]; intros n Mk E; destruct (look_goes _ _ _ _ _ E) as [X|(m & L & Nm & Em)]; auto; apply (told_later n (S m)); try lia;
    assert (Mk' : In (HubModel.EMark f km) (hl (S m))) by (eapply hevent_stays; [|exact Mk]; lia); [eapply fetch_told; eauto|apply IH; auto].
Qed.
Lemma query_told t i f km n : In (HubModel.EMark f km) (hl n) -> (HubModel.queries (hb n) t = HubModel.QFetch i f \/ exists k, HubModel.queries (hb n) t = HubModel.QLook i f k) -> told n i f.
Proof. intros Mk [E|[k E]]; [eapply fetch_told|eapply look_low]; eauto. Qed.

(* registration *)
Lemma announced n i p : In (p, false) (announcers (dk n i)) -> exists m l es d1 x ns, n <= m /\ dnext m i l es d1 x /\ In (ESend p (KRegister ns) true) es /\ reorders ns (collected (dk m i)) = true.
Proof.
  intros I. apply In_nth_error in I as [y Hy].
  destruct (lead (TAnnounce i y) (fun k => nth_error (announcers (dk k i)) y = Some (p, false))
    (fun _ => exists m l es d1 x ns, n <= m /\ dnext m i l es d1 x /\ In (ESend p (KRegister ns) true) es /\ reorders ns (collected (dk m i)) = true) n) as (_ & _ & X); auto.
  - intros k L Hk. destruct (dock_next k i) as [[E Ns]|(l & es & d1 & x & D)].
    + right. rewrite E. split; auto. intros (wl & El & ns & acc & ->). exact (Ns _ (LAnnounce y ns acc) El eq_refl).
    + destruct (announce_nth _ _ _ _ _ _ (dn_tr _ _ _ _ _ _ _ _ _ D) (dn_hist1 _ _ _ _ _ _ _ _ _ D) Hk) as [[H' Nl]|(ns & acc & -> & Is & Ro)].
      * right. split; [rewrite (dn_new _ _ _ _ _ _ _ _ _ D); cbn; apply nth_app, H'|]. intros (wl & El & ns & acc & ->).
        destruct (dn_lab _ _ _ _ _ _ _ _ _ D) as (wl & El' & Sh). rewrite El in El'. injection El' as <-.
        destruct l; cbn in Sh; try destruct ok; repeat destruct Sh as [Sh|Sh]; try discriminate; try (destruct Sh as (? & ? & Sh); discriminate). injection Sh as <- <- <-. eapply Nl. reflexivity.
      * left. exists k, (LAnnounce y ns acc), es, d1, x, ns. split; auto. split; auto. split; auto. destruct acc; auto. exfalso.
        apply (h_taken _ (Hh (S k)) i p (KRegister ns)). rewrite (dn_hist _ _ _ _ _ _ _ _ _ D). apply in_or_app. auto.
  - intros k L Hk R. assert (E : dstep (dk k i) (LAnnounce y (collected (dk k i)) true) <> None) by (unfold dstep; rewrite (alive k i), Hk, reorders_refl; discriminate).
    specialize (R _ (ex_intro _ (collected (dk k i)) (ex_intro _ true eq_refl))). cbn in R. unfold dock_step in R. destruct (dstep _ _); [discriminate|congruence].
Qed.
Lemma collected_all n i ns f : carries (carried i) f true -> reorders ns (collected (dk n i)) = true -> In f ns.
Proof.
  intros C R. apply reorders_perm in R. eapply Permutation.Permutation_in; [symmetry; exact R|]. destruct (reached carried carry black raddr r lab Run Calm n) as (ls & Rn & _).
  eapply run_collected; eauto.
Qed.
Definition marks_later n f := exists m k, n <= m /\ In (HubModel.EMark f k) (hl m).
Lemma marks_from n m f : n <= m -> marks_later m f -> marks_later n f.
Proof. intros L (k & x & Lk & X). exists k, x. split; [lia|auto]. Qed.
Section Marked.
Variables (j : nat) (f : name).
Hypothesis Cf : carries (carried j) f true.
Lemma mark_handed n : handed (hl n) j f -> marks_later n f.
Proof.
  intros H. destruct (hub_idles n j) as (m & L & I). destruct (hhist_stay n m L) as (es & E). assert (Hm : handed (hl m) j f) by (rewrite E; apply handed_more, H).
  destruct Hm as (x & sl & A & B & C). destruct (hrun m) as [lh Lh]. destruct (HubProof4.ready_marks _ _ _ _ _ _ _ _ Lh A B C I) as (k & _ & K). exists m, k. auto.
Qed.
Lemma registered_stays n m : n <= m -> In j (HubSpec.registrants f (hl n)) -> In j (HubSpec.registrants f (hl m)).
Proof. intros L H. destruct (hhist_stay n m L) as (es & ->). apply registrants_more, H. Qed.
Lemma mark_ready n ns : In (HubModel.PReady ns) (hwire (ws (r n)) j) -> In f ns -> In j (HubSpec.registrants f (hl n)) -> marks_later n f.
Proof.
  intros I Hf Rg. destruct (hreceived _ _ _ I) as (m & L & St). apply (marks_from n (S m)); [lia|]. apply mark_handed.
  exists (length (hl m)), ns. unfold HubModel.hstep in St. rewrite (h_hub _ (Hh m)) in St. destruct (HubModel.handlers (hb m) j); try discriminate. injection St as St. rewrite <- St. cbn.
  split; [rewrite nth_error_app2, Nat.sub_diag by lia; reflexivity|]. split; auto. rewrite firstn_app, Nat.sub_diag, firstn_all. cbn. rewrite app_nil_r. eapply registered_stays; eauto.
Qed.
Lemma mark_opening n : opening (handlers (dk n j) 0) -> In j (HubSpec.registrants f (hl n)) -> marks_later n f.
Proof.
  intros Op Rg. destruct (until (fun k => opening (handlers (dk k j) 0)) (fun k => exists ns, In (HubModel.PReady ns) (hwire (ws (r k)) j) /\ In f ns) n) as (m & L & ns & I & Hf); auto.
  - intros k L Opk. destruct (dock_next k j) as [[E Ns]|(l & es & d1 & x & D)]; [left; rewrite E; auto|].
    destruct (opening_step _ _ _ _ _ (dn_tr _ _ _ _ _ _ _ _ _ D) (dn_hist1 _ _ _ _ _ _ _ _ _ D) (dn_alive _ _ _ _ _ _ _ _ _ D) Opk) as [O'|(ns & acc & Is & Ro)].
    + left. rewrite (dn_new _ _ _ _ _ _ _ _ _ D). exact O'.
    + right. exists ns. assert (acc = true) as ->.
      { destruct acc; auto. exfalso. apply (h_taken _ (Hh (S k)) j 0 (KReady ns)). rewrite (dn_hist _ _ _ _ _ _ _ _ _ D). apply in_or_app. auto. }
      split; [apply (dn_hsent _ _ _ _ _ _ _ _ _ D _ Is)|]. eapply collected_all; eauto.
  - destruct (handler_idles n j 0) as (m & L & E). exists m. split; auto. rewrite E. intros [].
  - apply (marks_from n m); auto. eapply mark_ready; eauto. eapply registered_stays; eauto.
Qed.
Lemma mark_replied n p : In (KRegistered p) (wire (ws (r n)) j 0) -> In j (HubSpec.registrants f (hl n)) -> marks_later n f.
Proof.
  intros I Rg. destruct (received _ _ _ _ I) as (m & es & d1 & x & L & D). apply (marks_from n (S m)); [lia|]. apply mark_opening; [|eapply registered_stays; [|exact Rg]; lia].
  rewrite (dn_new _ _ _ _ _ _ _ _ _ D). cbn [handlers with_announcers]. assert (T := dn_tr _ _ _ _ _ _ _ _ _ D). inversion T; subst; proj; [rewrite updp_same; exact Logic.I|contradiction].
Qed.
Lemma mark_push : forall ns n t host port, HubModel.handlers (hb n) j = HubModel.RPush t host port ns -> (In f ns \/ In j (HubSpec.registrants f (hl n))) -> marks_later n f.
Proof.
  induction ns as [|g ns IH]; intros n t host port E H; destruct (hub_goes _ _ _ E ltac:(discriminate)) as (m & es & L & Em & M); assert (St := hm_step _ _ _ _ _ _ M); assert (Hi := hm_hist _ _ _ _ _ _ M);
    unfold HubModel.hstep in St; rewrite (h_hub _ (Hh m)), Em in St; injection St as St; apply (marks_from n (S m)); try lia.
  - destruct H as [[]|H]. apply (mark_replied (S m) port).
    + apply (hm_reply _ _ _ _ _ _ M). rewrite <- St in Hi. cbn in Hi. apply app_inv_head in Hi. rewrite <- Hi. now left.
    + eapply registered_stays; [|exact H]. lia.
  - apply (IH _ t host port); [rewrite <- St; cbn; apply updp_same|]. destruct H as [[->|H]|H]; [right|left; auto|right].
    + rewrite <- St. match goal with |- context[HubModel.hist ?s] => change (HubModel.hist s) with (hl m ++ [HubModel.EPush f j host port]) end.
      rewrite HubProof4.registrants_app. apply in_or_app. right. unfold HubSpec.registrants. cbn. destruct (zlist_eqb_spec f f); [now left|congruence].
    + eapply registered_stays; [|exact H]. lia.
Qed.
Lemma mark_alloc n t ns : HubModel.handlers (hb n) j = HubModel.RAlloc t ns -> In f ns -> marks_later n f.
Proof. intros E H. destruct (alloc_goes _ _ _ _ E) as (m & port & L & Em). apply (marks_from n m); auto. eapply mark_push; eauto. Qed.
Lemma mark_register n ns : In (HubModel.PRegister ns) (hwire (ws (r n)) j) -> In f ns -> marks_later n f.
Proof.
  intros I H. destruct (hreceived _ _ _ I) as (m & L & St). apply (marks_from n (S m)); [lia|].
  unfold HubModel.hstep in St. rewrite (h_hub _ (Hh m)) in St. destruct (HubModel.handlers (hb m) j); try discriminate. injection St as St.
  eapply mark_alloc; eauto. rewrite <- St. cbn. apply updp_same.
Qed.
Lemma marked_eventually n : runner (dk n j) <> NDial -> marks_later n f.
Proof.
  intros Nr. destruct (reached carried carry black raddr r lab Run Calm n) as (ls & R & Nl).
  destruct (all_coming _ _ _ _ _ _ R Nl (Hh n) j f Nr Cf) as [K|ns K Kf|t ns K Kf|t host p ns K Kf|t host p ns K X|p K X|K X|ns K Kf X|K].
  - destruct (announced _ _ _ K) as (m & l & es & d1 & x & ns & L & D & Is & Ro). apply (marks_from n (S m)); [lia|]. apply (mark_register (S m) ns).
    + apply (dn_hsent _ _ _ _ _ _ _ _ _ D _ Is).
    + eapply collected_all; eauto.
  - eapply mark_register; eauto.
  - eapply mark_alloc; eauto.
  - eapply mark_push; eauto.
  - eapply mark_push; eauto.
  - eapply mark_replied; eauto.
  - eapply mark_opening; eauto.
  - eapply mark_ready; eauto.
  - apply mark_handed. exact K.
Qed.
End Marked.
End Live.
