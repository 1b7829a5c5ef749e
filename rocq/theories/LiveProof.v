(* Endless runs: what one step does to one dock, to the hub and to one wire; how tasks go on. *)
From Verif Require Import Lts GoVal Tables DockModel DockSpec DockProof DockProof2 DockProof3 DockProof4 DockProof9 SysModel SysSpec SysProof SysProof2 SysProof3 WorldModel WorldSpec WorldProof WorldProof2 WorldProof3 WorldProof4 WorldProof5 LiveSpec.
From Verif Require HubModel HubSpec HubProof HubProof2 HubProof3 HubProof4.
From Coq Require Import Arith Bool List ZArith Lia.
Import ListNotations.
Open Scope nat_scope.

Section Dock.
Context {V : Type}.
Implicit Types d : dock V.
(* the steps of the receive routine of peer p *)
Definition own (p : nat) (l : label V) : Prop :=
  match l with HGo p' | HPick p' _ | HCommit p' _ | HSend p' _ _ | HNet p' _ => p' = p | _ => False end.
Definition mu (h : hpc) : nat :=
  match h with
  | HIdle => 0
  | RNext sl => 2 * length sl + 1
  | RIter _ sl _ | RTested _ sl _ _ | RCommit _ sl _ _ => 2 * length sl + 2
  | GSend sl => length sl + 2 | GPut sl => length sl + 1
  | BListen _ => 4 | BAppend _ => 3 | BSend => 2 | BGo => 1
  | ADial _ => 2 | AAppend _ => 1
  end.
Lemma mu_idle h : mu h = 0 -> h = HIdle.
Proof. destruct h; cbn; auto; lia. Qed.
Lemma handler_step d l d' p : tr V d l d' -> state d' = Alive -> handlers d p <> HIdle ->
  (handlers d' p = handlers d p /\ ~ own p l) \/
  (own p l /\ (mu (handlers d' p) < mu (handlers d p) \/ (ranging (handlers d p) /\ ranging (handlers d' p) /\ mu (handlers d' p) = mu (handlers d p)))).
Proof.
  intros T A N.
  destruct T; proj; try discriminate; auto; cbn [own];
    try (destruct (Nat.eq_dec p0 p) as [->|Np]; [right|left; rewrite ?updp_other by auto; auto; fail]; split; [reflexivity|]; rewrite ?updp_same;
      repeat match goal with X : handlers _ _ = _ |- _ => rewrite X in * end; cbn in *; try (left; lia); try (right; auto; fail); try congruence).
  all: try (destruct (Nat.eq_dec p0 p) as [->|Np]; [congruence|left; rewrite ?updp_other by auto; auto]).
Qed.
End Dock.

Section Live.
Context {V : Type}.
Variables (carried : nat -> list (name * bool)).
Variable carry : nat -> nat -> list V -> option (list V).
Variables (black : list Z) (raddr : nat -> name).
Variables (r : nat -> world V) (lab : nat -> option (wlab V)).
Hypothesis Run : endless carried carry black raddr r lab.
Hypothesis Fair : fair carry black raddr r lab.
Hypothesis Calm : undisturbed r lab.
Notation sys := (SysModel.sys V).
Notation wstep := (wstep carry black raddr).
Notation run ls w := (exec wstep (winit carried) ls = Some w).
Notation dk n i := (sd (ws (r n)) i).
Notation hb n := (sh (ws (r n))).
Notation hl n := (HubModel.hist (sh (ws (r n)))).
Notation taken T n := (exists l, lab n = Some l /\ of_task T l).

Lemma Hh n : healthy (ws (r n)). Proof. apply (proj2 Calm). Qed.
Lemma alive n i : state (dk n i) = Alive. Proof. apply (h_alive _ (Hh n)). Qed.

(* every moment is reached by a run *)
Lemma reached n : exists ls, run ls (r n) /\ nothing_lost ls.
Proof.
  induction n as [|n (ls & R & L)].
  - exists []. rewrite (e_start _ _ _ _ _ _ Run). split; [reflexivity|intros l []].
  - pose proof (e_step _ _ _ _ _ _ Run n) as S. pose proof (proj1 Calm n) as C. destruct (lab n) as [l|] eqn:E.
    + exists (ls ++ [l]). split; [rewrite exec_app, R; cbn; rewrite S; reflexivity|]. intros x X. apply in_app_or in X as [X|[<-|[]]]; [apply L; auto|]. destruct l; exact C || exact I.
    + rewrite S. eauto.
Qed.
Lemma Wi n : winv (r n).
Proof. destruct (reached n) as (ls & R & _). apply (run_sys _ _ _ _ _ _ R). Qed.
Lemma Ok n : ok carried (ends (r n)) hub_end carry black raddr hostport (ws (r n)).
Proof. destruct (reached n) as (ls & R & _). eapply run_ok; eauto. Qed.
Lemma drun n i : exists ls, exec dstep (new_dock (carried i)) ls = Some (dk n i).
Proof. apply (docks_run _ _ _ _ _ _ _ _ (Ok n) i). Qed.
Lemma hrun n : exists ls, exec (HubModel.hstep black raddr) HubModel.new_hub ls = Some (hb n).
Proof. apply (hub_runs _ _ _ _ _ _ _ _ (Ok n)). Qed.
Lemma seen n : (lab n = None /\ r (S n) = r n) \/ exists l, lab n = Some l /\ wstep (r n) l = Some (r (S n)) /\ view carry black raddr (r n) l (r (S n)).
Proof.
  pose proof (e_step _ _ _ _ _ _ Run n) as S. destruct (lab n) as [l|]; [right|left; auto]. exists l. split; auto. split; auto. eapply wstep_view; eauto. apply Wi.
Qed.

(* tasks go on *)
Lemma until (P Q : nat -> Prop) n : P n -> (forall k, n <= k -> P k -> P (S k) \/ Q (S k)) -> (exists m, n <= m /\ ~ P m) -> exists m, n <= m /\ Q m.
Proof.
  intros P0 St (m & L & N).
  assert (G : forall d, P (n + d) \/ exists m, n <= m /\ Q m).
  { induction d as [|d [IH|IH]]; [left; rewrite Nat.add_0_r; auto| |auto]. destruct (St (n + d)) as [X|X]; [lia|auto|left; rewrite Nat.add_succ_r; auto|right].
    exists (S (n + d)). split; [lia|auto]. }
  destruct (G (m - n)) as [X|X]; auto. replace (n + (m - n)) with m in X by lia. contradiction.
Qed.
Lemma lead T (P Q : nat -> Prop) n : P n -> (forall k, n <= k -> P k -> Q (S k) \/ (P (S k) /\ ~ taken T k)) ->
  (forall k, n <= k -> P k -> ~ resting carry black raddr T (r k)) -> exists m, n <= m /\ Q m.
Proof.
  intros P0 St En. destruct (Fair T n) as (m & L & F).
  assert (G : forall d, P (n + d) \/ exists m, n <= m /\ Q m).
  { induction d as [|d [IH|IH]]; [left; rewrite Nat.add_0_r; auto| |auto]. destruct (St (n + d)) as [X|[X _]]; [lia|auto| |left; rewrite Nat.add_succ_r; auto].
    right. exists (S (n + d)). split; [lia|auto]. }
  destruct (G (m - n)) as [X|X]; auto. replace (n + (m - n)) with m in X by lia. destruct F as [F|F]; [destruct (En m L X F)|].
  destruct (St m L X) as [Y|[_ Y]]; [|contradiction]. exists (S m). split; [lia|auto].
Qed.
Lemma stays (P : nat -> Prop) n : P n -> (forall k, n <= k -> P k -> P (S k)) -> forall m, n <= m -> P m.
Proof. intros P0 St m L. induction L; auto. Qed.
Lemma last_before (P : nat -> Prop) n m : n <= m -> P n -> ~ P m -> (forall k, P k \/ ~ P k) -> exists k, n <= k < m /\ P k /\ ~ P (S k).
Proof.
  intros L P0 Nm D. induction L as [|m L IH]; [contradiction|]. destruct (D m) as [X|X]; [exists m; repeat split; auto; lia|].
  destruct (IH X) as (k & K & Y). exists k. split; [lia|auto].
Qed.

(* one step as one dock sees it *)
Definition shown (wl : wlab V) (i : nat) (l : label V) : Prop :=
  match l with
  | LRecv p _ => wl = WDeliver i p
  | LConnected p => wl = WAccept i p
  | LDial ok => wl = WDial i ok
  | HNet p true => wl = WListen i p true \/ exists j n, wl = WConnect i p j n
  | HNet p false => wl = WListen i p false \/ wl = WFail i p
  | _ => wl = WDock i l
  end.
Definition hshown (wl : wlab V) (l : HubModel.label) : Prop :=
  match l with HubModel.LRecv h _ => wl = WHubDeliver h | _ => wl = WHub l end.
Lemma wstep_shown w wl w' : winv w -> wstep w wl = Some w' -> match wl with WLose _ _ _ | WHubLose _ _ => False | _ => True end ->
  (exists i l es s1, dmove carry (ends w) (ws w) i l es s1 /\ shown wl i l /\
     (ws w' = s1 \/ exists p es2, dmove carry (ends w) s1 i (LConnected p) es2 (ws w'))) \/
  (exists l es, hmove black raddr (ws w) l es (ws w') /\ hshown wl l).
Proof.
  intros I H Nl. assert (I' := I). destruct I' as [W F O B]. assert (E0 := fun i => hub_known w i I).
  assert (On : forall w1 o, on w1 o = Some w' -> exists s', o = Some s' /\ w' = with_sys s' w1).
  { intros w1 [s'|]; [|discriminate]. intros [= <-]. eauto. }
  assert (D : forall s i l s', match l with LRecv _ _ => False | _ => True end -> match l with HCommit _ _ | CStep _ _ => False | _ => True end ->
    sstep (ends w) hub_end carry black raddr hostport s (SDock i l []) = Some s' -> exists es, dmove carry (ends w) s i l es s').
  { intros s i l0 s' N N' X. assert (Y : dock_step (ends w) carry i l0 [] s = Some s') by (destruct l0; try exact X; destruct N).
    eapply dock_dmove with (s1 := s); eauto. intros q k ->. destruct N. }
  destruct wl; try contradiction.
  - left. assert (X : on w (sstep (ends w) hub_end carry black raddr hostport (ws w) (SDock i l (query_peers w i))) = Some w' /\ match l with LConnected _ | LDial _ | LRecv _ _ | HNet _ _ => False | _ => True end)
      by (destruct l; try discriminate; auto).
    destruct X as [X N]. apply (On w) in X as (s' & Hs & ->).
    assert (Y : dock_step (ends w) carry i l (query_peers w i) (ws w) = Some s') by (destruct l; try exact Hs; destruct N).
    destruct (dock_dmove carried carry black raddr (ends w) (ws w) (ws w) i l (query_peers w i) s' W (E0 i)) as [es M]; auto; [intros q k ->; destruct N|].
    exists i, l, es, s'. split; auto. split; [destruct l; try contradiction; reflexivity|left; reflexivity].
  - left. cbn in H. destruct (existsb _ _) eqn:Eb; [discriminate|]. apply (On w) in H as (s' & Hs & ->).
    cbn [sstep] in Hs. destruct (wire (ws w) i p) as [|k rest] eqn:Ew; [discriminate|].
    destruct (dock_dmove carried carry black raddr (ends w) (ws w) (set_wire i p rest (ws w)) i (LRecv p k) [] s' W (E0 i)) as [es M]; auto.
    + cbn. intros a q x K. destruct (Nat.eq_dec a i) as [->|N]; [destruct (Nat.eq_dec q p) as [->|N]|]; [|rewrite put_other by auto; auto|rewrite put_other by auto; auto].
      rewrite put_same. rewrite Ew in K. destruct K as [->|K]; auto.
    + intros q x [= <- <-]. rewrite Ew. now left.
    + exists i, (LRecv p k), es, s'. split; auto. split; [reflexivity|left; reflexivity].
  - right. apply (On w) in H as (s' & Hs & ->). assert (X : hub_step hub_end black raddr hostport l (ws w) = Some s' /\ match l with HubModel.LRecv _ _ => False | _ => True end) by (destruct l; try discriminate; auto).
    destruct X as [X N]. destruct (hub_hmove carried carry black raddr (ends w) (ws w) (ws w) l s' W E0) as [es M]; auto. exists l, es. split; auto. destruct l; try contradiction; reflexivity.
  - right. apply (On w) in H as (s' & Hs & ->). cbn [sstep] in Hs. destruct (hwire (ws w) h) as [|k rest] eqn:Ew; [discriminate|].
    destruct (hub_hmove carried carry black raddr (ends w) (ws w) (set_hwire h rest (ws w)) (HubModel.LRecv h k) s' W E0) as [es M]; auto; [|exists (HubModel.LRecv h k), es; split; auto; reflexivity].
    intros h' x K. cbn. unfold updp. destruct (Nat.eqb_spec h' h) as [->|]; auto. rewrite Ew in K. destruct K as [->|K]; auto.
  - left. unfold WorldModel.wstep in H. apply (On w) in H as (s' & Hs & ->). destruct ok; cbn [exec] in Hs.
    + destruct (sstep _ _ _ _ _ _ (ws w) (SDock i (LDial true) [])) as [s1|] eqn:E1; [|discriminate].
      destruct (sstep _ _ _ _ _ _ s1 (SDock i (LConnected 0) [])) as [s2|] eqn:E2; [|discriminate]. injection Hs as <-.
      apply D in E1 as [es1 M1]; try exact Logic.I. apply D in E2 as [es2 M2]; try exact Logic.I. exists i, (LDial true), es1, s1. split; auto. split; [reflexivity|right; eauto].
    + destruct (sstep _ _ _ _ _ _ (ws w) (SDock i (LDial false) [])) as [s1|] eqn:E1; [|discriminate]. injection Hs as <-.
      apply D in E1 as [es1 M1]; try exact Logic.I. exists i, (LDial false), es1, s1. split; auto. split; [reflexivity|left; reflexivity].
  - left. unfold WorldModel.wstep in H. destruct (handlers _ p) as [| | | | | | |n| | | | |] eqn:Eh; try discriminate.
    destruct (ok && negb (port_free raddr w i n)) eqn:Ep; [discriminate|]. apply On in H as (s' & Hs & ->). apply D in Hs as [es M]; try exact Logic.I.
    exists i, (HNet p ok), es, s'. split; auto. split; [destruct ok; left; reflexivity|left; reflexivity].
  - left. unfold WorldModel.wstep in H. destruct (handlers _ p) eqn:Eh; try discriminate. destruct (_ && _) eqn:Ea; [|discriminate].
    apply On in H as (s' & Hs & ->). cbn [exec] in Hs.
    destruct (sstep _ _ _ _ _ _ (ws w) (SDock i (HNet p true) [])) as [s1|] eqn:E1; [|discriminate].
    destruct (sstep _ _ _ _ _ _ s1 (SDock i (LConnected (peers w i)) [])) as [s2|] eqn:E2; [|discriminate]. injection Hs as <-.
    apply D in E1 as [es1 M1]; try exact Logic.I. apply D in E2 as [es2 M2]; try exact Logic.I. exists i, (HNet p true), es1, s1. split; auto. split; [right; eauto|right; eauto].
  - left. unfold WorldModel.wstep in H. destruct (handlers _ p) eqn:Eh; try discriminate. apply On in H as (s' & Hs & ->). apply D in Hs as [es M]; try exact Logic.I.
    exists i, (HNet p false), es, s'. split; auto. split; [right; reflexivity|left; reflexivity].
  - left. unfold WorldModel.wstep in H. destruct (existsb _ _) eqn:Eb; [|discriminate]. apply On in H as (s' & Hs & ->). apply D in Hs as [es M]; try exact Logic.I.
    exists j, (LConnected q), es, s'. split; auto. split; [reflexivity|left; reflexivity].
Qed.
Record dnext (n i : nat) (l : label V) (es : list (event V)) (d1 : dock V) (x : list (nat * bool)) : Prop := {
  dn_tr : tr V (dk n i) l d1;
  dn_hist1 : hist d1 = hist (dk n i) ++ es;
  dn_hist : hist (dk (S n) i) = hist (dk n i) ++ es;
  dn_new : dk (S n) i = with_announcers (announcers d1 ++ x) d1;
  dn_alive : state d1 = Alive;
  dn_lab : exists wl, lab n = Some wl /\ shown wl i l;
  dn_sent : forall p k j q k', In (ESend p k true) es -> ends (r n) i p = ToDock j q -> pass carry i j k = Some k' -> In k' (wire (ws (r (S n))) j q);
  dn_hsent : forall k, In (ESend 0 k true) es -> In (to_hub k) (hwire (ws (r (S n))) i);
  dn_asked : forall f, In (EQuery DockModel.SHub f) es -> In (HubModel.PQuery f) (hwire (ws (r (S n))) i) }.
Lemma no_announcers (d : dock V) : with_announcers (announcers d ++ []) d = d.
Proof. rewrite app_nil_r. destruct d; reflexivity. Qed.
(* either the dock does not move, or it moves as [dnext] says *)
Lemma dock_next n i : (dk (S n) i = dk n i /\ forall wl l, lab n = Some wl -> ~ shown wl i l) \/ exists l es d1 x, dnext n i l es d1 x.
Proof.
  destruct (seen n) as [[El E]|(wl & El & St & X)]; [left; rewrite E; split; auto; congruence|].
  assert (C := proj1 Calm n). rewrite El in C. assert (C' : match wl with WLose _ _ _ | WHubLose _ _ => False | _ => True end) by (destruct wl; auto).
  destruct (wstep_shown _ _ _ (Wi n) St C') as [(i0 & l & es & s1 & M & Sh & Z)|(l & es & M & Sh)].
  - assert (J : forall l', shown wl i l' -> i = i0).
    { intros l' Sh'. assert (Y : forall i l, shown wl i l -> i = match wl with WDock i _ | WDeliver i _ | WDial i _ | WListen i _ _ | WConnect i _ _ _ | WFail i _ | WAccept i _ => i | _ => 0 end).
      { clear. intros i [] Y; cbn in Y; try destruct ok; repeat destruct Y as [Y|Y]; try (destruct Y as (j' & m & Y)); try (subst; reflexivity). }
      rewrite (Y _ _ Sh), (Y _ _ Sh'). reflexivity. }
    destruct (Nat.eq_dec i i0) as [->|N].
    + right. destruct Z as [Z|(p & es2 & M2)].
      * subst s1. exists l, es, (dk (S n) i0), []. destruct M. split; auto; [now rewrite no_announcers|apply alive|eauto].
      * assert (T2 := dm_tr _ _ _ _ _ _ _ M2).
        assert (Ex : dk (S n) i0 = with_announcers (announcers (sd s1 i0) ++ [(p, false)]) (sd s1 i0)) by (inversion T2; auto).
        exists l, es, (sd s1 i0), [(p, false)]. destruct M. split; auto.
        -- rewrite Ex. exact dm_hist.
        -- apply (WorldProof2.dm_alive _ _ _ _ _ _ _ M2).
        -- eauto.
        -- intros p0 k j q k' I E Hp. destruct (WorldProof2.dm_wire _ _ _ _ _ _ _ M2 j q k') as [Y|[_ Y]]; eauto. discriminate.
        -- intros k I. apply (WorldProof2.dm_hwire _ _ _ _ _ _ _ M2). auto.
        -- intros f I. apply (WorldProof2.dm_hwire _ _ _ _ _ _ _ M2). auto.
    + left. split.
      * destruct Z as [<-|(p & es2 & M2)]; [|rewrite (dm_other _ _ _ _ _ _ _ M2) by auto]; apply (dm_other _ _ _ _ _ _ _ M); auto.
      * intros wl' l' E Sh'. rewrite El in E. injection E as <-. apply N. eauto.
  - left. split; [now rewrite (hm_docks _ _ _ _ _ _ M)|]. intros wl' l' E Sh'. rewrite El in E. injection E as <-.
    clear - Sh Sh'. destruct l; cbn in Sh; subst wl; destruct l'; cbn in Sh'; try destruct ok; repeat destruct Sh' as [Sh'|Sh']; try discriminate; destruct Sh' as (? & ? & Sh'); discriminate.
Qed.

Lemma hub_next n : (hb (S n) = hb n /\ forall wl l, lab n = Some wl -> ~ hshown wl l) \/
  exists l es wl, hmove black raddr (ws (r n)) l es (ws (r (S n))) /\ lab n = Some wl /\ hshown wl l.
Proof.
  destruct (seen n) as [[El E]|(wl & El & St & X)]; [left; rewrite E; split; auto; congruence|].
  assert (C := proj1 Calm n). rewrite El in C. assert (C' : match wl with WLose _ _ _ | WHubLose _ _ => False | _ => True end) by (destruct wl; auto).
  destruct (wstep_shown _ _ _ (Wi n) St C') as [(i0 & l & es & s1 & M & Sh & Z)|(l & es & M & Sh)]; [left|right; exists l, es, wl; auto].
  split.
  - destruct Z as [<-|(p & es2 & M2)]; [|rewrite (dm_hub _ _ _ _ _ _ _ M2) by auto]; apply (dm_hub _ _ _ _ _ _ _ M); auto.
  - intros wl' l' E Sh'. rewrite El in E. injection E as <-.
    clear - Sh Sh'. destruct l'; cbn in Sh'; subst wl; destruct l; cbn in Sh; try destruct ok; repeat destruct Sh as [Sh|Sh]; try discriminate; destruct Sh as (? & ? & Sh); discriminate.
Qed.
Lemma rest_next n : extends (ends (r (S n))) (ends (r n)) /\ incl (listeners (r n)) (listeners (r (S n))).
Proof.
  destruct (seen n) as [[El E]|(wl & El & St & X)]; [rewrite E; split; [apply extends_refl|apply incl_refl]|].
  split; [apply (wstep_sys carried _ _ _ _ _ _ (Wi n) St)|].
  inversion X; subst; try (match goal with E : listeners _ = _ |- _ => rewrite E; apply incl_refl end); [|apply incl_refl].
  match goal with E : listeners _ = _ |- _ => rewrite E; apply incl_appl, incl_refl end.
Qed.
Lemma ends_stay n m i p : n <= m -> ends (r n) i p <> Nowhere -> ends (r m) i p = ends (r n) i p.
Proof.
  intros L N. induction L as [|m L IH]; auto. rewrite (proj1 (rest_next m)); auto. rewrite IH. exact N.
Qed.
Lemma listeners_stay n m : n <= m -> incl (listeners (r n)) (listeners (r m)).
Proof. intros L. induction L as [|m L IH]; [apply incl_refl|]. eapply incl_tran; [exact IH|apply rest_next]. Qed.
Lemma hist_next n i : exists es, hist (dk (S n) i) = hist (dk n i) ++ es.
Proof. destruct (dock_next n i) as [[-> _]|(l & es & d1 & x & N)]; [exists []; now rewrite app_nil_r|exists es; apply N]. Qed.
Lemma hist_stay n m i : n <= m -> exists es, hist (dk m i) = hist (dk n i) ++ es.
Proof.
  intros L. induction L as [|m L (es & IH)]; [exists []; now rewrite app_nil_r|]. destruct (hist_next m i) as (es' & E). exists (es ++ es'). now rewrite E, IH, app_assoc.
Qed.
Lemma event_stays n m i e : n <= m -> In e (hist (dk n i)) -> In e (hist (dk m i)).
Proof. intros L H. destruct (hist_stay n m i L) as (es & ->). apply in_or_app. auto. Qed.
Lemma hhist_next n : exists es, hl (S n) = hl n ++ es.
Proof. destruct (hub_next n) as [[-> _]|(l & es & wl & M & _)]; [exists []; now rewrite app_nil_r|exists es; apply M]. Qed.
Lemma hhist_stay n m : n <= m -> exists es, hl m = hl n ++ es.
Proof.
  intros L. induction L as [|m L (es & IH)]; [exists []; now rewrite app_nil_r|]. destruct (hhist_next m) as (es' & E). exists (es ++ es'). now rewrite E, IH, app_assoc.
Qed.
Lemma hevent_stays n m e : n <= m -> In e (hl n) -> In e (hl m).
Proof. intros L H. destruct (hhist_stay n m L) as (es & ->). apply in_or_app. auto. Qed.

(* the wires *)
Lemma flow_is n m a q : n <= m -> flow (ws (r n)) a q = source (ends (r m)) carry hostport (ws (r n)) a q.
Proof.
  intros L. destruct (reached n) as (ls & R & Nl). destruct (run_sys _ _ _ _ _ _ R) as (I & ls' & R' & Ll).
  assert (X : extends (ends (r m)) (ends (r n))) by (intros i p N; apply ends_stay; auto).
  eapply (lossless_flow carried (ends (r m)) hub_end carry black raddr hostport); [apply Wi|apply R', X|apply Ll, Nl].
Qed.
Lemma source_grows n a q : exists more, source (ends (r (S n))) carry hostport (ws (r (S n))) a q = source (ends (r (S n))) carry hostport (ws (r n)) a q ++ more.
Proof.
  unfold source. destruct (ends (r (S n)) a q) as [|j p|h].
  - exists []. reflexivity.
  - destruct (hist_next n j) as (es & ->). rewrite sent_app, omap_app. eauto.
  - destruct (hhist_next n) as (es & ->). unfold hub_out. rewrite flat_map_app. eauto.
Qed.
Lemma got_event (es : list (event V)) p k : In k (got_on p es) -> In (ERecv p k) es.
Proof. apply got_in. Qed.
Lemma wire_next n a q :
  (lab n <> Some (WDeliver a q) /\ exists more, wire (ws (r (S n))) a q = wire (ws (r n)) a q ++ more) \/
  (exists k rest more es d1 x, lab n = Some (WDeliver a q) /\ dnext n a (LRecv q k) es d1 x /\ wire (ws (r n)) a q = k :: rest /\ wire (ws (r (S n))) a q = rest ++ more).
Proof.
  destruct (source_grows n a q) as (more & G). assert (F0 := flow_is n (S n) a q ltac:(lia)). assert (F1 := flow_is (S n) (S n) a q ltac:(lia)).
  rewrite <- F0, <- F1 in G. unfold flow in G. destruct (dock_next n a) as [[E N]|(l & es & d1 & x & D)].
  - rewrite E, <- app_assoc in G. apply app_inv_head in G. left. split; [|eauto]. intros X. exact (N _ (LRecv q KError) X eq_refl).
  - assert (Gd : got_on q es = match l with LRecv p k => if p =? q then [k] else [] | _ => [] end).
    { assert (T := dn_tr _ _ _ _ _ _ D). assert (Hi := dn_hist1 _ _ _ _ _ _ D). clear - T Hi.
      destruct T; proj; rewrite <- ?app_assoc in Hi; first [apply app_inv_head in Hi; subst es|rewrite <- (app_nil_r (hist _)) in Hi at 1; apply app_inv_head in Hi; subst es]; cbn; try reflexivity; now rewrite ?app_nil_r. }
    rewrite (dn_hist _ _ _ _ _ _ D), got_app, <- !app_assoc, Gd in G. apply app_inv_head in G.
    destruct (dn_lab _ _ _ _ _ _ D) as (wl & El & Sh).
    assert (Q : (exists k, l = LRecv q k) \/ (lab n <> Some (WDeliver a q) /\ match l with LRecv p k => if p =? q then [k] else [] | _ => [] end = [])).
    { destruct l; try (right; split; auto; rewrite El; intros [= ->]; try destruct ok; repeat destruct Sh as [Sh|Sh]; try discriminate; destruct Sh as (? & ? & Sh); discriminate).
      destruct (Nat.eqb_spec p q) as [->|Np]; [left; eauto|right]. cbn in Sh. split; congruence. }
    destruct Q as [[k ->]|[Q1 Q2]]; [|left; rewrite Q2 in G; split; eauto].
    right. rewrite Nat.eqb_refl in G. cbn in G. destruct (wire (ws (r n)) a q) as [|k0 rest] eqn:Ew.
    + exfalso. assert (Wn := e_step _ _ _ _ _ _ Run n). cbn in Sh. rewrite El, Sh in Wn. cbn in Wn. destruct (existsb _ _); [discriminate|]. rewrite Ew in Wn. discriminate.
    + cbn in G. injection G as <- G. exists k, rest, more, es, d1, x. cbn in Sh. rewrite El, Sh. auto.
Qed.
Lemma query_hwire E i f : forall ps (s : sys) h, exists more, hwire (fold_left (fun s p => post_query E i f p s) ps s) h = hwire s h ++ more.
Proof.
  induction ps as [|p ps IH]; intros s h; cbn; [exists []; now rewrite app_nil_r|]. destruct (IH (post_query E i f p s) h) as (m & ->).
  unfold post_query. destruct (E i p) as [| |h']; eauto. cbn. unfold updp. destruct (Nat.eqb_spec h h') as [->|]; [|eauto]. rewrite <- app_assoc. eauto.
Qed.
Lemma dock_hwire E i l ps (s s' : sys) h : dock_step E carry i l ps s = Some s' -> exists more, hwire s' h = hwire s h ++ more.
Proof.
  unfold dock_step. destruct (dstep (sd s i) l) as [d|]; [|discriminate]. intros [= <-]. generalize (new_events (hist (sd s i)) (hist d)) as es. intros es.
  change (hwire s h) with (hwire (set_dock i d s) h). generalize (set_dock i d s). clear s. induction es as [|e es IH]; intros s; cbn; [exists []; now rewrite app_nil_r|].
  destruct (IH (post_event E carry i ps s e)) as (m & ->).
  assert (X : exists m, hwire (post_event E carry i ps s e) h = hwire s h ++ m).
  { unfold post_event. destruct e; try (exists []; now rewrite app_nil_r); [|apply query_hwire]. destruct accepted; [|exists []; now rewrite app_nil_r].
    unfold post. destruct (E i p) as [|j p'|h']; [exists []; now rewrite app_nil_r|destruct (pass carry i j k); exists []; now rewrite app_nil_r|].
    cbn. unfold updp. destruct (Nat.eqb_spec h h') as [->|]; [eauto|exists []; now rewrite app_nil_r]. }
  destruct X as (m' & ->). rewrite <- app_assoc. eauto.
Qed.
Lemma hub_hwire l (s s' : sys) : hub_step hub_end black raddr hostport l s = Some s' -> hwire s' = hwire s /\ HubModel.hstep black raddr (sh s) l = Some (sh s').
Proof.
  unfold hub_step. destruct (HubModel.hstep black raddr (sh s) l) as [h|] eqn:E; [|discriminate]. intros [= <-].
  match goal with |- context[fold_left _ ?es ?x] => destruct (hub_posts_rest hub_end hostport es x) as (_ & -> & ->) end. auto.
Qed.
Lemma wstep_hwire w wl w' h : wstep w wl = Some w' -> match wl with WLose _ _ _ | WHubLose _ _ => False | _ => True end ->
  (wl <> WHubDeliver h /\ exists more, hwire (ws w') h = hwire (ws w) h ++ more) \/
  (wl = WHubDeliver h /\ exists k rest, hwire (ws w) h = k :: rest /\ hwire (ws w') h = rest /\ HubModel.hstep black raddr (sh (ws w)) (HubModel.LRecv h k) = Some (sh (ws w'))).
Proof.
  intros H Nl.
  assert (On : forall w1 o, on w1 o = Some w' -> exists s', o = Some s' /\ w' = with_sys s' w1).
  { intros w1 [s'|]; [|discriminate]. intros [= <-]. eauto. }
  assert (D : forall (s : sys) i l ps s', sstep (ends w) hub_end carry black raddr hostport s (SDock i l ps) = Some s' -> exists more, hwire s' h = hwire s h ++ more).
  { intros s i l ps s' X. eapply (dock_hwire (ends w) i l ps). destruct l; try discriminate; exact X. }
  assert (D2 : forall (s : sys) i l l' s', exec (sstep (ends w) hub_end carry black raddr hostport) s [SDock i l []; SDock i l' []] = Some s' -> exists more, hwire s' h = hwire s h ++ more).
  { intros s i l l' s' X. cbn [exec] in X. destruct (sstep _ _ _ _ _ _ s (SDock i l [])) as [s1|] eqn:E1; [|discriminate].
    destruct (sstep _ _ _ _ _ _ s1 (SDock i l' [])) as [s2|] eqn:E2; [|discriminate]. injection X as <-. destruct (D _ _ _ _ _ E1) as (m1 & X1). destruct (D _ _ _ _ _ E2) as (m2 & ->).
    rewrite X1, <- app_assoc. eauto. }
  destruct wl; try contradiction.
  - left. split; [discriminate|]. assert (X : on w (sstep (ends w) hub_end carry black raddr hostport (ws w) (SDock i l (query_peers w i))) = Some w') by (destruct l; try discriminate; auto).
    apply On in X as (s' & Hs & ->). eapply D; eauto.
  - left. split; [discriminate|]. unfold WorldModel.wstep in H. destruct (existsb _ _); [discriminate|]. apply On in H as (s' & Hs & ->). cbn [sstep] in Hs.
    destruct (wire (ws w) i p) as [|k rest]; [discriminate|]. apply (dock_hwire (ends w) _ _ _ _ _ h) in Hs. exact Hs.
  - left. split; [discriminate|]. unfold WorldModel.wstep in H. apply On in H as (s' & Hs & ->). assert (X : hub_step hub_end black raddr hostport l (ws w) = Some s') by (destruct l; try discriminate; auto).
    apply hub_hwire in X as [X _]. cbn. rewrite X. exists []. now rewrite app_nil_r.
  - unfold WorldModel.wstep in H. apply On in H as (s' & Hs & ->). cbn [sstep] in Hs. destruct (hwire (ws w) h0) as [|k rest] eqn:Ew; [discriminate|].
    apply hub_hwire in Hs as [X Y]. cbn in *. destruct (Nat.eq_dec h0 h) as [->|N].
    + right. split; auto. exists k, rest. rewrite X, updp_same. auto.
    + left. split; [congruence|]. rewrite X, updp_other by auto. exists []. now rewrite app_nil_r.
  - left. split; [discriminate|]. unfold WorldModel.wstep in H. apply On in H as (s' & Hs & ->). destruct ok; [eapply D2; eauto|]. cbn [exec] in Hs.
    destruct (sstep _ _ _ _ _ _ (ws w) (SDock i (LDial false) [])) as [s1|] eqn:E1; [|discriminate]. injection Hs as <-. eapply D; eauto.
  - left. split; [discriminate|]. unfold WorldModel.wstep in H. destruct (handlers _ p); try discriminate. destruct (ok && _); [discriminate|]. apply On in H as (s' & Hs & ->). cbn [ws with_sys].
    eapply D; eauto.
  - left. split; [discriminate|]. unfold WorldModel.wstep in H. destruct (handlers _ p); try discriminate. destruct (_ && _); [|discriminate]. apply On in H as (s' & Hs & ->). eapply D2; eauto.
  - left. split; [discriminate|]. unfold WorldModel.wstep in H. destruct (handlers _ p); try discriminate. apply On in H as (s' & Hs & ->). eapply D; eauto.
  - left. split; [discriminate|]. unfold WorldModel.wstep in H. destruct (existsb _ _); [|discriminate]. apply On in H as (s' & Hs & ->). eapply D; eauto.
Qed.
Lemma hwire_next n h :
  (lab n <> Some (WHubDeliver h) /\ exists more, hwire (ws (r (S n))) h = hwire (ws (r n)) h ++ more) \/
  (lab n = Some (WHubDeliver h) /\ exists k rest, hwire (ws (r n)) h = k :: rest /\ hwire (ws (r (S n))) h = rest /\
     HubModel.hstep black raddr (hb n) (HubModel.LRecv h k) = Some (hb (S n))).
Proof.
  destruct (seen n) as [[El E]|(wl & El & St & X)].
  - left. rewrite El, E. split; [discriminate|]. exists []. now rewrite app_nil_r.
  - assert (C := proj1 Calm n). rewrite El in C. assert (C' : match wl with WLose _ _ _ | WHubLose _ _ => False | _ => True end) by (destruct wl; auto).
    destruct (wstep_hwire _ _ _ h St C') as [[N Y]|[-> Y]]; [left|right; rewrite El; auto]. split; auto. rewrite El. congruence.
Qed.
End Live.
