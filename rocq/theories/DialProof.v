(* How many connections a dock dials: no more than queries it sent. *)
From Verif Require Import Lts GoVal Tables DockModel DockSpec DockProof DockProof2 DockProof3 SysModel SysSpec SysProof SysProof2 SysProof3 WorldModel WorldSpec WorldProof WorldProof2 WorldProof3 WorldProof7 LiveProof LiveProof4 DialSpec.
From Verif Require HubModel HubSpec HubProof HubProof2 HubProof3 HubProof4.
From Coq Require Import Arith Bool List ZArith Lia.
Import ListNotations.
Open Scope nat_scope.

Definition count {A} (f : A -> bool) (l : list A) : nat := length (filter f l).
Lemma count_app {A} (f : A -> bool) a b : count f (a ++ b) = count f a + count f b.
Proof. unfold count. rewrite filter_app. apply app_length. Qed.

Section Dock.
Context {V : Type}.
Implicit Types d : dock V.
(* a dial under way on the connection to the hub *)
Definition dialling d : nat := match state d, handlers d 0 with Alive, ADial _ => 1 | _, _ => 0 end.
Definition addresses (h : list (event V)) : nat := count (fun e => match e with ERecv 0 (KAddress _) => true | _ => false end) h.
Lemma addresses_app a b : addresses (a ++ b) = addresses a + addresses b.
Proof. apply count_app. Qed.
Lemma dialling_step d l d' : state d = Alive -> tr V d l d' -> dialling d' + addresses (hist d) <= dialling d + addresses (hist d').
Proof.
  intros A T. unfold dialling. rewrite A. destruct T; proj; rewrite ?A; rewrite ?addresses_app; cbn [addresses count filter length]; unfold updp;
    repeat match goal with |- context [match handlers ?d ?x with _ => _ end] => is_var d; destruct (handlers d x) eqn:? end; try (cbn; lia);
    try (destruct p as [|p]; cbn in *; try congruence; repeat match goal with H : handlers _ _ = _ |- _ => rewrite H end; cbn; lia).
  all: try (destruct p as [|p]; destruct k; cbn in *; try congruence; lia).
Qed.
Lemma dialling_done d b d' a : state d = Alive -> tr V d (HNet 0 b) d' -> handlers d 0 = ADial a -> dialling d = 1 /\ dialling d' = 0 /\ addresses (hist d') = addresses (hist d).
Proof. intros A T H. unfold dialling. rewrite A, H. inversion T; subst; proj; try congruence; rewrite ?A; auto. Qed.
End Dock.

Section Hub.
Variables (black : list Z) (raddr : nat -> name).
Notation hstep := (HubModel.hstep black raddr).
(* the queries that peer p asked and those it was answered *)
Definition is_query (p : nat) (e : HubModel.event) : bool := match e with HubModel.ERecv p' (HubModel.PQuery _) => p' =? p | _ => false end.
Definition is_answer (p : nat) (e : HubModel.event) : bool := match e with HubModel.EAnswer _ p' _ _ _ _ => p' =? p | _ => false end.
Definition answered (p : nat) (h : list HubModel.event) : list nat := flat_map (fun e => match e with HubModel.EAnswer t p' _ _ _ _ => if p' =? p then [t] else [] | _ => [] end) h.
Lemma answered_count p h : length (answered p h) = count (is_answer p) h.
Proof. induction h as [|e h IH]; [reflexivity|]. unfold count, answered in *. cbn. rewrite app_length, IH. destruct e; cbn; auto. destruct (_ =? _); reflexivity. Qed.
Lemma answered_in p h t : In t (answered p h) -> exists j f k host port, nth_error h j = Some (HubModel.EAnswer t p f k host port).
Proof.
  intros H. apply in_flat_map in H as (e & I & H). destruct e; try destruct H. destruct (Nat.eqb_spec p0 p) as [->|]; [|destruct H]. destruct H as [->|[]].
  apply In_nth_error in I as [j J]. eauto 6.
Qed.
Lemma answered_once p h : (forall t, length (HubSpec.answers t h) <= 1) -> NoDup (answered p h).
Proof.
  intros H. apply (NoDup_count_occ Nat.eq_dec). intros t. etransitivity; [|apply (H t)]. clear. unfold HubSpec.answers, answered.
  induction h as [|e h IH]; [apply le_n|]. cbn. rewrite count_occ_app, app_length. apply Nat.add_le_mono; auto.
  destruct e; cbn; auto. destruct (p0 =? p); cbn; [|lia]. destruct (Nat.eq_dec t0 t) as [->|]; [rewrite Nat.eqb_refl; auto|lia].
Qed.
Fixpoint places (p b : nat) (h : list HubModel.event) : list nat := match h with [] => [] | e :: h' => (if is_query p e then [b] else []) ++ places p (S b) h' end.
Lemma places_count p h : forall b, length (places p b h) = count (is_query p) h.
Proof. induction h as [|e h IH]; intros b; [reflexivity|]. cbn. rewrite app_length, IH. unfold count. cbn. destruct (is_query p e); reflexivity. Qed.
Lemma places_in p f h : forall b t, nth_error h t = Some (HubModel.ERecv p (HubModel.PQuery f)) -> In (b + t) (places p b h).
Proof.
  induction h as [|e h IH]; intros b [|t] E; try discriminate; cbn.
  - injection E as ->. cbn. rewrite Nat.eqb_refl, Nat.add_0_r. now left.
  - apply in_or_app. right. rewrite <- Nat.add_succ_comm. apply IH, E.
Qed.
Lemma answers_bounded ls s p : exec hstep HubModel.new_hub ls = Some s -> count (is_answer p) (HubModel.hist s) <= count (is_query p) (HubModel.hist s).
Proof.
  intros E. rewrite <- answered_count, <- (places_count p _ 0). apply NoDup_incl_length; [apply answered_once, (HubProof4.one_answer _ _ _ _ E)|].
  intros t I. destruct (answered_in _ _ _ I) as (j & f & k & host & port & J). destruct (HubProof3.qinv_exec _ _ _ _ E) as (_ & _ & Q).
  destruct (HubProof3.q_answer _ _ Q _ _ _ _ _ _ _ J) as (_ & X & _). apply (places_in p f _ 0), X.
Qed.
End Hub.

Section World.
Context {V : Type}.
Variables (carried : nat -> list (name * bool)).
Variable carry : nat -> nat -> list V -> option (list V).
Variables (black : list Z) (raddr : nat -> name).
Notation wstep := (wstep carry black raddr).
Notation run ls w := (exec wstep (winit carried) ls = Some w).
Notation sys := (SysModel.sys V).

(* queries on their way to the hub and there, from dock i *)
Definition isq (k : HubModel.packet) : bool := match k with HubModel.PQuery _ => true | _ => false end.
Definition qflow (s : sys) h : nat := count (is_query h) (HubModel.hist (sh s)) + count isq (hwire s h).
Lemma asked_app (a b : list (event V)) : asked (a ++ b) = asked a + asked b.
Proof. apply count_app. Qed.
Lemma post_queries E i ps : wired E hub_end -> (forall p, In p ps -> p = 0) -> length ps <= 1 -> forall es s, (forall p f acc, ~ In (ESend p (KQuery f) acc) es) ->
  forall h, count isq (hwire (fold_left (post_event E carry i ps) es s : sys) h) <= count isq (hwire s h) + (if h =? i then asked es else 0).
Proof.
  intros W P L. induction es as [|e es IH]; intros s N h; cbn [fold_left]; [lia|].
  etransitivity; [apply IH; intros p f acc I; apply (N p f acc); now right|]. change (e :: es) with ([e] ++ es). rewrite asked_app.
  enough (count isq (hwire (post_event E carry i ps s e) h) <= count isq (hwire s h) + (if h =? i then asked [e] else 0)) by (destruct (h =? i); lia).
  destruct e; cbn [post_event]; try lia.
  - destruct accepted; [|lia]. unfold post. destruct (E i p) as [|j p'|h'] eqn:Ee; [lia|destruct (pass carry i j k); apply Nat.le_add_r|].
    cbn [hwire set_hwire]. unfold updp. destruct (Nat.eqb_spec h h') as [->|]; [|apply Nat.le_add_r]. rewrite count_app. enough (count isq [to_hub k] = 0) as -> by (rewrite Nat.add_0_r; apply Nat.le_add_r). destruct k; try reflexivity. destruct (N p slot true). now left.
  - destruct ps as [|p [|]]; cbn in L; [cbn; lia| |lia]. cbn [fold_left]. unfold post_query. destruct (E i p) as [|j p'|h'] eqn:Ee; try lia.
    apply W in Ee. unfold hub_end in Ee. injection Ee as -> ->. cbn [hwire set_hwire]. unfold updp. destruct (Nat.eqb_spec h i) as [->|]; [|apply Nat.le_add_r]. rewrite count_app. unfold count at 2. unfold asked. cbn [filter isq length]. lia.
Qed.
Lemma no_query_sent (d : dock V) l d' es : tr V d l d' -> hist d' = hist d ++ es -> forall p f acc, ~ In (ESend p (KQuery f) acc) es.
Proof. intros T G p f acc I. apply in_split in I as (u & v & ->). event T G. Qed.
Lemma dock_queries E s s1 i l ps s' : wired E hub_end -> (forall p, In p ps -> p = 0) -> length ps <= 1 -> sd s1 = sd s -> sh s1 = sh s -> hwire s1 = hwire s ->
  dock_step E carry i l ps s1 = Some s' -> forall h, qflow s' h + asked (hist (sd s h)) <= qflow s h + asked (hist (sd s' h)).
Proof.
  intros W P L Ed Eh Ew H h. unfold dock_step in H. rewrite Ed in H. destruct (dstep (sd s i) l) as [d|] eqn:Es; [|discriminate].
  destruct (dstep_got _ _ _ Es) as (es & He & _). rewrite He, new_app in H. injection H as <-. apply dstep_tr in Es as [_ T].
  destruct (post_docks E carry i ps es (set_dock i d s1)) as [Pd Ph]. pose proof (post_queries E i ps W P L es (set_dock i d s1) (no_query_sent _ _ _ _ T He) h) as X.
  unfold qflow. rewrite Ph, Pd. cbn [sh sd hwire set_dock] in *. rewrite Eh, Ed, Ew in *. unfold updp. destruct (Nat.eqb_spec h i) as [->|]; [rewrite He, asked_app|]; lia.
Qed.
Lemma is_query_got h es : count (is_query h) es = count isq (hub_got h es).
Proof. unfold count, hub_got. induction es as [|e es IH]; [reflexivity|]. cbn. rewrite filter_app, app_length, <- IH. destruct e; auto. cbn. destruct k; destruct (p =? h); cbn; auto. Qed.
Lemma hub_queries s s1 l s' : sd s1 = sd s -> sh s1 = sh s -> hub_step hub_end black raddr hostport l s1 = Some s' ->
  (forall h, hwire s h = match l with HubModel.LRecv h' k => if h' =? h then [k] else [] | _ => [] end ++ hwire s1 h) ->
  sd s' = sd s /\ forall h, qflow s' h = qflow s h.
Proof.
  intros Ed Eh H Hw. unfold hub_step in H. rewrite Eh in H. destruct (HubModel.hstep black raddr (sh s) l) as [hb|] eqn:Es; [|discriminate].
  destruct (hstep_got _ _ _ _ _ Es) as (es & He & G). rewrite He, new_app in H. injection H as <-.
  destruct (hub_posts_rest hub_end hostport es (set_hub hb s1)) as (Pd & Ph & Pw). split; [rewrite Pd; exact Ed|]. intros h.
  unfold qflow. rewrite Ph, Pw. cbn [sh hwire set_hub]. rewrite He, count_app, (is_query_got h es), G, (Hw h), count_app. lia.
Qed.
Lemma world_queries w l w' : winv w -> wstep w l = Some w' -> forall h, qflow (ws w') h + asked (hist (sd (ws w) h)) <= qflow (ws w) h + asked (hist (sd (ws w') h)).
Proof.
  intros I H. assert (W := wi_wired _ I).
  assert (On : forall w1 o, on w1 o = Some w' -> exists s', o = Some s' /\ w' = with_sys s' w1).
  { intros w1 [s'|]; [|discriminate]. intros [= <-]. eauto. }
  assert (D : forall s i l s', sstep (ends w) hub_end carry black raddr hostport s (SDock i l []) = Some s' -> forall h, qflow s' h + asked (hist (sd s h)) <= qflow s h + asked (hist (sd s' h))).
  { intros s i l0 s' X. assert (Y : dock_step (ends w) carry i l0 [] s = Some s') by (destruct l0; try exact X; discriminate). eapply dock_queries with (s1 := s) (ps := []); eauto. intros p []. }
  destruct l.
  - assert (X : on w (sstep (ends w) hub_end carry black raddr hostport (ws w) (SDock i l (query_peers w i))) = Some w') by (destruct l; try discriminate; auto).
    apply (On w) in X as (s' & Hs & ->). assert (Y : dock_step (ends w) carry i l (query_peers w i) (ws w) = Some s') by (destruct l; try exact Hs; discriminate).
    eapply dock_queries with (s1 := ws w); eauto; unfold query_peers; destruct (sockets _) as [|[] ?]; cbn; try lia; try (intros p []); auto; intros p [<-|[]]; reflexivity.
  - cbn in H. destruct (existsb _ _); [discriminate|]. apply (On w) in H as (s' & Hs & ->). cbn [sstep] in Hs. destruct (wire (ws w) i p) as [|k r] eqn:Ew; [discriminate|].
    eapply dock_queries with (s1 := set_wire i p r (ws w)) (ps := []); eauto. intros q [].
  - apply (On w) in H as (s' & Hs & ->). injection Hs as <-. intros h. apply le_n.
  - apply (On w) in H as (s' & Hs & ->).
    assert (X : hub_step hub_end black raddr hostport l (ws w) = Some s' /\ match l with HubModel.LRecv _ _ => False | _ => True end) by (destruct l; try discriminate; auto).
    destruct X as [X N]. destruct (hub_queries (ws w) (ws w) l s') as [Y Z]; auto; [intros h; destruct l; auto; destruct N|]. cbn [ws with_sys]. intros h. rewrite Y, Z. lia.
  - apply (On w) in H as (s' & Hs & ->). cbn [sstep] in Hs. destruct (hwire (ws w) h) as [|k r] eqn:Ew; [discriminate|].
    destruct (hub_queries (ws w) (set_hwire h r (ws w)) (HubModel.LRecv h k) s') as [Y Z]; auto; [|cbn [ws with_sys]; intros h'; rewrite Y, Z; lia].
    intros h'. cbn. unfold updp. rewrite (Nat.eqb_sym h' h). destruct (Nat.eqb_spec h h') as [<-|]; auto.
  - apply (On w) in H as (s' & Hs & ->). injection Hs as <-. intros h'. cbn [ws with_sys sd set_hwire]. apply Nat.add_le_mono_r. unfold qflow. cbn [sh hwire set_hwire]. apply Nat.add_le_mono_l.
    unfold updp. destruct (Nat.eqb_spec h' h) as [->|]; auto. apply sq_length, sq_filter, sq_drop.
  - unfold WorldModel.wstep in H. apply (On w) in H as (s' & Hs & ->). destruct ok; cbn [exec] in Hs.
    + destruct (sstep _ _ _ _ _ _ (ws w) (SDock i (LDial true) [])) as [s1|] eqn:E1; [|discriminate].
      destruct (sstep _ _ _ _ _ _ s1 (SDock i (LConnected 0) [])) as [s2|] eqn:E2; [|discriminate]. injection Hs as <-. intros h.
      pose proof (D _ _ _ _ E1 h). pose proof (D _ _ _ _ E2 h). cbn [ws with_sys]. lia.
    + destruct (sstep _ _ _ _ _ _ (ws w) (SDock i (LDial false) [])) as [s1|] eqn:E1; [|discriminate]. injection Hs as <-. exact (D _ _ _ _ E1).
  - unfold WorldModel.wstep in H. destruct (handlers _ p) as [| | | | | | |n| | | | |] eqn:Eh; try discriminate. destruct (_ && _); [discriminate|].
    apply On in H as (s' & Hs & ->). exact (D _ _ _ _ Hs).
  - unfold WorldModel.wstep in H. destruct (handlers _ p) eqn:Eh; try discriminate. destruct (_ && _) eqn:Ea; [|discriminate].
    apply On in H as (s' & Hs & ->). cbn [exec] in Hs.
    destruct (sstep _ _ _ _ _ _ (ws w) (SDock i (HNet p true) [])) as [s1|] eqn:E1; [|discriminate].
    destruct (sstep _ _ _ _ _ _ s1 (SDock i (LConnected (peers w i)) [])) as [s2|] eqn:E2; [|discriminate]. injection Hs as <-. intros h.
    pose proof (D _ _ _ _ E1 h). pose proof (D _ _ _ _ E2 h). cbn [ws with_sys]. lia.
  - unfold WorldModel.wstep in H. destruct (handlers _ p) eqn:Eh; try discriminate. apply On in H as (s' & Hs & ->). exact (D _ _ _ _ Hs).
  - unfold WorldModel.wstep in H. destruct (existsb _ _) eqn:Eb; [|discriminate]. apply On in H as (s' & Hs & ->). exact (D _ _ _ _ Hs).
Qed.
Lemma queries_sent ls w h : run ls w -> qflow (ws w) h <= asked (hist (sd (ws w) h)).
Proof.
  revert w. induction ls as [|l ls IH] using rev_ind; intros w' R; [injection R as <-; cbn; lia|].
  rewrite exec_app in R. destruct (exec wstep (winit carried) ls) as [w|] eqn:E; [|discriminate]. cbn in R. destruct (wstep w l) as [w1|] eqn:Es; [|discriminate]. injection R as <-.
  destruct (run_sys _ _ _ _ _ _ E) as (I & _). pose proof (world_queries _ _ _ I Es h). specialize (IH _ eq_refl). lia.
Qed.
(* addresses reach a dock on its connection to the hub *)
Lemma address_peer ls w i p a : run ls w -> In (ERecv p (KAddress a)) (hist (sd (ws w) i)) -> p = 0.
Proof.
  intros R I. assert (O := run_ok _ _ _ _ _ _ R). pose proof (came_from _ _ _ _ _ _ _ _ _ _ _ O I) as C. destruct (run_sys _ _ _ _ _ _ R) as (Wi & _).
  destruct (ends w i p) as [|j p'|h] eqn:El; [destruct C| |].
  - destruct C as (k0 & Hs & A). destruct (docks_run _ _ _ _ _ _ _ _ O j) as [lj Lj]. apply (dock_sends _ _ _ _ _ _ Lj) in Hs. inversion A; subst; destruct Hs.
  - apply (wi_wired _ Wi) in El. injection El as _ ->. reflexivity.
Qed.
Lemma addresses_answered ls w i : run ls w -> addresses (hist (sd (ws w) i)) <= count (is_answer i) (HubModel.hist (sh (ws w))).
Proof.
  intros R. assert (O := run_ok _ _ _ _ _ _ R). destruct (run_sys _ _ _ _ _ _ R) as (Wi & _). pose proof (flows _ _ _ _ _ _ _ _ O i 0) as F.
  unfold flow, source in F. rewrite (hub_known _ _ Wi) in F. apply (sq_filter (fun k => match k with KAddress _ => true | _ => false end)), sq_length in F. rewrite filter_app, app_length in F.
  assert (A : addresses (hist (sd (ws w) i)) = length (filter (fun k => match k with KAddress _ => true | _ => false end) (got_on 0 (hist (sd (ws w) i))))).
  { unfold addresses, count, got_on. clear. induction (hist (sd (ws w) i)) as [|e h IH]; [reflexivity|]. cbn. rewrite filter_app, app_length, <- IH. destruct e; auto. destruct p; cbn; auto. destruct k; reflexivity. }
  assert (B : count (is_answer i) (HubModel.hist (sh (ws w))) = length (filter (fun k => match k with KAddress _ => true | _ => false end) (hub_out (V := V) hostport i (HubModel.hist (sh (ws w)))))).
  { unfold count, hub_out. clear. induction (HubModel.hist (sh (ws w))) as [|e h IH]; [reflexivity|]. cbn. rewrite filter_app, app_length, <- IH. destruct e; auto; cbn; destruct (_ =? _); reflexivity. }
  lia.
Qed.
Lemma dials_app i (a b : list (wlab V)) : dials i (a ++ b) = dials i a + dials i b.
Proof. apply count_app. Qed.
Lemma dials_addresses ls w i : run ls w -> dials i ls + dialling (sd (ws w) i) <= addresses (hist (sd (ws w) i)).
Proof.
  revert w. induction ls as [|l ls IH] using rev_ind; intros w' R; [injection R as <-; cbn; lia|].
  rewrite exec_app in R. destruct (exec wstep (winit carried) ls) as [w|] eqn:E; [|discriminate]. cbn in R. destruct (wstep w l) as [w1|] eqn:Es; [|discriminate]. injection R as <-.
  destruct (run_sys _ _ _ _ _ _ E) as (I & _). specialize (IH _ eq_refl). rewrite dials_app.
  destruct (match l with WLose _ _ _ | WHubLose _ _ => true | _ => false end) eqn:Lo.
  { destruct l; try discriminate; cbn in Es; injection Es as <-; cbn; lia. }
  enough (K : dials i [l] + dialling (sd (ws w1) i) + addresses (hist (sd (ws w) i)) <= dialling (sd (ws w) i) + addresses (hist (sd (ws w1) i))) by lia.
  destruct (wstep_shown carried carry black raddr _ _ _ I Es) as [(i0 & l0 & es & s1 & M & Sh & Z)|(l0 & es & M & Sh)]; [destruct l; try discriminate Lo; exact Logic.I| |].
  2:{ rewrite (hm_docks _ _ _ _ _ _ M). enough (dials i [l] = 0) by lia. destruct l0; cbn in Sh; subst; reflexivity. }
  assert (A1 := dm_alive _ _ _ _ _ _ _ M).
  assert (Z' : sd (ws w1) i = sd s1 i \/ exists p es2, dmove carry (ends w) s1 i (LConnected p) es2 (ws w1)).
  { destruct Z as [->|(p & es2 & M2)]; [now left|]. destruct (Nat.eq_dec i i0) as [->|N]; [right; eauto|]. left. apply (dm_other _ _ _ _ _ _ _ M2). auto. }
  assert (Z2 : dialling (sd (ws w1) i) + addresses (hist (sd s1 i)) <= dialling (sd s1 i) + addresses (hist (sd (ws w1) i))).
  { destruct Z' as [->|(p & es2 & M2)]; [lia|]. eapply dialling_step; [eapply dm_alive; eauto|eapply dm_tr; eauto]. }
  enough (K : dials i [l] + dialling (sd s1 i) + addresses (hist (sd (ws w) i)) <= dialling (sd (ws w) i) + addresses (hist (sd s1 i))) by lia.
  clear Z Z' Z2. destruct (Nat.eq_dec i i0) as [<-|N].
  - assert (X : dials i [l] = 0 \/ exists p b a, l0 = HNet p b /\ handlers (sd (ws w) i) p = ADial a /\ dials i [l] <= 1).
    { destruct l; auto; right.
      - destruct (connected_now _ _ _ _ _ _ _ _ _ Es) as (a & Ha & _). destruct l0; cbn in Sh; try discriminate. destruct ok; destruct Sh as [Sh|Sh]; try discriminate. destruct Sh as (? & ? & Sh). injection Sh; intros; subst.
        exists p0, true, a. repeat split; auto. unfold dials. cbn. destruct (_ =? _); cbn; lia.
      - unfold WorldModel.wstep in Es. destruct (handlers (sd (ws w) i0) p) eqn:Eh; try discriminate. destruct l0; cbn in Sh; try discriminate. destruct ok; destruct Sh as [Sh|Sh]; try discriminate; [destruct Sh as (? & ? & Sh); discriminate|].
        injection Sh; intros; subst. exists p0, false, addr. repeat split; auto. unfold dials. cbn. destruct (_ =? _); cbn; lia. }
    destruct X as [->|(p & b & a & -> & Ha & L)].
    + apply (dialling_step _ _ _ A1 (dm_tr _ _ _ _ _ _ _ M)).
    + destruct (docks_run _ _ _ _ _ _ _ _ (run_ok _ _ _ _ _ _ E) i) as [li Li]. pose proof (told_inv _ _ _ Li p) as T. rewrite Ha in T.
      pose proof (address_peer _ _ _ _ _ E T). subst p. destruct (dialling_done _ _ _ _ A1 (dm_tr _ _ _ _ _ _ _ M) Ha) as (-> & -> & ->). lia.
  - rewrite (dm_other _ _ _ _ _ _ _ M) by auto. enough (dials i [l] = 0) by lia.
    destruct l; auto; destruct l0; cbn in Sh; try discriminate; try destruct ok; destruct Sh as [Sh|Sh]; try discriminate; try (destruct Sh as (? & ? & Sh); try discriminate); injection Sh; intros; subst;
      unfold dials; cbn; apply Nat.neq_sym, Nat.eqb_neq in N; rewrite N; reflexivity.
Qed.
Theorem dials_asked ls w i : run ls w -> dials i ls <= asked (hist (sd (ws w) i)).
Proof.
  intros R. pose proof (dials_addresses _ _ i R). pose proof (addresses_answered _ _ i R). pose proof (queries_sent _ _ i R) as Q. unfold qflow in Q.
  destruct (hub_runs _ _ _ _ _ _ _ _ (run_ok _ _ _ _ _ _ R)) as [lh Lh]. pose proof (answers_bounded _ _ _ _ i Lh). lia.
Qed.
End World.
