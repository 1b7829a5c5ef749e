(* What one step of a network does, case by case. *)
From Verif Require Import Lts GoVal Tables DockModel DockSpec DockProof DockProof2 DockProof3 DockProof4 SysModel SysSpec SysProof WorldModel WorldSpec WorldProof.
From Verif Require HubModel HubSpec.
From Coq Require Import Arith Bool List ZArith Lia.
Import ListNotations.
Open Scope nat_scope.

Section View.
Context {V : Type}.
Variables (carried : nat -> list (name * bool)).
Variable carry : nat -> nat -> list V -> option (list V).
Variables (black : list Z) (raddr : nat -> name).
Notation sys := (SysModel.sys V).
Notation step E := (sstep E hub_end carry black raddr hostport).
Implicit Types w : world V.

(* dock i takes step l, with new events es *)
Record dmove (E : nat -> nat -> wend) (s : sys) (i : nat) (l : label V) (es : list (event V)) (s' : sys) : Prop := {
  dm_tr : tr V (sd s i) l (sd s' i);
  dm_alive : state (sd s i) = Alive;
  dm_hist : hist (sd s' i) = hist (sd s i) ++ es;
  dm_other : forall a, a <> i -> sd s' a = sd s a;
  dm_hub : sh s' = sh s;
  dm_wire : forall a q k, In k (wire s a q) -> In k (wire s' a q) \/ (a = i /\ l = LRecv q k);
  dm_sent : forall p k j q k', In (ESend p k true) es -> E i p = ToDock j q -> pass carry i j k = Some k' -> In k' (wire s' j q);
  dm_hwire : forall h k, In k (hwire s h) -> In k (hwire s' h);
  dm_hsent : forall k, In (ESend 0 k true) es -> In (to_hub k) (hwire s' i);
  dm_asked : forall f, In (EQuery DockModel.SHub f) es -> In (HubModel.PQuery f) (hwire s' i);
  dm_got : forall q k, l = LRecv q k -> In k (wire s i q) }.
(* the hub takes step l *)
Record hmove (s : sys) (l : HubModel.label) (es : list HubModel.event) (s' : sys) : Prop := {
  hm_step : HubModel.hstep black raddr (sh s) l = Some (sh s');
  hm_hist : HubModel.hist (sh s') = HubModel.hist (sh s) ++ es;
  hm_docks : sd s' = sd s;
  hm_wire : forall a q k, In k (wire s a q) -> In k (wire s' a q);
  hm_reply : forall h n, In (HubModel.EReply h n) es -> In (KRegistered n) (wire s' h 0);
  hm_answer : forall t h f k host n, In (HubModel.EAnswer t h f k host n) es -> In (KAddress (hostport host n)) (wire s' h 0);
  hm_hwire : forall h k, In k (hwire s h) -> In k (hwire s' h) \/ l = HubModel.LRecv h k }.

Lemma query_in E i f : forall ps s h k, In k (hwire s h) -> In k (hwire (fold_left (fun s p => post_query E i f p s) ps s : sys) h).
Proof.
  induction ps as [|p ps IH]; intros s h k K; cbn; auto. apply IH. unfold post_query. destruct (E i p); auto. cbn. unfold updp. destruct (Nat.eqb_spec h h0) as [->|]; auto.
  apply in_or_app. auto.
Qed.
Lemma post_one_in E i ps s e h k : In k (hwire s h) -> In k (hwire (post_event E carry i ps s e) h).
Proof.
  intros K. unfold post_event. destruct e; auto; [|apply query_in; auto]. destruct accepted; auto. unfold post.
  destruct (E i p); auto; [destruct (pass carry i j k0); auto|]. cbn. unfold updp. destruct (Nat.eqb_spec h h0) as [->|]; auto. apply in_or_app. auto.
Qed.
Lemma post_in E i ps : forall es s h k, In k (hwire s h) -> In k (hwire (fold_left (post_event E carry i ps) es s) h).
Proof. induction es as [|e es IH]; intros s h k K; cbn; auto. apply IH, post_one_in, K. Qed.
Lemma post_adds E i ps h k e : (forall s, In k (hwire (post_event E carry i ps s e) h)) -> forall es s, In e es -> In k (hwire (fold_left (post_event E carry i ps) es s) h).
Proof. intros H. induction es as [|x es IH]; intros s []; cbn; [subst; apply post_in, H|apply IH; auto]. Qed.

Lemma tr_query (d : dock V) l d' es k f : tr V d l d' -> hist d' = hist d ++ es -> In (EQuery k f) es ->
  (exists ks, sockets d = k :: ks) /\ match l with HCommit _ _ | CStep _ _ => True | _ => False end.
Proof. intros T G I. apply in_split in I as (es1 & es2 & ->). event T G; split; eauto. Qed.

Lemma dock_dmove E s s1 i l ps s' : wired E hub_end -> E i 0 = ToHub i -> sd s1 = sd s -> sh s1 = sh s -> hwire s1 = hwire s ->
  (forall a q k, In k (wire s a q) -> In k (wire s1 a q) \/ (a = i /\ l = LRecv q k)) -> (forall q k, l = LRecv q k -> In k (wire s i q)) ->
  (ps = match sockets (sd s i) with DockModel.SHub :: _ => [0] | _ => [] end \/ match l with HCommit _ _ | CStep _ _ => False | _ => True end) ->
  dock_step E carry i l ps s1 = Some s' -> exists es, dmove E s i l es s'.
Proof.
  intros W E0 Ed Eh Ehw Hw Hg Hp H. unfold dock_step in H. rewrite Ed in H. destruct (dstep (sd s i) l) as [d|] eqn:Es; [|discriminate].
  apply dstep_tr in Es as [Al T]. destruct (tr_hist _ _ _ T) as [es He]. rewrite He, new_app in H.
  destruct (post_docks E carry i ps es (set_dock i d s1)) as [Pd Ph]. injection H as H. rewrite H in Pd, Ph.
  assert (Pw := posts carried E hub_end carry black raddr hostport W i ps es (set_dock i d s1)). rewrite H in Pw. cbn [wire set_dock] in Pw.
  assert (D : sd s' i = d) by (rewrite Pd; cbn; rewrite updp_same; auto).
  exists es. split.
  - rewrite D. auto.
  - auto.
  - rewrite D. auto.
  - intros a N. rewrite Pd. cbn. rewrite Ed, updp_other; auto.
  - rewrite Ph. exact Eh.
  - intros a q k K. rewrite Pw. apply Hw in K as [K|K]; auto. left. apply in_or_app. auto.
  - intros p k j q k' K El Hk. rewrite Pw. apply in_or_app. right. unfold into. apply W in El. rewrite El, Nat.eqb_refl.
    assert (Y : In k (sent_on p es)) by (unfold sent_on; apply in_flat_map; eexists; split; [exact K|]; cbn; rewrite Nat.eqb_refl; now left).
    clear - Y Hk. induction (sent_on p es) as [|x l IH]; [destruct Y|]. cbn. destruct Y as [->|Y]; [rewrite Hk; now left|]. destruct (pass carry i j x); [right|]; auto.
  - intros h k K. rewrite <- H. apply post_in. cbn. rewrite Ehw. auto.
  - intros k K. rewrite <- H. eapply post_adds; [|exact K]. intros s0. cbn. unfold post. rewrite E0. cbn. rewrite updp_same. apply in_or_app. right. now left.
  - intros f K. destruct (tr_query _ _ _ _ _ _ T He K) as [[ks Q] L]. destruct Hp as [->|Hp]; [|destruct l; tauto]. rewrite Q in *.
    rewrite <- H. eapply post_adds; [|exact K]. intros s0. cbn. unfold post_query. rewrite E0. cbn. rewrite updp_same. apply in_or_app. right. now left.
  - exact Hg.
Qed.
Lemma hub_hmove E s s1 l s' : wired E hub_end -> (forall h, E h 0 = ToHub h) -> sd s1 = sd s -> sh s1 = sh s -> wire s1 = wire s ->
  (forall h k, In k (hwire s h) -> In k (hwire s1 h) \/ l = HubModel.LRecv h k) ->
  hub_step hub_end black raddr hostport l s1 = Some s' -> exists es, hmove s l es s'.
Proof.
  intros W E0 Ed Eh Ew Hw H. unfold hub_step in H. rewrite Eh in H. destruct (HubModel.hstep black raddr (sh s) l) as [hb|] eqn:Es; [|discriminate].
  destruct (hstep_grows _ _ _ _ _ Es) as (es & He & _). rewrite He, new_app in H. injection H as H.
  destruct (hub_posts_rest hub_end hostport es (set_hub hb s1)) as (Pd & Ph & Phw). rewrite H in Pd, Ph, Phw.
  assert (Pw := hub_posts carried E hub_end carry black raddr hostport W es (set_hub hb s1)). rewrite H in Pw. cbn [wire set_hub] in Pw.
  assert (O : forall h k e, In e es -> hub_out hostport h [e] = [k] -> In k (wire s' h 0)).
  { intros h k e I X. rewrite Pw. apply in_or_app. right. unfold hub_into. rewrite E0. apply in_split in I as (e1 & e2 & ->).
    change (e :: e2) with ([e] ++ e2). unfold hub_out in *. rewrite !flat_map_app, X. apply in_or_app. right. now left. }
  exists es. split.
  - rewrite Ph. exact Es.
  - rewrite Ph. exact He.
  - rewrite Pd. exact Ed.
  - intros a q k K. rewrite Pw, Ew. apply in_or_app. auto.
  - intros h n K. eapply O; eauto. cbn. rewrite Nat.eqb_refl. reflexivity.
  - intros t h f k host n K. eapply O; eauto. cbn. rewrite Nat.eqb_refl. reflexivity.
  - intros h k K. rewrite Phw. apply Hw, K.
Qed.

(* the kinds of step *)
Inductive view w : wlab V -> world V -> Prop :=
| v_dock i l es w' : dmove (ends w) (ws w) i l es (ws w') -> ends w' = ends w -> peers w' = peers w -> backlog w' = backlog w -> listeners w' = listeners w ->
    match l with LConnected _ | LDial true | LRecv _ _ | HNet _ true => False | _ => True end ->
    forall wl, (wl = WDock i l \/ match l with LDial _ | HNet _ _ => True | _ => False end) -> match wl with WLose _ _ _ | WHubLose _ _ => False | WDial j ok => i = j /\ l = LDial ok /\ ok = false | _ => True end -> view w wl w'
| v_deliver i p k es w' : dmove (ends w) (ws w) i (LRecv p k) es (ws w') -> ends w' = ends w -> peers w' = peers w -> backlog w' = backlog w -> listeners w' = listeners w ->
    ~ In p (backlog w i) -> view w (WDeliver i p) w'
| v_listen i p n es w' : dmove (ends w) (ws w) i (HNet p true) es (ws w') -> ends w' = ends w -> peers w' = peers w -> backlog w' = backlog w ->
    handlers (sd (ws w) i) p = BListen n -> port_free raddr w i n = true -> listeners w' = listeners w ++ [(i, n)] -> view w (WListen i p true) w'
| v_accept i p es w' : dmove (ends w) (ws w) i (LConnected p) es (ws w') -> ends w' = ends w -> peers w' = peers w -> In p (backlog w i) ->
    (forall j q, In q (backlog w' j) -> In q (backlog w j)) -> listeners w' = listeners w -> view w (WAccept i p) w'
| v_hub l es w' : hmove (ws w) l es (ws w') -> ends w' = ends w -> peers w' = peers w -> backlog w' = backlog w -> listeners w' = listeners w ->
    forall wl, wl = WHub l \/ (exists h, wl = WHubDeliver h) -> view w wl w'
| v_dial i es1 es2 s1 w' : dmove (ends w) (ws w) i (LDial true) es1 s1 -> dmove (ends w) s1 i (LConnected 0) es2 (ws w') ->
    ends w' = ends w -> peers w' = peers w -> backlog w' = backlog w -> listeners w' = listeners w -> view w (WDial i true) w'
| v_connect i p j n a es1 es2 s1 s2 : dmove (ends w) (ws w) i (HNet p true) es1 s1 -> dmove (ends w) s1 i (LConnected (peers w i)) es2 s2 ->
    handlers (sd (ws w) i) p = ADial a -> a = hostport (machine raddr j) n -> listens w j n = true -> view w (WConnect i p j n) (with_sys s2 (join i j w))
| v_lose w' : ends w' = ends w -> peers w' = peers w -> backlog w' = backlog w -> listeners w' = listeners w -> sd (ws w') = sd (ws w) -> sh (ws w') = sh (ws w) ->
    forall wl, match wl with WLose _ _ _ | WHubLose _ _ => True | _ => False end -> view w wl w'.

Lemma wstep_view w l w' : winv w -> wstep carry black raddr w l = Some w' -> view w l w'.
Proof.
  intros I H. assert (I' := I). destruct I' as [W F O B]. assert (E0 := fun i => hub_known w i I).
  assert (On : forall w1 o, on w1 o = Some w' -> exists s', o = Some s' /\ w' = with_sys s' w1).
  { intros w1 [s'|]; [|discriminate]. intros [= <-]. eauto. }
  assert (D : forall s i l s', match l with LRecv _ _ => False | _ => True end -> match l with HCommit _ _ | CStep _ _ => False | _ => True end ->
    step (ends w) s (SDock i l []) = Some s' -> exists es, dmove (ends w) s i l es s').
  { intros s i l0 s' N N' X. assert (Y : dock_step (ends w) carry i l0 [] s = Some s') by (destruct l0; try exact X; destruct N).
    eapply dock_dmove with (s1 := s); eauto. intros q k ->. destruct N. }
  destruct l.
  - assert (X : on w (step (ends w) (ws w) (SDock i l (query_peers w i))) = Some w' /\ match l with LConnected _ | LDial _ | LRecv _ _ | HNet _ _ => False | _ => True end)
      by (destruct l; try discriminate; auto).
    destruct X as [X N]. apply (On w) in X as (s' & Hs & ->).
    assert (Y : dock_step (ends w) carry i l (query_peers w i) (ws w) = Some s') by (destruct l; try exact Hs; destruct N).
    destruct (dock_dmove (ends w) (ws w) (ws w) i l (query_peers w i) s' W (E0 i)) as [es M]; auto; [intros q k ->; destruct N|].
    eapply v_dock; eauto. destruct l; auto; destruct N.
  - cbn in H. destruct (existsb _ _) eqn:Eb; [discriminate|]. apply (On w) in H as (s' & Hs & ->).
    cbn [sstep] in Hs. destruct (wire (ws w) i p) as [|k r] eqn:Ew; [discriminate|].
    destruct (dock_dmove (ends w) (ws w) (set_wire i p r (ws w)) i (LRecv p k) [] s' W (E0 i)) as [es M]; auto.
    + cbn. intros a q x K. destruct (Nat.eq_dec a i) as [->|N]; [destruct (Nat.eq_dec q p) as [->|N]|]; [|rewrite put_other by auto; auto|rewrite put_other by auto; auto].
      rewrite put_same. rewrite Ew in K. destruct K as [->|K]; auto.
    + intros q x [= <- <-]. rewrite Ew. now left.
    + eapply v_deliver; eauto. intros X. enough (existsb (Nat.eqb p) (backlog w i) = true) by congruence. apply existsb_exists. exists p. split; auto. apply Nat.eqb_refl.
  - apply (On w) in H as (s' & Hs & ->). injection Hs as <-. apply v_lose; reflexivity || exact Logic.I.
  - apply (On w) in H as (s' & Hs & ->). assert (X : hub_step hub_end black raddr hostport l (ws w) = Some s') by (destruct l; try discriminate; auto).
    destruct (hub_hmove (ends w) (ws w) (ws w) l s' W E0) as [es M]; auto. eapply v_hub; eauto.
  - apply (On w) in H as (s' & Hs & ->). cbn [sstep] in Hs. destruct (hwire (ws w) h) as [|k r] eqn:Ew; [discriminate|].
    destruct (hub_hmove (ends w) (ws w) (set_hwire h r (ws w)) (HubModel.LRecv h k) s' W E0) as [es M]; auto; [|eapply v_hub; eauto].
    intros h' x K. cbn. unfold updp. destruct (Nat.eqb_spec h' h) as [->|]; auto. rewrite Ew in K. destruct K as [->|K]; auto.
  - apply (On w) in H as (s' & Hs & ->). injection Hs as <-. apply v_lose; reflexivity || exact Logic.I.
  - unfold wstep in H. apply (On w) in H as (s' & Hs & ->). destruct ok; cbn [exec] in Hs.
    + destruct (step (ends w) (ws w) (SDock i (LDial true) [])) as [s1|] eqn:E1; [|discriminate].
      destruct (step (ends w) s1 (SDock i (LConnected 0) [])) as [s2|] eqn:E2; [|discriminate]. injection Hs as <-.
      apply D in E1 as [es1 M1]; try exact Logic.I. apply D in E2 as [es2 M2]; try exact Logic.I. eapply v_dial; eauto.
    + destruct (step (ends w) (ws w) (SDock i (LDial false) [])) as [s1|] eqn:E1; [|discriminate]. injection Hs as <-.
      apply D in E1 as [es1 M1]; try exact Logic.I. eapply v_dock with (l := LDial false); eauto; exact Logic.I.
  - unfold wstep in H. destruct (handlers _ p) as [| | | | | | |n| | | | |] eqn:Eh; try discriminate.
    destruct (ok && negb (port_free raddr w i n)) eqn:Ep; [discriminate|]. apply On in H as (s' & Hs & ->). apply D in Hs as [es M]; try exact Logic.I.
    destruct ok.
    + eapply v_listen; eauto. cbn in Ep. destruct (port_free raddr w i n); auto; discriminate.
    + eapply v_dock with (l := HNet p false); eauto; exact Logic.I.
  - unfold wstep in H. destruct (handlers _ p) eqn:Eh; try discriminate. destruct (_ && _) eqn:Ea; [|discriminate]. apply andb_prop in Ea as [Ea El].
    apply On in H as (s' & Hs & ->). cbn [exec] in Hs.
    destruct (step (ends w) (ws w) (SDock i (HNet p true) [])) as [s1|] eqn:E1; [|discriminate].
    destruct (step (ends w) s1 (SDock i (LConnected (peers w i)) [])) as [s2|] eqn:E2; [|discriminate]. injection Hs as <-.
    apply D in E1 as [es1 M1]; try exact Logic.I. apply D in E2 as [es2 M2]; try exact Logic.I. eapply v_connect; eauto.
    destruct (zlist_eqb_spec addr (hostport (machine raddr j) n)); auto; discriminate.
  - unfold wstep in H. destruct (handlers _ p) eqn:Eh; try discriminate. apply On in H as (s' & Hs & ->). apply D in Hs as [es M]; try exact Logic.I.
    eapply v_dock with (l := HNet p false); eauto; exact Logic.I.
  - unfold wstep in H. destruct (existsb _ _) eqn:Eb; [|discriminate]. apply On in H as (s' & Hs & ->). apply D in Hs as [es M]; try exact Logic.I.
    eapply v_accept; eauto.
    + apply existsb_exists in Eb as (x & X & Y). apply Nat.eqb_eq in Y. subst. exact X.
    + cbn. intros a r. unfold updp. destruct (Nat.eqb_spec a j) as [->|]; auto. intros Y. apply filter_In in Y. tauto.
Qed.

(* health lasts backwards *)
Lemma healthy_less (s s' : sys) : (forall i, exists es, hist (sd s' i) = hist (sd s i) ++ es) -> (forall i, state (sd s i) = Alive) -> HubModel.halted (sh s) = false ->
  healthy s' -> healthy s.
Proof.
  intros G A B [_ _ H3 H4 H5 H6]. assert (In_ : forall i e, In e (hist (sd s i)) -> In e (hist (sd s' i))) by (intros i e K; destruct (G i) as [es ->]; apply in_or_app; auto).
  split; auto.
  - intros i K. apply (H3 i). unfold cleared in *. auto.
  - intros i p k K. eapply H4; eauto.
  - intros i k f K. eapply H5; eauto.
  - intros i. destruct (G i) as [es He]. specialize (H6 i). rewrite He in H6. unfold requests in *. rewrite flat_map_app, map_app in H6. apply NoDup_app_l in H6. exact H6.
Qed.
Lemma dmove_back E s i l es s' : dmove E s i l es s' -> healthy s' -> healthy s.
Proof.
  intros M H. apply (healthy_less s s'); auto.
  - intros a. destruct (Nat.eq_dec a i) as [->|N]; [exists es; apply M|exists []; rewrite app_nil_r, (dm_other _ _ _ _ _ _ M); auto].
  - intros a. destruct (Nat.eq_dec a i) as [->|N]; [apply M|rewrite <- (dm_other _ _ _ _ _ _ M) by auto; apply H].
  - rewrite <- (dm_hub _ _ _ _ _ _ M). apply H.
Qed.
Lemma hmove_back s l es s' : hmove s l es s' -> healthy s' -> healthy s.
Proof.
  intros M H. apply (healthy_less s s'); auto.
  - intros a. exists []. rewrite app_nil_r, (hm_docks _ _ _ _ M). auto.
  - intros a. rewrite <- (hm_docks _ _ _ _ M). apply H.
  - assert (X := hm_step _ _ _ _ M). unfold HubModel.hstep in X. destruct (HubModel.halted (sh s)); auto; discriminate.
Qed.
Lemma view_back w l w' : view w l w' -> healthy (ws w') -> healthy (ws w).
Proof.
  intros X H. destruct X; eauto using dmove_back, hmove_back.
  apply (healthy_less _ (ws w')); auto.
  - intros i. exists []. rewrite app_nil_r. congruence.
  - intros i. assert (Y : sd (ws w) = sd (ws w')) by auto. rewrite Y. apply H.
  - assert (Y : sh (ws w) = sh (ws w')) by auto. rewrite Y. apply H.
Qed.
End View.
