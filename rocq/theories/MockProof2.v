From Verif Require Import MockModel MockSpec MockProof.
From Coq Require Import Arith List ZArith Lia.
Import ListNotations.
Open Scope nat_scope.

(* ---- dialling ---- *)
Definition dials (s : mst) (d : nat) (a : name) : Prop := exists x, In (EDial d x) (hist s) /\ format_addr x = a.
Definition listens (s : mst) (l : nat) (a : name) : Prop := exists x, In (EListen l x) (hist s) /\ format_addr x = a.
Definition meets (s : mst) (d l : nat) : Prop := exists a, dials s d a /\ listens s l a.

Lemma dials_mono s l s' d a : mstep s l = Some s' -> dials s d a -> dials s' d a.
Proof. intros H (x & K & E). exists x. split; [eapply hist_mono|]; eauto. Qed.
Lemma listens_mono s l s' k a : mstep s l = Some s' -> listens s k a -> listens s' k a.
Proof. intros H (x & K & E). exists x. split; [eapply hist_mono|]; eauto. Qed.
Lemma meets_mono s l s' d k : mstep s l = Some s' -> meets s d k -> meets s' d k.
Proof. intros H (a & K1 & K2). exists a. split; [eapply dials_mono|eapply listens_mono]; eauto. Qed.

Definition dial_at (x : dpc) : option name :=
  match x with DLoop a | DPush a _ | DGiveUp a | DResult a => Some a | _ => None end.

Record dialling (s : mst) : Prop := {
  map_listens : forall a l, lmap s a = Some l -> listens s l a;
  dial_dials : forall d a, dial_at (dial s d) = Some a -> dials s d a;
  push_meets : forall d a l, dial s d = DPush a l -> meets s d l;
  queue_meets : forall d l, In (Some d) (chanconn s l) -> meets s d l;
  gor_meets : forall g l c d, gor s g = GLink l c d -> meets s d l;
  link_meets : forall l c d, In (ELinked l c d) (hist s) -> meets s d l;
  stat_meets : forall d, stat s d <> SNew -> exists l, meets s d l;
  late_stat : forall d a, dial s d = DGiveUp a \/ dial s d = DResult a -> stat s d <> SNew;
  open_linked : forall d, stat s d = SOpen -> exists l c, In (ELinked l c d) (hist s);
  dialed_meets : forall d r, In (EDialed d r) (hist s) -> exists l, meets s d l;
  dialed_linked : forall d, In (EDialed d true) (hist s) -> exists l c, In (ELinked l c d) (hist s);
  accepted_linked : forall l c d, In (EAccepted l c d) (hist s) -> In (ELinked l c d) (hist s);
  enter_linked : forall g l c d, gor s g = GEnter l c d -> In (ELinked l c d) (hist s) }.

Lemma stat_mono s l s' d : mstep s l = Some s' -> stat s d <> SNew -> stat s' d <> SNew.
Proof. intros H K. minv H; proj; auto; upd; auto; discriminate. Qed.

Ltac old := eauto using hist_mono, dials_mono, listens_mono, meets_mono, stat_mono.

Lemma dialling_step s l s' : links s -> dialling s -> mstep s l = Some s' -> dialling s'.
Proof.
  intros L D H. split.
  - intros a k K. assert (O : lmap s a = Some k \/ listens s' k a).
    { minv H; proj; auto; try discriminate. unfold updn in K. destruct (GoVal.zlist_eqb_eq a (format_addr a0)) as [E _].
      destruct (zlist_eqb a (format_addr a0)); auto. injection K as <-. right. exists a0.
      split; [apply in_or_app; right; now left|]. symmetry; auto. }
    destruct O as [O|O]; auto. eapply listens_mono; eauto. now apply map_listens.
  - intros d a K. assert (O : dial_at (dial s d) = Some a \/ dials s' d a).
    { minv H; proj; auto; upd; auto; cbn in K; try discriminate;
      try (match goal with Hd : dial s _ = _ |- _ => rewrite Hd end; auto; fail).
      injection K as <-. right. exists a0. split; [apply in_or_app; right; now left|reflexivity]. }
    destruct O as [O|O]; auto. eapply dials_mono; eauto. now apply dial_dials.
  - intros d a k K. assert (O : dial s d = DPush a k \/ meets s d k).
    { minv H; proj; auto; upd; auto; try discriminate. injection K as <- <-. right. exists a0.
      split; [apply dial_dials; auto; now rewrite Heqd0|now apply map_listens]. }
    eapply meets_mono; eauto. destruct O as [O|O]; auto. eapply push_meets; eauto.
  - intros d k K. eapply meets_mono; eauto. minv H; proj; old; try (eapply queue_meets; eauto; fail); upd;
      try (eapply queue_meets; eauto; fail); try (destruct K as [K|[]]; try discriminate; injection K as <-; eapply push_meets; eauto; fail);
      (eapply queue_meets; eauto; match goal with Hq : chanconn s _ = _ |- _ => rewrite Hq end; now right).
  - intros g k c d K. eapply meets_mono; eauto.
    assert (O : gor s g = GLink k c d \/ In (Some d) (chanconn s k)).
    { minv H; proj; auto; upd; auto; try discriminate; [|destruct k0; discriminate].
      injection K as <- _ <-. right. match goal with Hq : chanconn s _ = _ |- _ => rewrite Hq end. now left. }
    destruct O; [eapply gor_meets|eapply queue_meets]; eauto.
  - intros k c d K. eapply meets_mono; eauto.
    assert (O : In (ELinked k c d) (hist s) \/ exists g, gor s g = GLink k c d).
    { minv H; proj; auto; snoc; auto; try discriminate. injection K as -> -> ->. eauto. }
    destruct O as [O|(g & O)]; [eapply link_meets|eapply gor_meets]; eauto.
  - intros d K. assert (O : exists k, meets s d k).
    { minv H; proj; try (apply stat_meets; auto; fail); upd; try (apply stat_meets; auto; fail).
      - eexists. exists a. split; [apply dial_dials; auto; now rewrite Heqd0|apply map_listens; eauto].
      - apply stat_meets; auto. eapply late_stat; eauto.
      - eexists. eapply link_meets; eauto. eapply gs_linked; eauto. }
    destruct O as [k O]. exists k. old.
  - intros d a K. assert (O : (dial s d = DGiveUp a \/ dial s d = DResult a) \/ stat s d <> SNew).
    { minv H; proj; auto; upd; auto; try (destruct K; discriminate); try (right; congruence).
      left. left. destruct K as [K|K]; try discriminate. injection K as <-. assumption. }
    eapply stat_mono; eauto. destruct O as [O|O]; auto. eapply late_stat; eauto.
  - intros d K. assert (O : stat s d = SOpen \/ exists k c, In (ELinked k c d) (hist s)).
    { minv H; proj; auto; upd; auto; try discriminate. right. do 2 eexists. eapply gs_linked; eauto. }
    destruct O as [O|(k & c & O)]; [destruct (open_linked _ D _ O) as (k & c & O')|]; exists k, c; old.
  - intros d r K. assert (O : In (EDialed d r) (hist s) \/ stat s d <> SNew).
    { minv H; proj; auto; snoc; auto; try discriminate. right. injection K as <- <-. eapply late_stat; eauto. }
    destruct O as [O|O]; [destruct (dialed_meets _ D _ _ O) as [k M]|destruct (stat_meets _ D _ O) as [k M]]; exists k; old.
  - intros d K. assert (O : In (EDialed d true) (hist s) \/ stat s d = SOpen).
    { minv H; proj; auto; snoc; auto; try discriminate. right. injection K as <- E. destruct (stat s c); auto; discriminate. }
    destruct O as [O|O]; [destruct (dialed_linked _ D _ O) as (k & c & M)|destruct (open_linked _ D _ O) as (k & c & M)]; exists k, c; old.
  - intros k c d K. assert (O : In (EAccepted k c d) (hist s) \/ In (ELinked k c d) (hist s)).
    { minv H; proj; auto; snoc; auto; try discriminate. right. injection K as -> -> ->. eapply enter_linked; eauto. }
    eapply hist_mono; eauto. destruct O; auto. now apply accepted_linked.
  - intros g k c d K. eapply hist_mono; eauto. assert (O : gor s g = GEnter k c d \/ gor s g = GStatus k c d).
    { minv H; proj; auto; upd; auto; try discriminate; [destruct k0; discriminate|]. injection K as -> -> ->. auto. }
    destruct O; [eapply enter_linked|eapply gs_linked]; eauto.
Qed.

Lemma reach_dialling ls s : mexec ls = Some s -> dialling s.
Proof.
  intros H. assert (X : links s /\ dialling s); [|tauto]. revert H.
  apply (exec_inv mstep (fun s => links s /\ dialling s)).
  - intros a l b [La Pa] E. split; [eapply links_step|eapply dialling_step]; eauto.
  - split; [apply links_init|]. split; cbn; try discriminate; try tauto; try congruence. intros d a [K|K]; discriminate.
Qed.

(* one Dial per conn *)
Lemma one_dial ls s d a b : mexec ls = Some s -> In (EDial d a) (hist s) -> In (EDial d b) (hist s) -> a = b.
Proof.
  intros R. assert (U : (forall d a, In (EDial d a) (hist s) -> d < nc s) /\
              (forall d a b, In (EDial d a) (hist s) -> In (EDial d b) (hist s) -> a = b)); [|destruct U; eauto].
  revert R. apply (exec_inv mstep (fun s => (forall d a, In (EDial d a) (hist s) -> d < nc s) /\
              (forall d a b, In (EDial d a) (hist s) -> In (EDial d b) (hist s) -> a = b))).
  - clear. intros s l s' [O U] H. pose proof (nc_mono _ _ _ H) as M.
    assert (N : forall d a, In (EDial d a) (hist s') -> In (EDial d a) (hist s) \/ (l = MDial a /\ d = nc s /\ nc s' = S (nc s))).
    { intros d a K. minv H; proj; auto; snoc; auto; try discriminate. injection K as <- <-. auto. }
    split.
    + intros d a K. destruct (N _ _ K) as [K'|(-> & -> & ->)]; [specialize (O _ _ K')|]; lia.
    + intros d a b Ka Kb. destruct (N _ _ Ka) as [Ka'|(-> & E & _)], (N _ _ Kb) as [Kb'|(X & F & _)]; eauto; try congruence.
      * subst. specialize (O _ _ Ka'). lia.
      * subst. specialize (O _ _ Kb'). lia.
  - split; cbn; tauto.
Qed.

Lemma dial_result ls s d r : mexec ls = Some s -> In (EDialed d r) (hist s) ->
  exists a b l, In (EDial d a) (hist s) /\ In (EListen l b) (hist s) /\ same_port a b /\
  (r = true -> exists l' c b', In (ELinked l' c d) (hist s) /\ In (EListen l' b') (hist s) /\ same_port a b').
Proof.
  intros R K. pose proof (reach_dialling _ _ R) as D. destruct (dialed_meets _ D _ _ K) as (l & x & (a & Ha & Ea) & (b & Hb & Eb)).
  exists a, b, l. repeat split; auto; [apply format_iff; congruence|]. intros ->.
  destruct (dialed_linked _ D _ K) as (k & c & M). destruct (link_meets _ D _ _ _ M) as (y & (a' & Ha' & Ea') & (b' & Hb' & Eb')).
  exists k, c, b'. repeat split; auto. apply format_iff.
  assert (a = a'); [|congruence]. clear - R Ha Ha'.
  eapply one_dial; eauto.
Qed.

Lemma accepted_is_linked ls s l c d : mexec ls = Some s -> In (EAccepted l c d) (hist s) ->
  In (ELinked l c d) (hist s) /\ exists a b, In (EDial d a) (hist s) /\ In (EListen l b) (hist s) /\ same_port a b.
Proof.
  intros R K. pose proof (reach_dialling _ _ R) as D. pose proof (accepted_linked _ D _ _ _ K) as M. split; auto.
  destruct (link_meets _ D _ _ _ M) as (x & (a & Ha & Ea) & (b & Hb & Eb)). exists a, b. repeat split; auto.
  apply format_iff. congruence.
Qed.

(* ---- panics ---- *)
Lemma crash_cause ls s : mexec ls = Some s -> crash s = true ->
  (exists c, In (EClosed c) (hist s)) \/ (exists l, In (EClosedL l) (hist s)).
Proof.
  intros R. assert (X : paired s /\ links s /\ (forall l, closed s l = true -> In (EClosedL l) (hist s)) /\
    (crash s = true -> (exists c, In (EClosed c) (hist s)) \/ (exists l, In (EClosedL l) (hist s)))); [|tauto].
  revert R. apply (exec_inv mstep (fun s => paired s /\ links s /\ (forall l, closed s l = true -> In (EClosedL l) (hist s)) /\
    (crash s = true -> (exists c, In (EClosed c) (hist s)) \/ (exists l, In (EClosedL l) (hist s))))).
  - intros a l b (P & L & C & X) E. split; [eapply paired_step; eauto|]. split; [eapply links_step; eauto|]. split.
    + intros k K. assert (O : closed a k = true \/ In (EClosedL k) (hist b)).
      { minv E; proj; auto; upd; auto. right. apply in_or_app. right. now left. }
      destruct O; auto. eapply hist_mono; eauto.
    + intros K. minv E; proj; try congruence.
      * left. destruct (deref_ends _ P _ _ _ _ Heqg0) as [d Hd]. exists c.
        destruct (open_peer _ P _ _ Hd); auto. congruence.
      * right. exists l0. auto.
  - split; [|split; [apply links_init|split; cbn; discriminate]].
    split; cbn; try discriminate; try tauto. intros c d [l [[]|[]]].
Qed.

(* ---- progress ---- *)
Lemma blocked_write ls s g c d b k : mexec ls = Some s -> crash s = false -> gor s g = GSend c d b k ->
  (exists s', mstep s (MGo g) = Some s' /\ In (EWrote c d b) (hist s')) \/
  (forall n, exists s1 s2, mstep s (MRead d n) = Some s1 /\ mstep s1 (MGo g) = Some s2 /\ In (EWrote c d b) (hist s2)).
Proof.
  intros R C K. destruct (reach_delivery _ _ R d) as (Lq & _).
  destruct (chanbuf s d) as [|x [|]] eqn:E; [left|right|cbn in Lq; lia].
  - unfold mstep. rewrite C, K, E. eexists. split; [reflexivity|]. cbn. apply in_or_app. right. now left.
  - intros n. assert (Hd : d < nc s).
    { destruct (send_ends _ (reach_paired _ _ R) _ _ _ _ _ K) as [l [M|M]].
      - eapply dial_old; [eapply reach_links; eauto|]. eapply k_dialled; [eapply reach_links; eauto|eauto].
      - destruct (atc_new _ (reach_links _ _ R) d (QLink l c) M). auto. }
    apply Nat.ltb_lt in Hd. unfold mstep at 1. rewrite C, Hd, E. eexists. eexists. split; [reflexivity|].
    unfold mstep. cbn [crash add w_chanbuf gor chanbuf]. rewrite C, K. cbn. rewrite updp_same. split; [reflexivity|].
    cbn. apply in_or_app. right. now left.
Qed.

(* Once a dialled conn is in the channel of an open listener, an Accept and the waiting
   Dial both succeed. *)
Lemma accept_succeeds ls s g l d a : mexec ls = Some s -> crash s = false -> closed s l = false ->
  chanconn s l = [Some d] -> gor s g = GIdle -> dial s d = DLoop a ->
  exists s', exec mstep s [MAccept g l; MGo g; MGo g; MGo g; MTick d false; MTick d false] = Some s' /\
    exists c, In (EAccepted l c d) (hist s') /\ In (EDialed d true) (hist s') /\ peer s' c = Some d /\ peer s' d = Some c.
Proof.
  intros R C Cl Q G D.
  assert (N : nc s <> d).
  { assert (d < nc s); [|lia]. eapply dial_old; [eapply reach_links; eauto|congruence]. }
  unfold exec, mstep. rewrite C, G, Q. proj. rewrite !updp_same, C. proj. rewrite !updp_same, C. proj. rewrite !updp_same, Cl, C. proj.
  rewrite C, D, updp_same. proj. rewrite C, !updp_same. eexists. split; [reflexivity|]. exists (nc s). proj.
  rewrite !in_app_iff. cbn. rewrite updp_other, !updp_same by auto. auto 10.
Qed.

(* ---- what single calls do ---- *)
Lemma ends_old ls s c d : mexec ls = Some s -> ends (hist s) c d -> c < nc s.
Proof.
  intros R [l [M|M]].
  - destruct (atc_new _ (reach_links _ _ R) c (QLink l d) M). auto.
  - eapply dial_old; [eapply reach_links; eauto|]. eapply k_dialled; [eapply reach_links; eauto|eauto].
Qed.

Lemma Forall2_len A B (R : A -> B -> Prop) x y : Forall2 R x y -> length x = length y.
Proof. induction 1; cbn; auto. Qed.

Lemma buffer_count ls s c d : mexec ls = Some s -> ends (hist s) c d ->
  length (sent c (hist s)) = length (reads d (hist s)) + length (chanbuf s d).
Proof.
  intros R E. destruct (reach_delivery _ _ R d) as (Lq & tk & Ep & F).
  rewrite (put_sent s c d) in Ep; [|eapply reach_links|eapply reach_paired|]; eauto.
  rewrite Ep, app_length. now rewrite (Forall2_len _ _ _ _ _ F).
Qed.

Lemma write_works ls s g c d b : mexec ls = Some s -> crash s = false -> gor s g = GIdle ->
  ends (hist s) c d -> ~ In (EClosed c) (hist s) -> length (sent c (hist s)) = length (reads d (hist s)) ->
  exists s', exec mstep s [MWrite g c b; MGo g; MGo g] = Some s' /\ hist s' = hist s ++ [EWrote c d b] /\ gor s' g = GIdle /\
    crash s' = false.
Proof.
  intros R C G E N Q. rewrite (buffer_count _ _ _ _ R E) in Q.
  destruct (chanbuf s d) eqn:Eb; [|cbn in Q; lia]. destruct (open_peer _ (reach_paired _ _ R) _ _ E) as [P|P]; [|tauto].
  pose proof (ends_old _ _ _ _ R E) as O. apply Nat.ltb_lt in O.
  unfold exec, mstep. rewrite C, G, O, P. proj. rewrite C, updp_same, P. proj. rewrite C, updp_same, Eb.
  eexists. split; [reflexivity|]. proj. now rewrite updp_same.
Qed.

Lemma close_works ls s g c d : mexec ls = Some s -> crash s = false -> gor s g = GIdle ->
  ends (hist s) c d -> ~ In (EClosed c) (hist s) -> length (sent c (hist s)) = length (reads d (hist s)) ->
  exists s', exec mstep s [MClose g c; MGo g; MGo g; MGo g] = Some s' /\
    hist s' = hist s ++ [EWrote c d None; EClosed c] /\ gor s' g = GIdle /\ crash s' = false.
Proof.
  intros R C G E N Q. rewrite (buffer_count _ _ _ _ R E) in Q.
  destruct (chanbuf s d) eqn:Eb; [|cbn in Q; lia]. destruct (open_peer _ (reach_paired _ _ R) _ _ E) as [P|P]; [|tauto].
  pose proof (ends_old _ _ _ _ R E) as O. apply Nat.ltb_lt in O.
  unfold exec, mstep. rewrite C, G, O, P. proj. rewrite C, updp_same, P. proj. rewrite C, updp_same, Eb.
  proj. rewrite C, updp_same.
  eexists. split; [reflexivity|]. proj. now rewrite updp_same, <- app_assoc.
Qed.

Lemma read_works ls s c d n : mexec ls = Some s -> crash s = false -> ends (hist s) c d ->
  length (reads d (hist s)) < length (sent c (hist s)) <->
  exists s' r, mstep s (MRead d n) = Some s' /\ hist s' = hist s ++ [ERead d n r].
Proof.
  intros R C E. rewrite (buffer_count _ _ _ _ R E).
  pose proof (ends_old _ _ _ _ R (ends_sym _ _ _ E)) as O. apply Nat.ltb_lt in O.
  unfold mstep. rewrite C, O. split.
  - intros Q. destruct (chanbuf s d) eqn:Eb; [cbn in Q; lia|]. do 2 eexists. split; reflexivity.
  - intros (s' & r & H & _). destruct (chanbuf s d); [discriminate|cbn; lia].
Qed.

(* After its own Close a conn refuses every Write, and Close does nothing but clear it again. *)
Lemma closed_stays ls s c d : mexec ls = Some s -> ends (hist s) c d -> peer s c = None -> In (EClosed c) (hist s).
Proof. intros R E P. destruct (open_peer _ (reach_paired _ _ R) _ _ E); congruence || auto. Qed.

(* A Dial that has handed its conn over returns after at most three turns once its time is up. *)
Lemma dial_returns ls s d a : mexec ls = Some s -> crash s = false -> dial s d = DLoop a -> stat s d <> SNew ->
  exists k s', k <= 3 /\ exec mstep s (repeat (MTick d true) k) = Some s' /\ dial s' d = DDone /\
    exists r, hist s' = hist s ++ [EDialed d r].
Proof.
  intros R C D N. destruct (stat s d) eqn:Es; try congruence; [exists 3|exists 2|exists 3];
    cbn [repeat exec]; unfold mstep; repeat (rewrite ?C, ?D, ?Es, ?updp_same; proj);
    (eexists; split; [lia|]; split; [reflexivity|]; proj; rewrite ?updp_same; eauto).
Qed.

(* A Dial at the loop whose address has a listener hands its conn over as soon as the channel is free. *)
Lemma dial_offers s d a l : crash s = false -> dial s d = DLoop a -> stat s d = SNew -> lmap s a = Some l -> chanconn s l = [] ->
  forall e, exists s', exec mstep s [MTick d e; MTick d e] = Some s' /\ dial s' d = DLoop a /\ stat s' d = SQueued /\ chanconn s' l = [Some d].
Proof.
  intros C D N M Q e. cbn [exec]. unfold mstep. repeat (rewrite ?C, ?D, ?N, ?M, ?Q, ?updp_same; proj).
  eexists. split; [reflexivity|]. proj. now rewrite !updp_same.
Qed.

Lemma delivered_whole ls s c d : mexec ls = Some s -> ends (hist s) c d ->
  (forall b n r, In (Some b) (sent c (hist s)) -> In (n, r) (reads d (hist s)) -> length b <= n) ->
  exists rest, sent c (hist s) = map snd (reads d (hist s)) ++ rest /\ length rest <= 1.
Proof.
  intros R E W. destruct (connection_delivers _ _ _ _ R E) as (tk & rest & Ek & F & Lr). exists rest. split; auto.
  rewrite Ek in W |- *. f_equal. clear Ek Lr R E.
  assert (W' : forall b n r, In (Some b) tk -> In (n, r) (reads d (hist s)) -> length b <= n).
  { intros b n r K1 K2. eapply W; eauto. apply in_or_app. auto. }
  clear W. induction F as [|w [n r] tk rs F FF IH]; [reflexivity|]. cbn. f_equal.
  - destruct w as [b|]; cbn in F; [|congruence]. destruct F as (r' & x & -> & Eb & Hw & _).
    rewrite Hw, app_nil_r in Eb by (eapply W'; [left; reflexivity|left; reflexivity]). now subst.
  - apply IH. intros; eapply W'; cbn; eauto.
Qed.
