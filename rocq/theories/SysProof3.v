(* What the hub hears of the docks, and the docks of the hub. *)
From Verif Require Import Lts GoVal Tables DockModel DockSpec DockProof DockProof2 DockProof9 SysModel SysSpec SysProof SysProof2.
From Verif Require HubModel HubSpec HubProof3 HubProof4 HubProps.
From Coq Require Import Arith Bool List ZArith Lia.
Import ListNotations.
Open Scope nat_scope.

Lemma sq_filter {A} (f : A -> bool) a b : subseq a b -> subseq (filter f a) (filter f b).
Proof. induction 1; cbn; [constructor| |]; destruct (f x); try constructor; auto. Qed.
Lemma sq_length {A} (a b : list A) : subseq a b -> length a <= length b.
Proof. induction 1; cbn; lia. Qed.

Section Sys.
Context {V : Type}.
Variables (carried : nat -> list (name * bool)) (link : nat -> nat -> wend) (hublink : nat -> option (nat * nat)).
Variable carry : nat -> nat -> list V -> option (list V).
Variables (black : list Z) (raddr : nat -> name) (hostport : name -> Z -> name).
Hypothesis W : wired link hublink.
Notation step := (sstep link hublink carry black raddr hostport).
Notation sys := (SysModel.sys V).
Notation ok := (ok carried link hublink carry black raddr hostport).

(* ---- the wires to the hub ---- *)
Definition hflow (s : sys) h := filter announcement (hub_got h (HubModel.hist (sh s)) ++ hwire s h).
Definition hsource (s : sys) h := match hublink h with
  | Some (i, p) => filter announcement (map to_hub (sent_on p (hist (sd s i)))) | None => [] end.

Lemma post_quiet i f ps (s : sys) h : filter announcement (hwire (fold_left (fun s p => post_query link i f p s) ps s) h) = filter announcement (hwire s h).
Proof.
  revert s. induction ps as [|p ps IH]; intros s; cbn [fold_left]; auto. rewrite IH. unfold post_query. destruct (link i p) as [| |h']; auto.
  cbn. unfold updp. destruct (Nat.eqb_spec h h') as [->|]; auto. rewrite filter_app. cbn. apply app_nil_r.
Qed.
Lemma post_plain i ps es s h : filter announcement (hwire (fold_left (post_event link carry i ps) es s) h) = filter announcement (hwire s h) ++
  match hublink h with Some (j, p) => if j =? i then filter announcement (map to_hub (sent_on p es)) else [] | None => [] end.
Proof.
  revert s. induction es as [|e es IH]; intros s; cbn [fold_left].
  - destruct (hublink h) as [[j p]|]; [destruct (j =? i)|]; cbn; now rewrite app_nil_r.
  - rewrite IH. clear IH.
    assert (X : filter announcement (hwire (post_event link carry i ps s e) h) = filter announcement (hwire s h) ++
      match hublink h with Some (j, p) => if j =? i then filter announcement (map to_hub (sent_on p [e])) else [] | None => [] end).
    { assert (Z : forall x : list HubModel.packet, x = x ++ match hublink h with Some (j, p) => if j =? i then [] else [] | None => [] end).
      { intros x. destruct (hublink h) as [[j p]|]; [destruct (j =? i)|]; now rewrite app_nil_r. }
      unfold post_event. destruct e; try (apply Z).
      - destruct accepted; [|apply Z]. unfold post. destruct (link i p) as [|j p'|h'] eqn:El.
        + destruct (hublink h) as [[j q]|] eqn:Eh; [|symmetry; apply app_nil_r]. destruct (Nat.eqb_spec j i) as [->|]; [|symmetry; apply app_nil_r].
          apply W in Eh. cbn. destruct (Nat.eqb_spec p q) as [->|]; [congruence|symmetry; apply app_nil_r].
        + assert (hwire match pass carry i j k with Some k' => set_wire j p' (wire s j p' ++ [k']) s | None => s end h = hwire s h) as -> by (destruct (pass carry i j k); reflexivity).
          destruct (hublink h) as [[j' q]|] eqn:Eh; [|symmetry; apply app_nil_r]. destruct (Nat.eqb_spec j' i) as [->|]; [|symmetry; apply app_nil_r].
          apply W in Eh. cbn. destruct (Nat.eqb_spec p q) as [->|]; [congruence|symmetry; apply app_nil_r].
        + assert (Ev := El). apply W in Ev. cbn. unfold updp. destruct (Nat.eqb_spec h h') as [->|N].
          * rewrite Ev, Nat.eqb_refl, Nat.eqb_refl, filter_app. cbn. reflexivity.
          * destruct (hublink h) as [[j' q]|] eqn:Eh; [|symmetry; apply app_nil_r]. destruct (Nat.eqb_spec j' i) as [->|]; [|symmetry; apply app_nil_r].
            apply W in Eh. cbn. destruct (Nat.eqb_spec p q) as [->|]; [congruence|symmetry; apply app_nil_r].
      - rewrite post_quiet. apply Z. }
    rewrite X, <- app_assoc. f_equal. destruct (hublink h) as [[j p]|]; auto. destruct (j =? i); auto.
    change (e :: es) with ([e] ++ es). now rewrite sent_app, map_app, filter_app.
Qed.
Lemma dock_hflow s s1 i l ps s' : sd s1 = sd s -> sh s1 = sh s -> hwire s1 = hwire s -> dock_step link carry i l ps s1 = Some s' ->
  forall h, exists more, hflow s' h = hflow s h ++ more /\ hsource s' h = hsource s h ++ more.
Proof.
  intros Ed Eh Ew H h. unfold dock_step in H. rewrite Ed in H. destruct (dstep (sd s i) l) as [d|] eqn:Es; [|discriminate].
  destruct (dstep_got _ _ _ Es) as (es & He & _). rewrite He, new_app in H. injection H as <-.
  destruct (post_docks link carry i ps es (set_dock i d s1)) as [Pd Ph].
  exists (match hublink h with Some (j, p) => if j =? i then filter announcement (map to_hub (sent_on p es)) else [] | None => [] end). split.
  - unfold hflow. rewrite Ph, !filter_app, post_plain. cbn. rewrite Eh, Ew, app_assoc. reflexivity.
  - unfold hsource. destruct (hublink h) as [[j p]|]; auto. rewrite Pd. cbn. rewrite Ed. unfold updp. destruct (Nat.eqb_spec j i) as [->|]; [|symmetry; apply app_nil_r].
    now rewrite He, sent_app, map_app, filter_app.
Qed.
Lemma hstep_got s l s' : HubModel.hstep black raddr s l = Some s' -> exists es, HubModel.hist s' = HubModel.hist s ++ es /\
  forall h, hub_got h es = match l with HubModel.LRecv h' k => if h' =? h then [k] else [] | _ => [] end.
Proof.
  unfold HubModel.hstep. destruct (HubModel.halted s); [discriminate|].
  assert (Z : exists es, HubModel.hist s = HubModel.hist s ++ es /\ forall h, hub_got h es = []) by (exists []; rewrite app_nil_r; auto).
  destruct l.
  - destruct (HubModel.handlers s p); try discriminate. injection 1 as <-. exists [HubModel.ERecv p k]. split; [destruct k; reflexivity|].
    intros h. cbn. apply app_nil_r.
  - destruct (HubModel.handlers s p) as [|t sl|t host port [|f todo]|t [|f todo]|t f i todo|t f i todo]; try discriminate.
    + destruct (HubModel.allocate black _); injection 1 as <-; try exact Z. eexists. split; reflexivity.
    + injection 1 as <-. eexists. split; reflexivity.
    + injection 1 as <-. eexists. split; reflexivity.
    + injection 1 as <-. exact Z.
    + injection 1 as <-. exact Z.
    + destruct (nth_error _ i) as [st|]; [|discriminate]. destruct (HubModel.st_peer st =? p); injection 1 as <-; [|exact Z]. eexists. split; reflexivity.
    + injection 1 as <-. exact Z.
  - destruct (HubModel.queries s t); try discriminate.
    + injection 1 as <-. exists [HubModel.ERound t]. split; [cbn; destruct (HubModel.docks s f); reflexivity|reflexivity].
    + destruct (nth_error _ i) as [st|]; [|discriminate]. destruct (HubModel.st_ready st); injection 1 as <-; [|destruct i; exact Z]. eexists. split; reflexivity.
  - injection 1 as <-. eexists. split; reflexivity.
Qed.
Lemma hub_hflow s s1 l s' : sd s1 = sd s -> sh s1 = sh s -> hub_step hublink black raddr hostport l s1 = Some s' ->
  (forall h, hwire s h = match l with HubModel.LRecv h' k => if h' =? h then [k] else [] | _ => [] end ++ hwire s1 h) ->
  forall h, hflow s' h = hflow s h /\ hsource s' h = hsource s h.
Proof.
  intros Ed Eh H Hw h. unfold hub_step in H. rewrite Eh in H. destruct (HubModel.hstep black raddr (sh s) l) as [hb|] eqn:Es; [|discriminate].
  destruct (hstep_got _ _ _ Es) as (es & He & G). rewrite He, new_app in H. injection H as <-.
  destruct (hub_posts_rest hublink hostport es (set_hub hb s1)) as (Pd & Ph & Pw). split.
  - unfold hflow. rewrite Ph, Pw. cbn. rewrite He, Hw. unfold hub_got at 1. rewrite flat_map_app. fold (hub_got h (HubModel.hist (sh s))). fold (hub_got h es).
    rewrite G, <- app_assoc. reflexivity.
  - unfold hsource. rewrite Pd. cbn. now rewrite Ed.
Qed.
Lemma any_hflow s l s' : step s l = Some s' -> match l with SHubLose _ _ => False | _ => True end ->
  forall h, exists more, hflow s' h = hflow s h ++ more /\ hsource s' h = hsource s h ++ more.
Proof.
  intros H N h. destruct l; cbn [sstep] in H; try destruct N.
  - assert (X : dock_step link carry i l ps s = Some s') by (destruct l; try discriminate; auto). eapply dock_hflow with (s1 := s); eauto.
  - destruct (wire s i p) as [|k r]; [discriminate|]. eapply dock_hflow with (s1 := set_wire i p r s); eauto.
  - injection H as <-. exists []. now rewrite !app_nil_r.
  - assert (X : hub_step hublink black raddr hostport l s = Some s' /\ match l with HubModel.LRecv _ _ => False | _ => True end) by (destruct l; try discriminate; auto).
    destruct X as [X N']. exists []. rewrite !app_nil_r. eapply hub_hflow with (s1 := s); eauto. intros h'. destruct l; auto. destruct N'.
  - destruct (hwire s h0) as [|k r] eqn:Ew; [discriminate|]. exists []. rewrite !app_nil_r. eapply hub_hflow with (s1 := set_hwire h0 r s); eauto.
    intros h'. cbn. unfold updp. rewrite (Nat.eqb_sym h' h0). destruct (Nat.eqb_spec h0 h') as [<-|]; auto.
Qed.
Lemma hflows ls s : exec step (sinit carried) ls = Some s -> forall h, subseq (hflow s h) (hsource s h).
Proof.
  apply (exec_inv step (fun s => forall h, subseq (hflow s h) (hsource s h))).
  - clear s. intros s l s' F H h.
    destruct l; try (destruct (any_hflow _ _ _ H I h) as (more & -> & ->); apply sq_app; [apply F|apply sq_refl]).
    cbn in H. injection H as <-. eapply sq_trans; [|apply F]. unfold hflow. cbn. apply sq_filter, sq_app; [apply sq_refl|].
    unfold updp. destruct (h =? h0) eqn:E; [|apply sq_refl]. apply Nat.eqb_eq in E. subst. apply sq_drop.
  - intros h. unfold hflow, hsource. cbn. destruct (hublink h) as [[]|]; constructor.
Qed.
Lemma lossless_hflow ls s : exec step (sinit carried) ls = Some s -> lossless ls -> forall h, hflow s h = hsource s h.
Proof.
  revert s. induction ls as [|l ls IH] using rev_ind; intros s H Ll h.
  - injection H as <-. unfold hflow, hsource. cbn. now destruct (hublink h) as [[]|].
  - rewrite exec_app in H. destruct (exec step (sinit carried) ls) as [s0|] eqn:E; [|discriminate]. cbn in H.
    destruct (step s0 l) as [s1|] eqn:Es; [|discriminate]. injection H as <-.
    destruct (any_hflow _ _ _ Es) with (h := h) as (more & -> & ->).
    { assert (X := Ll l). destruct l; auto. apply X, in_or_app. right. now left. }
    rewrite (IH _ eq_refl); auto. intros x Hx. apply Ll, in_or_app. now left.
Qed.

(* ---- discovery ---- *)
Lemma dock_sends ls (d : dock V) cr p k acc : exec dstep (new_dock cr) ls = Some d -> In (ESend p k acc) (hist d) ->
  match k with KReady _ | KRegister _ | KRequest _ | KResponse _ => True | _ => False end.
Proof.
  intros E H. apply in_split in H as (a & b & H). destruct (behind _ _ _ _ _ _ E H) as (ls1 & l & ls2 & d1 & d2 & es1 & es2 & _ & E1 & T & _ & F & G).
  event T G; auto.
Qed.
(* a dock says it is ready on peer p only when asked, or when it listens on the port told *)
Lemma ready_after ls (d : dock V) cr p ns acc : exec dstep (new_dock cr) ls = Some d -> In (ESend p (KReady ns) acc) (hist d) ->
  (exists sl, In (ERecv p (KRegister sl)) (hist d)) \/
  exists n, In (ERecv p (KRegistered n)) (hist d) /\ In (ESocket (SListen n)) (hist d).
Proof.
  intros E H. apply in_split in H as (a & b & H). destruct (behind _ _ _ _ _ _ E H) as (ls1 & l & ls2 & d1 & d2 & es1 & es2 & _ & E1 & T & _ & F & G).
  pose proof (dutiful_inv _ _ _ E1 p) as D.
  assert (X : forall e, In e (hist d1) -> In e (hist d)) by (intros e Y; rewrite H, F; apply in_or_app; left; apply in_or_app; now left).
  assert (L : forall k c, lastof p (hist d1) = Some (k, c) -> In (ERecv p k) (hist d1) /\ forall e, In e c -> In e (hist d1)).
  { clear. induction (hist d1) as [|e h IH] using rev_ind; intros k c; [discriminate|]. rewrite lastof_app. cbn [fold_left].
    assert (Y : option_map (fun x => (fst x, snd x ++ [e])) (lastof p h) = Some (k, c) -> In (ERecv p k) (h ++ [e]) /\ forall e0, In e0 c -> In e0 (h ++ [e])).
    { destruct (lastof p h) as [[k' c']|]; [|discriminate]. cbn. injection 1 as -> <-. destruct (IH _ _ eq_refl) as [A B]. split; [apply in_or_app; auto|].
      intros e0. rewrite !in_app_iff. intuition. }
    destruct e; try exact Y. cbn [note]. destruct (Nat.eqb_spec p0 p) as [->|]; [|exact Y]. injection 1 as -> <-. split; [apply in_or_app; right; now left|intros ? []]. }
  destruct (lastof p (hist d1)) as [[k c]|] eqn:El.
  - destruct (L _ _ eq_refl) as [L1 L2]. event T G; try (match goal with X : handlers d1 p = _ |- _ => rewrite X in D end; cbn in D).
    + left. destruct D as (-> & _). exists sl. apply X. auto.
    + right. destruct D as ((n & -> & D) & _). exists n. split; apply X; auto.
  - event T G; congruence.
Qed.
(* an answer of the hub names a dock that listens and carries the feature *)
Lemma answer_source ls s t h f k host port : exec step (sinit carried) ls = Some s -> In (HubModel.EAnswer t h f k host port) (HubModel.hist (sh s)) ->
  exists i p k1 j p' h' n,
    hublink h = Some (i, p) /\ In (EQuery k1 f) (hist (sd s i)) /\
    link j p' = ToHub h' /\ carries (carried j) f true /\ host = HubModel.pickIP (raddr h') /\
    In (ERecv p' (KRegistered n)) (hist (sd s j)) /\ In (ESocket (SListen n)) (hist (sd s j)) /\
    (length (registers p' (hist (sd s j))) <= 1 -> n = port).
Proof.
  intros H He. pose proof (reach_ok _ _ _ _ _ _ _ W _ _ H) as O.
  destruct (hub_runs _ _ _ _ _ _ _ _ O) as [lh Lh]. apply In_nth_error in He as [x Hx].
  destruct (HubProps.C32_answers_a_ready_registrant _ _ _ _ Lh _ _ _ _ _ _ _ Hx) as (_ & Hq & d & r & m & sl & sl' & _ & _ & _ & Hr & Hf & Hm & Hf' & -> & Ha).
  apply nth_error_In in Hq, Hr, Hm.
  destruct (hub_in _ _ _ _ _ _ _ _ O _ _ (or_introl Hq)) as (i & p & Hh & Fq).
  destruct (hub_in _ _ _ _ _ _ _ _ O _ _ (or_introl Hr)) as (j & p' & Hl & Fr).
  destruct (hub_in _ _ _ _ _ _ _ _ O _ _ (or_introl Hm)) as (j' & p2 & Hl' & Fm). rewrite Hl in Hl'. injection Hl' as <- <-.
  assert (Q : exists k, In (EQuery k f) (hist (sd s i))).
  { destruct Fq as [X|X]; auto. destruct (docks_run _ _ _ _ _ _ _ _ O i) as [li Li]. apply (dock_sends _ _ _ _ _ _ Li) in X. destruct X. }
  destruct Q as [k1 Q]. destruct (docks_run _ _ _ _ _ _ _ _ O j) as [lj Lj]. assert (Lk : link j p' = ToHub d) by now apply W.
  assert (N : exists n, In (ERecv p' (KRegistered n)) (hist (sd s j)) /\ In (ESocket (SListen n)) (hist (sd s j))).
  { destruct (ready_after _ _ _ _ _ _ Lj Fm) as [[sl0 X]|X]; auto. exfalso. pose proof (came_from _ _ _ _ _ _ _ _ _ _ _ O X) as C. rewrite Lk in C.
    apply hub_packets in C as [[? C]|[? C]]; discriminate. }
  destruct N as (n & N1 & N2). exists i, p, k1, j, p', d, n. repeat split; auto.
  - destruct (in_split _ _ Fr) as (y & z & Ez). destruct (announce_event _ _ _ _ _ _ sl _ _ Lj Ez (or_introl eq_refl)) as [An1 An2].
    apply An1; auto. intros X. apply An2 in X as ->. destruct Hf.
  - intros Le. pose proof (came_from _ _ _ _ _ _ _ _ _ _ _ O N1) as C. rewrite Lk in C.
    assert (Rn : In n (HubSpec.replies d (HubModel.hist (sh s)))).
    { unfold hub_out in C. apply in_flat_map in C as (e & He & Hk). unfold HubSpec.replies. apply in_flat_map. exists e. split; auto.
      destruct e; cbn in Hk; try (destruct Hk; fail); (destruct (p0 =? d); [|destruct Hk]; destruct Hk as [Hk|[]]); [|discriminate]. injection Hk as ->. now left. }
    destruct (HubProps.C56_replies_own_ports _ _ _ _ d Lh) as (rest & G & _).
    assert (G1 : In n (HubSpec.granted d (HubModel.hist (sh s)))) by (rewrite G; apply in_or_app; now left).
    assert (G2 : In port (HubSpec.granted d (HubModel.hist (sh s)))).
    { unfold HubSpec.granted. apply in_flat_map. eexists. split; [exact Ha|]. cbn. rewrite Nat.eqb_refl. now left. }
    assert (G3 : length (HubSpec.granted d (HubModel.hist (sh s))) <= length (HubSpec.requests d (HubModel.hist (sh s)))).
    { pose proof (HubProof4.regs_exec _ _ _ _ Lh d) as Rg. unfold HubProof4.reg_ok in Rg. destruct (HubModel.handlers (sh s) d); try lia.
      - destruct Rg as (l & -> & E & _). rewrite app_length, E. lia.
      - destruct Rg as (l & g & E & _). lia. }
    assert (G4 : length (HubSpec.requests d (HubModel.hist (sh s))) <= length (registers p' (hist (sd s j)))).
    { pose proof (hflows _ _ H d) as F. unfold hflow, hsource in F. rewrite Hl in F. rewrite filter_app in F.
      assert (F' : subseq (filter announcement (hub_got d (HubModel.hist (sh s)))) (filter announcement (map to_hub (sent_on p' (hist (sd s j)))))).
      { eapply sq_trans; [|exact F]. rewrite <- (app_nil_r (filter announcement (hub_got d _))) at 1. apply sq_app; [apply sq_refl|apply sq_empty]. }
      apply (sq_filter (fun k => match k with HubModel.PRegister _ => true | _ => false end)), sq_length in F'.
      etransitivity; [|etransitivity; [exact F'|]]; clear.
      - apply Nat.eq_le_incl. induction (HubModel.hist (sh s)) as [|e l IH]; cbn; auto. fold (hub_got d l). fold (HubSpec.requests d l). rewrite filter_app, filter_app, !app_length, <- IH.
        destruct e; cbn; auto. destruct (p =? d); [|destruct k; reflexivity]. destruct k; reflexivity.
      - apply Nat.eq_le_incl. unfold registers. induction (sent_on p' (hist (sd s j))) as [|k l IH]; cbn; auto. destruct k; cbn; auto. }
    destruct (HubSpec.granted d (HubModel.hist (sh s))) as [|g [|g' gs]]; cbn in *; [destruct G1| |lia].
    destruct G1 as [<-|[]], G2 as [<-|[]]. reflexivity.
Qed.
Lemma discovery ls s i p a : exec step (sinit carried) ls = Some s -> In (ERecv p (KAddress a)) (hist (sd s i)) ->
  exists h f k j p' h' port n,
    link i p = ToHub h /\ In (EQuery k f) (hist (sd s i)) /\
    link j p' = ToHub h' /\ carries (carried j) f true /\ a = hostport (HubModel.pickIP (raddr h')) port /\
    In (ERecv p' (KRegistered n)) (hist (sd s j)) /\ In (ESocket (SListen n)) (hist (sd s j)) /\
    (length (registers p' (hist (sd s j))) <= 1 -> n = port).
Proof.
  intros H R. pose proof (reach_ok _ _ _ _ _ _ _ W _ _ H) as O.
  pose proof (came_from _ _ _ _ _ _ _ _ _ _ _ O R) as C. destruct (link i p) as [|j q|h] eqn:El; [destruct C| |].
  { destruct C as (k0 & Hs & A). destruct (docks_run _ _ _ _ _ _ _ _ O j) as [lj Lj]. apply (dock_sends _ _ _ _ _ _ Lj) in Hs.
    inversion A; subst; destruct Hs. }
  unfold hub_out in C. apply in_flat_map in C as (e & He & Hk). destruct e; cbn in Hk; try destruct Hk.
  { destruct (p0 =? h); [|destruct Hk]. destruct Hk as [Hk|[]]. discriminate. }
  destruct (Nat.eqb_spec p0 h) as [->|]; [|destruct Hk]. destruct Hk as [Hk|[]]. injection Hk as <-.
  destruct (answer_source _ _ _ _ _ _ _ _ H He) as (i' & p' & k1 & j & q & h' & n & Hh & Q & Lj & Cr & -> & N1 & N2 & N3).
  assert (El' := El). apply W in El'. rewrite El' in Hh. injection Hh as <- <-.
  exists h, f, k1, j, q, h', port, n. repeat split; auto.
Qed.
Lemma hub_order ls s h i p : exec step (sinit carried) ls = Some s -> hublink h = Some (i, p) ->
  let arrived := filter announcement (hub_got h (HubModel.hist (sh s)) ++ hwire s h) in
  let sent := filter announcement (map to_hub (sent_on p (hist (sd s i)))) in
  subseq arrived sent /\ (lossless ls -> arrived = sent).
Proof.
  intros H Lk. cbv zeta. pose proof (hflows _ _ H h) as F. unfold hflow, hsource in F. rewrite Lk in F. split; auto.
  intros Ll. pose proof (lossless_hflow _ _ H Ll h) as G. unfold hflow, hsource in G. now rewrite Lk in G.
Qed.
End Sys.
