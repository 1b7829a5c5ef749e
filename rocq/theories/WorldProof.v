(* A network of dialled connections is a system: the theorems of SysProps.v apply. *)
From Verif Require Import Lts GoVal Tables DockModel DockSpec DockProof DockProof2 SysModel SysSpec SysProof WorldModel WorldSpec.
From Verif Require HubModel HubSpec.
From Coq Require Import Arith Bool List ZArith Lia.
Import ListNotations.
Open Scope nat_scope.

Section Known.
Context {V : Type}.
(* the peers a dock may send on *)
Record knows (S : nat -> Prop) (d : dock V) : Prop := {
  k_ann : forall p b, In (p, b) (announcers d) -> S p;
  k_rem : forall f p, remote d f = Some p -> S p;
  k_hand : forall p, handlers d p <> HIdle -> S p;
  k_serv : forall sv, In sv (servers d) -> S (s_peer sv) }.
Lemma knows_mono (S S' : nat -> Prop) d : (forall p, S p -> S' p) -> knows S d -> knows S' d.
Proof. intros M [A B C D]. split; intros; apply M; eauto. Qed.
Lemma knows_new S c : knows S (new_dock c).
Proof. split; cbn; intros; try contradiction; try discriminate. Qed.
Lemma knows_step S (d : dock V) l d' : knows S d -> tr V d l d' ->
  (forall p k, l = LRecv p k -> S p) -> (forall p, l = LConnected p -> S p) ->
  knows S d' /\ exists es, hist d' = hist d ++ es /\ forall p k acc, In (ESend p k acc) es -> S p.
Proof.
  intros [A B C D] T HR HC.
  assert (U : forall p x q, (x <> HIdle -> S p) -> updp (handlers d) p x q <> HIdle -> S q).
  { intros p x q X. unfold updp. destruct (Nat.eqb_spec q p) as [->|]; auto. }
  assert (G : forall es, (forall p k acc, In (ESend p k acc) es -> S p) -> forall h, h = hist d ++ es -> exists es', h = hist d ++ es' /\ forall p k acc, In (ESend p k acc) es' -> S p) by eauto.
  destruct T; (split; [split; proj; auto|]);
    try (intros; eapply U; [|eassumption]; intros; first [eapply HR; reflexivity | eapply C; congruence]; fail);
    try (proj; rewrite <- ?app_assoc; cbn [app]; eapply G; [|first [reflexivity|symmetry; apply app_nil_r]]; cbn; intros; intuition (try discriminate); fail).
  - intros sv X. apply in_app_or in X as [X|[<-|[]]]; auto. cbn. eapply HR; reflexivity.
  - proj. eapply G; [|reflexivity]. cbn. intros p0 k0 a0 [X|[X|[]]]; [discriminate|]. injection X as <- _ _. eauto.
  - proj. eapply G; [|reflexivity]. cbn. intros p0 k0 a0 [X|[]]. injection X as <- _ _. apply C. congruence.
  - intros f0 p0. destruct (updn_case (remote d) f (Some p) f0) as [[_ ->]|[_ ->]]; [|eauto]. intros [= <-]. apply C. congruence.
  - proj. eapply G; [|reflexivity]. cbn. intros p0 k0 a0 [X|[]]. injection X as <- _ _. apply C. congruence.
  - intros p0 b X. apply in_app_or in X as [X|[X|[]]]; eauto. injection X as <- _. auto.
  - intros p0 b X. apply set_nth_in in X as [X|X]; eauto. injection X as -> _. apply nth_error_In in H. eauto.
  - proj. eapply G; [|reflexivity]. cbn. intros p0 k0 a0 [X|[]]. injection X as <- _ _. apply nth_error_In in H. eauto.
  - proj. eapply G; [|reflexivity]. cbn. intros p0 k0 a0 [X|[X|[]]]; [discriminate|]. injection X as <- _ _. eauto.
  - intros sv0 X. apply nth_error_In in H. apply set_nth_in in X as [->|X]; auto. cbn. auto.
  - intros sv0 X. apply nth_error_In in H. apply set_nth_in in X as [->|X]; auto. cbn. auto.
  - proj. eapply G; [|reflexivity]. cbn. intros p0 k0 a0 [X|[X|[]]]; [discriminate|]. injection X as <- _ _. apply nth_error_In in H. auto.
Qed.
End Known.

(* links with more connections *)
Definition extends (L E : nat -> nat -> wend) : Prop := forall i p, E i p <> Nowhere -> L i p = E i p.
Lemma extends_refl E : extends E E. Proof. intros i p _. reflexivity. Qed.

Section Proj.
Context {V : Type}.
Variables (carried : nat -> list (name * bool)).
Variable carry : nat -> nat -> list V -> option (list V).
Variables (black : list Z) (raddr : nat -> name).
Notation sys := (SysModel.sys V).
Notation step E := (sstep E hub_end carry black raddr hostport).
Implicit Types w : world V.

Definition open_ended (E : nat -> nat -> wend) (s : sys) : Prop :=
  (forall i, knows (fun p => E i p <> Nowhere) (sd s i)) /\ (forall i p, wire s i p <> [] -> E i p <> Nowhere).

Lemma post_agree L E i ps es : (forall p k acc, In (ESend p k acc) es -> L i p = E i p) -> (forall p, In p ps -> L i p = E i p) ->
  forall s, fold_left (post_event L carry i ps) es s = fold_left (post_event E carry i ps) es s.
Proof.
  intros H P. induction es as [|e es IH]; intros s; cbn [fold_left]; auto.
  rewrite IH by (intros; eapply H; right; eauto). f_equal. unfold post_event. destruct e; auto.
  - destruct accepted; auto. unfold post. rewrite (H p k true) by now left. reflexivity.
  - clear IH H. revert s. induction ps as [|p ps IH]; intros s; cbn; auto. unfold post_query at 2 4. rewrite P by now left. apply IH. intros. apply P. now right.
Qed.
Lemma dock_keep E s i l ps s' : wired E hub_end -> open_ended E s -> dock_step E carry i l ps s = Some s' ->
  (forall p k, l = LRecv p k -> E i p <> Nowhere) -> (forall p, l = LConnected p -> E i p <> Nowhere) -> (forall p, In p ps -> E i p <> Nowhere) ->
  open_ended E s' /\ forall L, extends L E -> dock_step L carry i l ps s = Some s'.
Proof.
  intros W [K Wi] H HR HC HP. unfold dock_step in *. destruct (dstep (sd s i) l) as [d|] eqn:Ed; [|discriminate].
  injection H as <-. apply dstep_tr in Ed as [_ T]. destruct (knows_step _ _ _ _ (K i) T HR HC) as (K' & es & He & Hs).
  rewrite He, new_app. split.
  - split.
    + intros a. destruct (post_docks E carry i ps es (set_dock i d s)) as [-> _]. cbn. unfold updp. destruct (Nat.eqb_spec a i) as [->|]; auto.
    + intros a q. rewrite (posts carried E hub_end carry black raddr hostport W). cbn. intros N. destruct (wire s a q) eqn:Ew; [|apply Wi; congruence].
      cbn in N. unfold into in N. destruct (E a q); congruence.
  - intros L X. f_equal. apply post_agree; [intros p k acc I; apply X; eauto|intros p I; apply X; auto].
Qed.
Lemma hub_keep E s l s' : wired E hub_end -> open_ended E s -> hub_step hub_end black raddr hostport l s = Some s' -> open_ended E s'.
Proof.
  intros W [K Wi] H. unfold hub_step in H. destruct (HubModel.hstep black raddr (sh s) l) as [hb|] eqn:Eh; [|discriminate]. injection H as <-.
  destruct (hub_posts_rest hub_end hostport (new_events (HubModel.hist (sh s)) (HubModel.hist hb)) (set_hub hb s)) as (Pd & _). split.
  - rewrite Pd. exact K.
  - intros a q. rewrite (hub_posts carried E hub_end carry black raddr hostport W). cbn. intros N. destruct (wire s a q) eqn:Ew; [|apply Wi; congruence].
    cbn in N. unfold hub_into in N. destruct (E a q); congruence.
Qed.
Lemma wire_less E s i p r : open_ended E s -> (r <> [] -> wire s i p <> []) -> open_ended E (set_wire i p r s).
Proof.
  intros [K Wi] H. split; auto. intros a q. cbn. destruct (Nat.eq_dec a i) as [->|N]; [destruct (Nat.eq_dec q p) as [->|N]|].
  - rewrite put_same. auto.
  - rewrite put_other by auto. auto.
  - rewrite put_other by auto. auto.
Qed.
Lemma sys_keep E s l s' : wired E hub_end -> open_ended E s -> step E s l = Some s' ->
  match l with SDock i l ps => (forall p, l = LConnected p -> E i p <> Nowhere) /\ (forall p, In p ps -> E i p <> Nowhere) | _ => True end ->
  open_ended E s' /\ forall L, extends L E -> step L s l = Some s'.
Proof.
  intros W O H C. destruct l; cbn [sstep] in *.
  - destruct C as [C1 C2]. assert (X : dock_step E carry i l ps s = Some s' /\ match l with LRecv _ _ => False | _ => True end) by (destruct l; try discriminate; auto).
    destruct X as [X N]. destruct (dock_keep E s i l ps s' W O X) as [A B]; auto; [intros p k ->; destruct N|].
    split; auto. intros L Ex. specialize (B L Ex). destruct l; auto; destruct N.
  - destruct (wire s i p) as [|k r] eqn:Ew; [discriminate|].
    destruct (dock_keep E (set_wire i p r s) i (LRecv p k) [] s' W) as [A B]; auto.
    + apply wire_less; auto. congruence.
    + intros p0 k0 [= <- _]. apply O. congruence.
    + discriminate.
  - injection H as <-. split; auto. apply wire_less; auto. intros X Y. rewrite Y in X. apply X. unfold drop_nth. destruct n; reflexivity.
  - assert (X : hub_step hub_end black raddr hostport l s = Some s') by (destruct l; try discriminate; auto). split; [eapply hub_keep; eauto|]. intros L _. exact H.
  - destruct (hwire s h) as [|k r] eqn:Ew; [discriminate|]. split; auto. eapply (hub_keep E (set_hwire h r s)); eauto.
  - injection H as <-. split; auto.
Qed.

Record winv w : Prop := {
  wi_wired : wired (ends w) hub_end;
  wi_fresh : forall i p, ends w i p <> Nowhere -> p < peers w i;
  wi_open : open_ended (ends w) (ws w);
  wi_back : forall j q, In q (backlog w j) -> ends w j q <> Nowhere }.
Lemma hub_known w i : winv w -> ends w i 0 = ToHub i.
Proof. intros [[_ H] _ _ _]. apply H. reflexivity. Qed.
Lemma winv_init : winv (winit carried).
Proof.
  split; cbn.
  - split.
    + intros i [|p] j q; discriminate.
    + intros i p h. unfold hub_end. destruct p; split; try discriminate; intros [= <-]; auto.
  - intros i [|p]; [lia|congruence].
  - split; [intros i; apply knows_new|cbn; congruence].
  - intros j q [].
Qed.

(* the new connection *)
Lemma join_ends i j w : winv w -> let p0 := peers w i in let q := updp (peers w) i (S p0) j in
  ends w i p0 = Nowhere /\ ends w j q = Nowhere /\ p0 <> 0 /\
  ends (join i j w) i p0 = ToDock j q /\ ends (join i j w) j q = ToDock i p0 /\
  forall a p, (a <> i \/ p <> p0) -> (a <> j \/ p <> q) -> ends (join i j w) a p = ends w a p.
Proof.
  intros I p0 q. assert (I' := I). destruct I' as [_ F _ _].
  assert (N1 : ends w i p0 = Nowhere).
  { destruct (ends w i p0) eqn:X; auto; exfalso; specialize (F i p0); rewrite X in F; assert (p0 < peers w i) by (apply F; discriminate); unfold p0 in *; lia. }
  assert (N2 : ends w j q = Nowhere).
  { destruct (ends w j q) eqn:X; auto; exfalso; specialize (F j q); rewrite X in F; assert (Y : q < peers w j) by (apply F; discriminate);
      clear - Y; revert Y; unfold q, p0, updp; destruct (Nat.eqb_spec j i) as [->|]; lia. }
  repeat split; auto.
  - intros Z. rewrite Z, (hub_known w i I) in N1. discriminate.
  - cbn. fold p0. fold q. destruct (Nat.eq_dec i j) as [<-|Nj].
    + unfold q, p0, updp. rewrite !Nat.eqb_refl. destruct (Nat.eqb_spec (peers w i) (S (peers w i))); [lia|]. rewrite ?Nat.eqb_refl. reflexivity.
    + rewrite updp_other by auto. rewrite !updp_same. reflexivity.
  - cbn. fold p0. fold q. rewrite !updp_same. reflexivity.
  - intros a p A B. cbn. fold p0. fold q. unfold updp at 1. destruct (Nat.eqb_spec a j) as [->|].
    + rewrite updp_other by tauto. unfold updp. destruct (Nat.eqb_spec j i) as [<-|]; auto. destruct (Nat.eqb_spec p p0); tauto.
    + unfold updp. destruct (Nat.eqb_spec a i) as [->|]; auto. destruct (Nat.eqb_spec p p0); tauto.
Qed.
Lemma join_cases i j w a p : winv w -> let p0 := peers w i in let q := updp (peers w) i (S p0) j in
  (a = i /\ p = p0) \/ (a = j /\ p = q) \/ ((a <> i \/ p <> p0) /\ (a <> j \/ p <> q)).
Proof. intros _ p0 q. destruct (Nat.eq_dec a i), (Nat.eq_dec p p0), (Nat.eq_dec a j), (Nat.eq_dec p q); tauto. Qed.
Lemma join_inv i j w : winv w -> extends (ends (join i j w)) (ends w) /\ wired (ends (join i j w)) hub_end /\
  (forall a p, ends (join i j w) a p <> Nowhere -> p < peers (join i j w) a) /\
  (forall a q, In q (backlog (join i j w) a) -> ends (join i j w) a q <> Nowhere).
Proof.
  intros I. destruct (join_ends i j w I) as (N1 & N2 & Z & E1 & E2 & E3). assert (I' := I). destruct I' as [[W1 W2] F O B].
  assert (C := fun a p => join_cases i j w a p I). cbv zeta in C.
  set (q := updp (peers w) i (S (peers w i)) j) in *. set (p0 := peers w i) in *.
  assert (X : extends (ends (join i j w)) (ends w)).
  { intros a p N. destruct (C a p) as [[-> ->]|[[-> ->]|[A A']]]; try congruence. apply E3; auto. }
  repeat split; auto.
  - intros a p b r. destruct (C a p) as [[-> ->]|[[-> ->]|[A A']]].
    + rewrite E1. intros [= <- <-]. exact E2.
    + rewrite E2. intros [= <- <-]. exact E1.
    + rewrite E3 by auto. intros Y. apply W1 in Y. rewrite X; congruence.
  - destruct (C i0 p) as [[-> ->]|[[-> ->]|[A A']]].
    + rewrite E1. discriminate.
    + rewrite E2. discriminate.
    + rewrite E3 by auto. apply W2.
  - intros Y. apply W2 in Y. rewrite X; congruence.
  - intros a p N. destruct (C a p) as [[-> ->]|[[-> ->]|[A A']]].
    + cbn. unfold p0, updp. rewrite !Nat.eqb_refl. destruct (Nat.eqb_spec i j) as [<-|]; [rewrite Nat.eqb_refl|]; lia.
    + cbn. rewrite updp_same. fold p0. fold q. lia.
    + rewrite E3 in N by auto. apply F in N. cbn. unfold updp. destruct (a =? j) eqn:Ej; [apply Nat.eqb_eq in Ej; subst|]; destruct (Nat.eqb_spec j i); subst; try lia.
      all: destruct (Nat.eqb_spec a i); subst; lia.
  - intros a r Y. change (In r (updp (backlog w) j (backlog w j ++ [q]) a)) in Y. unfold updp in Y. destruct (Nat.eqb_spec a j) as [->|].
    + apply in_app_or in Y as [Y|[<-|[]]]; [apply B in Y; rewrite X; auto|]. rewrite E2. discriminate.
    + apply B in Y. rewrite X; auto.
Qed.

(* the steps of the system behind one step of the network *)
Definition plain (l : slab V) : Prop := match l with SLose _ _ _ | SHubLose _ _ => False | _ => True end.
Lemma wstep_sys w l w' : winv w -> wstep carry black raddr w l = Some w' -> winv w' /\ extends (ends w') (ends w) /\
  exists ls, (forall L, extends L (ends w') -> exec (step L) (ws w) ls = Some (ws w')) /\
    (match l with WLose _ _ _ | WHubLose _ _ => False | _ => True end -> Forall plain ls).
Proof.
  intros I H. assert (I' := I). destruct I' as [W F O B].
  assert (K0 : forall i, ends w i 0 <> Nowhere) by (intros i; rewrite hub_known; [discriminate|exact I]).
  (* one step, connections as they are *)
  assert (One : forall sl s' w1, step (ends w) (ws w) sl = Some s' ->
    match sl with SDock i l ps => (forall p, l = LConnected p -> ends w i p <> Nowhere) /\ (forall p, In p ps -> ends w i p <> Nowhere) | _ => True end ->
    ends w1 = ends w -> peers w1 = peers w -> (forall j q, In q (backlog w1 j) -> In q (backlog w j)) -> (plain sl \/ ~ match l with WLose _ _ _ | WHubLose _ _ => False | _ => True end) -> 
    w' = with_sys s' w1 -> winv w' /\ extends (ends w') (ends w) /\
    exists ls, (forall L, extends L (ends w') -> exec (step L) (ws w) ls = Some (ws w')) /\ (match l with WLose _ _ _ | WHubLose _ _ => False | _ => True end -> Forall plain ls)).
  { intros sl s' w1 Hs Hc E1 E2 E3 Hp ->. destruct (sys_keep _ _ _ _ W O Hs Hc) as [O' A]. split; [|split].
    - split; cbn; rewrite ?E1, ?E2; auto.
    - cbn. rewrite E1. apply extends_refl.
    - exists [sl]. split; [intros L X; cbn in X; rewrite E1 in X; cbn; rewrite A; auto|]. intros P. repeat constructor. tauto. }
  assert (On : forall w1 o, on w1 o = Some w' -> exists s', o = Some s' /\ w' = with_sys s' w1).
  { intros w1 [s'|]; [|discriminate]. intros [= <-]. eauto. }
  assert (Qp : forall i p, In p (query_peers w i) -> ends w i p <> Nowhere).
  { intros i p. unfold query_peers. destruct (sockets _) as [|[] ?]; intros X; repeat destruct X as [<-|X]; auto; destruct X. }
  destruct l.
  - assert (X : on w (step (ends w) (ws w) (SDock i l (query_peers w i))) = Some w' /\ match l with LConnected _ => False | _ => True end)
      by (destruct l; try discriminate; auto).
    destruct X as [X N]. apply On in X as (s' & Hs & ->). eapply (One _ s' w); eauto; [|left; exact Logic.I].
    split; [intros p ->; destruct N|apply Qp].
  - cbn in H. destruct (existsb _ _); [discriminate|]. apply (On w) in H as (s' & Hs & ->). eapply (One (SDeliver i p) s' w); eauto. left; exact Logic.I.
  - apply (On w) in H as (s' & Hs & ->). eapply (One (SLose i p n) s' w); eauto.
  - apply (On w) in H as (s' & Hs & ->). eapply (One (SHub l) s' w); eauto. left; exact Logic.I.
  - apply (On w) in H as (s' & Hs & ->). eapply (One (SHubDeliver h) s' w); eauto. left; exact Logic.I.
  - apply (On w) in H as (s' & Hs & ->). eapply (One (SHubLose h n) s' w); eauto.
  - unfold wstep in H. apply (On w) in H as (s' & Hs & ->). destruct ok.
    + cbn [exec] in Hs. destruct (step (ends w) (ws w) (SDock i (LDial true) [])) as [s1|] eqn:E1; [|discriminate].
      destruct (sys_keep _ _ _ _ W O E1) as [O1 A1]; [split; [discriminate|intros ? []]|].
      destruct (step (ends w) s1 (SDock i (LConnected 0) [])) as [s2|] eqn:E2; [|discriminate]. injection Hs as <-.
      destruct (sys_keep _ _ _ _ W O1 E2) as [O2 A2]; [split; [intros p [= <-]; auto|intros ? []]|].
      split; [split; auto|]. split; [apply extends_refl|]. exists [SDock i (LDial true) []; SDock i (LConnected 0) []]. split; [|repeat constructor].
      intros L X. cbn [exec]. rewrite A1, A2; auto.
    + cbn [exec] in Hs. destruct (step (ends w) (ws w) (SDock i (LDial false) [])) as [s1|] eqn:E1; [|discriminate]. injection Hs as <-.
      eapply (One _ s1 w E1); eauto; [split; [discriminate|intros ? []]|left; exact Logic.I].
  - unfold wstep in H. destruct (handlers _ p) as [| | | | | | |n| | | | |]; try discriminate.
    destruct (ok && negb (port_free raddr w i n)); [discriminate|]. apply On in H as (s' & Hs & ->).
    match goal with |- winv (with_sys _ ?w1) /\ _ => apply (One (SDock i (HNet p ok) []) s' w1 Hs) end; auto; try (destruct ok; auto; fail); [split; [discriminate|intros ? []]|left; exact Logic.I].
  - unfold wstep in H. destruct (handlers _ p); try discriminate. destruct (_ && _); [|discriminate]. apply On in H as (s' & Hs & ->). cbn [exec] in Hs.
    destruct (step (ends w) (ws w) (SDock i (HNet p true) [])) as [s1|] eqn:E1; [|discriminate].
    destruct (sys_keep _ _ _ _ W O E1) as [O1 A1]; [split; [discriminate|intros ? []]|].
    destruct (join_inv i j w I) as (X & W' & F' & B'). destruct (join_ends i j w I) as (_ & _ & _ & E1' & _).
    assert (O1' : open_ended (ends (join i j w)) s1).
    { destruct O1 as [P Q]. split; [intros a; eapply knows_mono; [|apply P]; intros q N; cbn in N; rewrite X; auto|]. intros a q N. rewrite X; auto. }
    destruct (step (ends w) s1 (SDock i (LConnected (peers w i)) [])) as [s2|] eqn:E2; [|discriminate]. injection Hs as <-.
    assert (E2' : step (ends (join i j w)) s1 (SDock i (LConnected (peers w i)) []) = Some s2).
    { revert E2. cbn [sstep]. unfold dock_step. destruct (dstep (sd s1 i) (LConnected (peers w i))) as [d|] eqn:Ed; [|discriminate].
      assert (Hd : hist d = hist (sd s1 i)) by (apply dstep_tr in Ed as [_ T]; inversion T; reflexivity). rewrite Hd. unfold new_events. rewrite skipn_all. auto. }
    destruct (sys_keep _ _ _ _ W' O1' E2') as [O2 A2]; [split; [intros q [= <-]; rewrite E1'; discriminate|intros ? []]|].
    split; [split; auto|]. split; [exact X|]. exists [SDock i (HNet p true) []; SDock i (LConnected (peers w i)) []]. split; [|repeat constructor].
    intros L Y. change (ends (with_sys s2 (join i j w))) with (ends (join i j w)) in Y. cbn [exec]. rewrite A1, A2; auto. intros a q N. rewrite Y by (rewrite X; auto). apply X, N.
  - unfold wstep in H. destruct (handlers _ p); try discriminate. apply On in H as (s' & Hs & ->).
    eapply (One (SDock i (HNet p false) []) s' w); eauto; [split; [discriminate|intros ? []]|left; exact Logic.I].
  - unfold wstep in H. destruct (existsb _ _) eqn:Eb; [|discriminate]. apply On in H as (s' & Hs & ->).
    match goal with |- winv (with_sys _ ?w1) /\ _ => apply (One (SDock j (LConnected q) []) s' w1 Hs) end; auto; [| |left; exact Logic.I].
    + split; [|intros ? []]. intros p [= <-]. apply B. apply existsb_exists in Eb as (x & X & Y). apply Nat.eqb_eq in Y. subst. exact X.
    + cbn. intros a r. unfold updp. destruct (Nat.eqb_spec a j) as [->|]; auto. intros Y. apply filter_In in Y. tauto.
Qed.
Notation run ls w := (exec (wstep carry black raddr) (winit carried) ls = Some w).
Lemma run_sys ls w : run ls w -> winv w /\
  exists ls', (forall L, extends L (ends w) -> exec (step L) (sinit carried) ls' = Some (ws w)) /\ (nothing_lost ls -> lossless ls').
Proof.
  revert w. induction ls as [|l ls IH] using rev_ind; intros w H.
  - injection H as <-. split; [apply winv_init|]. exists []. split; [reflexivity|]. intros _ l [].
  - rewrite exec_app in H. destruct (exec _ _ ls) as [w0|] eqn:E; [|discriminate]. cbn in H. destruct (wstep carry black raddr w0 l) as [w1|] eqn:Es; [|discriminate].
    injection H as <-. destruct (IH _ eq_refl) as (I & ls0 & R & Ll). destruct (wstep_sys _ _ _ I Es) as (I' & X & ls1 & R1 & P).
    split; auto. exists (ls0 ++ ls1). split.
    + intros L Y. rewrite exec_app, R; [apply R1, Y|]. intros i p N. rewrite Y by (rewrite X; auto). apply X, N.
    + intros Nl k K. apply in_app_or in K as [K|K]; [apply Ll; auto; intros l' Hl; apply Nl, in_or_app; now left|].
      assert (Forall plain ls1) as Fp by (apply P, Nl, in_or_app; right; now left). rewrite Forall_forall in Fp. apply Fp, K.
Qed.
End Proj.

Lemma run_system V carried (carry : nat -> nat -> list V -> option (list V)) black raddr ls w :
  exec (wstep carry black raddr) (winit carried) ls = Some w ->
  wired (ends w) hub_end /\
  exists ls', exec (sstep (ends w) hub_end carry black raddr hostport) (sinit carried) ls' = Some (ws w) /\ (nothing_lost ls -> lossless ls').
Proof.
  intros E. destruct (run_sys carried carry black raddr ls w E) as (I & ls' & R & L). split; [apply I|].
  exists ls'. split; [apply R, extends_refl|exact L].
Qed.
