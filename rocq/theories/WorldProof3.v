(* The addresses the hub hands out lead to the docks that offer what was asked for. *)
From Verif Require Import Lts GoVal Tables DockModel DockSpec DockProof DockProof2 DockProof3 DockProof4 SysModel SysSpec SysProof SysProof2 SysProof3 WorldModel WorldSpec WorldProof WorldProof2.
From Verif Require HubModel HubSpec HubProof.
From Coq Require Import Arith Bool List ZArith Lia.
From Coq Require Decimal DecimalZ.
Import ListNotations.
Open Scope nat_scope.

(* addresses *)
Lemma digits_inj a b : digits a = digits b -> a = b.
Proof. revert b. induction a; intros [] H; cbn in H; try discriminate; try reflexivity; injection H as H; f_equal; auto. Qed.
Lemma digits_no x a : ~ (48 <= x <= 57)%Z -> ~ In x (digits a).
Proof. intros N. induction a; cbn; intros H; auto; destruct H as [<-|H]; auto; lia. Qed.
Lemma decimal_inj a b : decimal a = decimal b -> a = b.
Proof.
  unfold decimal. intros H. apply DecimalZ.to_int_inj. destruct (Z.to_int a) as [u|u], (Z.to_int b) as [v|v].
  - f_equal. now apply digits_inj.
  - exfalso. apply (digits_no 45 u); [lia|]. rewrite H. now left.
  - exfalso. apply (digits_no 45 v); [lia|]. rewrite <- H. now left.
  - injection H as H. f_equal. now apply digits_inj.
Qed.
Lemma hostport_inj a b n m : ~ In 58%Z a -> ~ In 58%Z b -> hostport a n = hostport b m -> a = b /\ n = m.
Proof.
  unfold hostport. revert b. induction a as [|x a IH]; intros [|y b] Na Nb H; cbn in H.
  - injection H as H. split; auto. now apply decimal_inj.
  - injection H as <- _. exfalso. apply Nb. now left.
  - injection H as -> _. exfalso. apply Na. now left.
  - injection H as <- H. destruct (IH b) as [-> ->]; auto; intros X; [apply Na|apply Nb]; now right.
Qed.

Section P.
Context {V : Type}.
Variables (carried : nat -> list (name * bool)).
Variable carry : nat -> nat -> list V -> option (list V).
Variables (black : list Z) (raddr : nat -> name).
Notation sys := (SysModel.sys V).
Notation step E := (sstep E hub_end carry black raddr hostport).
Notation wstep := (wstep carry black raddr).
Notation machine := (machine raddr).
Notation view := (@view V carry black raddr).
Implicit Types w : world V.

(* closed sockets *)
Lemma closed_cleared c ls (d : dock V) : exec dstep (new_dock c) ls = Some d ->
  (forall n, closer d = KSock n -> cleared (hist d)) /\ (forall k, In (ESockClosed k) (hist d) -> cleared (hist d)).
Proof.
  apply (reach (fun d => (forall n, closer d = KSock n -> cleared (hist d)) /\ (forall k, In (ESockClosed k) (hist d) -> cleared (hist d)))).
  - split; [discriminate|intros k []].
  - clear. intros d l d' [I J] _ T. unfold cleared in *.
    destruct T; proj; (split; [intros n' Hn'|intros k' Hk']); try discriminate; repeat rewrite in_app_iff in *; cbn [In] in *;
      try (left; eapply I; eauto; fail); try (eapply I; eauto; fail); try tauto;
      repeat match goal with H : _ \/ _ |- _ => destruct H end; try discriminate; try contradiction; eauto.
Qed.

(* announcements on the connection to the hub *)
Definition unsent (a : list (nat * bool)) : nat := length (filter (fun x => (fst x =? 0) && negb (snd x)) a).
Lemma unsent_app a b : unsent (a ++ b) = unsent a + unsent b.
Proof. unfold unsent. now rewrite filter_app, app_length. Qed.
Lemma registers_app p (a b : list (event V)) : registers p (a ++ b) = registers p a ++ registers p b.
Proof. unfold registers. now rewrite sent_app, filter_app. Qed.
Lemma unsent_set a j p : nth_error a j = Some (p, false) -> unsent (set_nth a j (p, true)) + (if p =? 0 then 1 else 0) = unsent a.
Proof.
  revert j. induction a as [|x a IH]; intros [|j] H; try discriminate; cbn in H.
  - injection H as ->. cbn. unfold unsent. cbn. destruct (p =? 0); cbn; lia.
  - specialize (IH _ H). change (set_nth (x :: a) (S j) (p, true)) with (x :: set_nth a j (p, true)). unfold unsent in *. cbn. destruct (_ && _); cbn; lia.
Qed.
Definition once (d : dock V) : Prop :=
  length (registers 0 (hist d)) + unsent (announcers d) <= match runner d with NDial => 0 | _ => 1 end.
Lemma once_step (d : dock V) l d' : tr V d l d' -> once d -> l <> LConnected 0 -> l <> LDial true -> once d'.
Proof.
  intros T O N N'. unfold once in *.
  assert (R : forall e, registers 0 [e] = [] -> registers 0 (hist d ++ [e]) = registers 0 (hist d)) by (intros e X; rewrite registers_app, X; apply app_nil_r).
  assert (R2 : forall e e', registers 0 [e; e'] = [] -> registers 0 (hist d ++ [e; e']) = registers 0 (hist d)) by (intros e e' X; rewrite registers_app, X; apply app_nil_r).
  destruct T; proj; rewrite <- ?app_assoc; cbn [app]; rewrite ?R2, ?R by (unfold registers, sent_on; cbn; try destruct acc; cbn; try (match goal with |- context [?x =? 0] => destruct (x =? 0) end); reflexivity);
    auto; try congruence.
  - rewrite unsent_app. destruct p; [congruence|]. unfold unsent at 2. cbn. lia.
  - rewrite registers_app, app_length. pose proof (unsent_set _ _ _ H) as U. unfold registers at 2, sent_on; cbn. destruct acc; cbn; [|lia].
    destruct (p =? 0); cbn in *; lia.
  - destruct (runner d); try discriminate. lia.
Qed.
Lemma once_dial (d d1 d2 : dock V) : tr V d (LDial true) d1 -> tr V d1 (LConnected 0) d2 -> once d -> once d2.
Proof.
  intros T1 T2. inversion T1; subst. inversion T2; subst. unfold once. proj. rewrite unsent_app. rewrite H. unfold unsent at 3. cbn. lia.
Qed.

Record listen_inv w : Prop := {
  li_app : forall j p n, handlers (sd (ws w) j) p = BAppend n -> In (j, n) (listeners w);
  li_sock : forall j n, In (ESocket (SListen n)) (hist (sd (ws w) j)) -> In (j, n) (listeners w);
  li_once : forall j, once (sd (ws w) j);
  li_peers : forall j, 0 < peers w j;
  li_back : forall j, ~ In 0 (backlog w j) }.
(* per dock *)
Record listen1 (L : list (nat * Z)) (j : nat) (d : dock V) : Prop := {
  l1_app : forall p n, handlers d p = BAppend n -> In (j, n) L;
  l1_sock : forall n, In (ESocket (SListen n)) (hist d) -> In (j, n) L }.
Lemma listen1_step L j (d : dock V) l d' : tr V d l d' -> listen1 L j d -> (forall p n, l = HNet p true -> handlers d p = BListen n -> In (j, n) L) -> listen1 L j d'.
Proof.
  intros T [A S] N.
  assert (U : forall p x, (forall n, x = BAppend n -> In (j, n) L) -> forall q n, updp (handlers d) p x q = BAppend n -> In (j, n) L).
  { intros p x X q n. unfold updp. destruct (q =? p); eauto. }
  destruct T; split; proj; auto; try (eapply U; intros; discriminate);
    try (intros m' Hm; repeat rewrite in_app_iff in Hm; cbn [In] in Hm; repeat destruct Hm as [Hm|Hm]; try discriminate; try contradiction; eauto; fail).
  - eapply U. intros m [= <-]. eauto.
  - intros m Hm. apply in_app_or in Hm as [Hm|[Hm|[]]]; auto. injection Hm as <-. eauto.
Qed.
Lemma listen1_more L L' j d : incl L L' -> listen1 L j d -> listen1 L' j d.
Proof. intros I [A S]. split; intros; apply I; eauto. Qed.
Lemma listen_init : listen_inv (winit carried).
Proof. split; cbn; try discriminate; auto; try (intros j []; fail); intros j; unfold once; cbn; lia. Qed.
Lemma listen_step w l w' : winv w -> view w l w' -> listen_inv w -> listen_inv w'.
Proof.
  intros Wi X [A S O P B].
  assert (D : forall j, listen1 (listeners w) j (sd (ws w) j)) by (intros j; split; [intros p n; apply A|intros n; apply S]).
  assert (G : forall w', (forall j, listen1 (listeners w') j (sd (ws w') j)) -> (forall j, once (sd (ws w') j)) -> (forall j, 0 < peers w' j) -> (forall j, ~ In 0 (backlog w' j)) -> listen_inv w')
    by (intros w1 D1 O1 P1 B1; split; auto; [intros j p n; apply D1|intros j n; apply D1]).
  (* one move, the listeners as they are or more *)
  assert (M1 : forall s s' i l es L, dmove carry (ends w) s i l es s' -> (forall j, listen1 L j (sd s j)) -> (forall p n, l = HNet p true -> handlers (sd s i) p = BListen n -> In (i, n) L) ->
    forall j, listen1 L j (sd s' j)).
  { intros s s' i l0 es L M Y N j. destruct (Nat.eq_dec j i) as [->|Ne]; [|rewrite (dm_other _ _ _ _ _ _ _ M) by auto; auto].
    eapply listen1_step; [apply M|auto|auto]. }
  assert (M2 : forall s s' i l es, dmove carry (ends w) s i l es s' -> (forall j, once (sd s j)) -> l <> LConnected 0 -> l <> LDial true -> forall j, once (sd s' j)).
  { intros s s' i l0 es M Y N N' j. destruct (Nat.eq_dec j i) as [->|Ne]; [|rewrite (dm_other _ _ _ _ _ _ _ M) by auto; auto]. eapply once_step; [apply M|auto|auto|auto]. }
  destruct X.
  - apply G; try congruence; try (match goal with E : peers _ = _ |- _ => rewrite E; auto end); try (match goal with E : backlog _ = _ |- _ => rewrite E; auto end).
    + match goal with E : listeners _ = _ |- _ => rewrite E end. eapply M1; eauto. intros p n ->. contradiction.
    + eapply M2; eauto; intros ->; contradiction.
  - apply G; try (match goal with E : peers _ = _ |- _ => rewrite E; auto end); try (match goal with E : backlog _ = _ |- _ => rewrite E; auto end).
    + match goal with E : listeners _ = _ |- _ => rewrite E end. eapply M1; eauto. discriminate.
    + eapply M2; eauto; discriminate.
  - apply G; try (match goal with E : peers _ = _ |- _ => rewrite E; auto end); try (match goal with E : backlog _ = _ |- _ => rewrite E; auto end).
    + match goal with E : listeners _ = _ |- _ => rewrite E end. eapply M1; eauto.
      * intros j. eapply listen1_more; [|apply D]. apply incl_appl, incl_refl.
      * intros p0 n0 [= <-] Hh. assert (n0 = n) as -> by congruence. apply in_or_app. right. now left.
    + eapply M2; eauto; discriminate.
  - apply G; try (match goal with E : peers _ = _ |- _ => rewrite E; auto end).
    + match goal with E : listeners _ = _ |- _ => rewrite E end. eapply M1; eauto. discriminate.
    + eapply M2; eauto; [|discriminate]. intros [= ->]. eapply B; eauto.
    + intros j Hj. eapply B; eauto.
  - match goal with M : hmove _ _ _ _ _ _ |- _ => pose proof (hm_docks _ _ _ _ _ _ M) as Ed end.
    apply G; try (match goal with E : peers _ = _ |- _ => rewrite E; auto end); try (match goal with E : backlog _ = _ |- _ => rewrite E; auto end); rewrite Ed; auto. match goal with E : listeners _ = _ |- _ => rewrite E; auto end.
  - match goal with M1 : dmove _ _ _ _ _ _ s1, M2 : dmove _ _ s1 _ _ _ _ |- _ => rename M1 into Ma; rename M2 into Mb end.
    apply G; try (match goal with E : peers _ = _ |- _ => rewrite E; auto end); try (match goal with E : backlog _ = _ |- _ => rewrite E; auto end).
    + match goal with E : listeners _ = _ |- _ => rewrite E end. eapply M1; [exact Mb| |discriminate]. eapply M1; eauto. discriminate.
    + intros j. destruct (Nat.eq_dec j i) as [->|Ne]; [eapply once_dial; [apply Ma|apply Mb|auto]|].
      rewrite (dm_other _ _ _ _ _ _ _ Mb), (dm_other _ _ _ _ _ _ _ Ma) by auto. auto.
  - match goal with M1 : dmove _ _ _ _ _ _ s1, M2 : dmove _ _ s1 _ _ _ _ |- _ => rename M1 into Ma; rename M2 into Mb end.
    destruct (join_ends carried carry raddr i j w Wi) as (_ & _ & Np & _).
    apply G; cbn [ws with_sys listeners].
    + change (listeners (with_sys s2 (join i j w))) with (listeners w). eapply M1; [exact Mb| |discriminate]. eapply M1; eauto. intros p0 n0 [= <-]. congruence.
    + eapply M2; [exact Mb| | |discriminate]; [eapply M2; eauto; discriminate|]. intros [= X]. auto.
    + intros b. specialize (P b). cbn. unfold updp. destruct (b =? j); [lia|]. destruct (b =? i); lia.
    + intros b. specialize (B b). change (backlog (with_sys s2 (join i j w)) b) with (updp (backlog w) j (backlog w j ++ [updp (peers w) i (Datatypes.S (peers w i)) j]) b).
      unfold updp at 1. destruct (Nat.eqb_spec b j) as [->|]; auto. intros Y. apply in_app_or in Y as [Y|[Y|[]]]; [now apply (B)|].
      specialize (P j). unfold updp in Y. destruct (j =? i); lia.
  - apply G; try (match goal with E : peers _ = _ |- _ => rewrite E; auto end); try (match goal with E : backlog _ = _ |- _ => rewrite E; auto end).
    + match goal with E : listeners _ = _ |- _ => rewrite E end. match goal with E : sd _ = _ |- _ => rewrite E; auto end.
    + match goal with E : sd _ = _ |- _ => rewrite E; auto end.
Qed.

Notation run ls w := (exec wstep (winit carried) ls = Some w).
Lemma run_last ls l w' : run (ls ++ [l]) w' -> exists w, run ls w /\ winv w /\ view w l w'.
Proof.
  rewrite exec_app. destruct (exec wstep (winit carried) ls) as [w|] eqn:E; [|discriminate]. cbn [exec]. destruct (wstep w l) as [w1|] eqn:Es; [|discriminate].
  intros [= <-]. destruct (run_sys carried carry black raddr _ _ E) as [I _]. exists w. split; auto. split; auto. eapply wstep_view; eauto.
Qed.
Lemma run_ind (P : list (wlab V) -> world V -> Prop) : P [] (winit carried) -> (forall ls w l w', run ls w -> winv w -> P ls w -> run (ls ++ [l]) w' -> view w l w' -> P (ls ++ [l]) w') ->
  forall ls w, run ls w -> P ls w.
Proof.
  intros H0 Hs. induction ls as [|l ls IH] using rev_ind; intros w H; [injection H as <-; auto|].
  destruct (run_last _ _ _ H) as (w0 & R & I & X). eapply Hs; eauto.
Qed.
Lemma run_ok ls w : run ls w -> ok carried (ends w) hub_end carry black raddr hostport (ws w).
Proof.
  intros H. destruct (run_sys carried carry black raddr _ _ H) as (I & ls' & R & _). eapply reach_ok; [apply I|]. apply R, extends_refl.
Qed.
Lemma run_listen ls w : run ls w -> listen_inv w.
Proof. apply (run_ind (fun _ w => listen_inv w)); [apply listen_init|]. intros. eapply listen_step; eauto. Qed.
Lemma listening ls w j n : run ls w -> healthy (ws w) -> In (j, n) (listeners w) -> listens w j n = true.
Proof.
  intros R H I. unfold listens. rewrite !andb_true_iff. repeat split.
  - apply existsb_exists. exists (j, n). split; auto. cbn. rewrite Nat.eqb_refl, Z.eqb_refl. reflexivity.
  - now rewrite (h_alive _ H).
  - apply negb_true_iff, not_true_is_false. intros X. apply existsb_exists in X as (e & He & Q). destruct e; try discriminate.
    destruct (docks_run _ _ _ _ _ _ _ _ (run_ok _ _ R) j) as [ls0 L0]. destruct (closed_cleared _ _ _ L0) as [_ C]. apply C in He. now apply (h_open _ H j).
Qed.
Lemma unique ls w : run ls w -> healthy (ws w) -> forall a b n, In (a, n) (listeners w) -> In (b, n) (listeners w) -> machine a = machine b -> a = b.
Proof.
  revert ls w. apply (run_ind (fun _ w => healthy (ws w) -> forall a b n, In (a, n) (listeners w) -> In (b, n) (listeners w) -> machine a = machine b -> a = b)).
  - intros _ a b n [].
  - intros ls w l w' R Wi IH R' X H a b n. assert (Hb := view_back _ _ _ _ _ _ X H). specialize (IH Hb).
    destruct X; try (match goal with E : listeners _ = _ |- _ => rewrite E; apply IH end; fail); [|apply IH].
    match goal with E : listeners _ = _ |- _ => rewrite E end. rewrite !in_app_iff. cbn [In].
    assert (Fr : forall x, In (x, n0) (listeners w) -> machine x <> machine i).
    { intros x Hx Hm. match goal with Q : port_free _ _ _ _ = true |- _ => unfold port_free in Q; rewrite forallb_forall in Q; specialize (Q _ Hx); cbn in Q end.
      rewrite (listening _ _ _ _ R Hb Hx), Z.eqb_refl, Hm in *. rewrite (proj2 (zlist_eqb_eq _ _) eq_refl) in *. discriminate. }
    intros [A|[A|[]]] [B|[B|[]]] M.
    + eapply IH; eauto.
    + injection B as <- <-. exfalso. eapply Fr; eauto.
    + injection A as <- <-. exfalso. eapply Fr; eauto.
    + congruence.
Qed.

(* an address leads to a dock that offers the feature *)
Definition leads (L : list (nat * Z)) (a f : name) : Prop := exists j n, In (j, n) L /\ a = hostport (machine j) n /\ carries (carried j) f true.
Lemma answer_leads ls w t i f k host port : run ls w -> In (HubModel.EAnswer t i f k host port) (HubModel.hist (sh (ws w))) -> leads (listeners w) (hostport host port) f.
Proof.
  intros R H. destruct (run_sys carried carry black raddr _ _ R) as (I & ls' & R' & _). specialize (R' _ (extends_refl _)).
  destruct (answer_source carried (ends w) hub_end carry black raddr hostport (wi_wired _ I) _ _ _ _ _ _ _ _ R' H) as (a & p & k1 & j & p' & h' & n & Ha & _ & Hl & Hc & -> & _ & Hs & Hn).
  apply (wi_wired _ I) in Hl. injection Hl as -> <-. exists j, n. pose proof (run_listen _ _ R) as [_ Ls On _ _]. split; auto. split; auto.
  rewrite Hn; auto. specialize (On j). unfold once in On. destruct (runner (sd (ws w) j)); lia.
Qed.
Lemma leads_to ls w a f j n : run ls w -> healthy (ws w) -> leads (listeners w) a f -> a = hostport (machine j) n -> listens w j n = true -> carries (carried j) f true.
Proof.
  intros R H (j' & n' & I & -> & C) E L. apply hostport_inj in E as [E ->]; try apply HubProof.pickIP_no_colon.
  unfold listens in L. rewrite !andb_true_iff in L. destruct L as [[L _] _]. apply existsb_exists in L as ([x y] & Hx & Q). cbn in Q. apply andb_prop in Q as [Q1 Q2].
  apply Nat.eqb_eq in Q1. apply Z.eqb_eq in Q2. subst x y. rewrite <- (unique _ _ R H j' j n I Hx E). exact C.
Qed.
End P.
