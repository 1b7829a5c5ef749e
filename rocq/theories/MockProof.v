From Verif Require Import MockModel MockSpec.
From Coq Require Import Arith List ZArith Lia.
Import ListNotations.
Open Scope nat_scope.

(* ---- addresses ---- *)
Lemma split_nonempty a : HubModel.split_colon a <> [].
Proof. destruct a; cbn; [discriminate|]. destruct (_ =? _)%Z; [discriminate|]. destruct (HubModel.split_colon a); discriminate. Qed.

Lemma split_single a : forall x, HubModel.split_colon a = [x] -> a = x.
Proof.
  induction a as [|c a IH]; intros x H; cbn in H; [congruence|].
  destruct (Z.eqb c 58); [injection H as _ H; now destruct (split_nonempty a)|].
  destruct (HubModel.split_colon a) as [|u [|v w]] eqn:E; [now destruct (split_nonempty a)| |discriminate].
  injection H as <-. f_equal. now apply IH.
Qed.

Lemma last_port a : port_of a (last (HubModel.split_colon a) []).
Proof.
  induction a as [|c a [IH1 IH2]]; cbn [HubModel.split_colon].
  - split; [intros []|]. now left.
  - destruct (Z.eqb_spec c 58) as [->|N].
    + pose proof (split_nonempty a) as Hs.
      destruct (HubModel.split_colon a) as [|x l]; [congruence|].
      split; [exact IH1|]. right. destruct IH2 as [E|[h E]].
      * exists []. exact (f_equal (cons 58%Z) E).
      * exists (58%Z :: h). exact (f_equal (cons 58%Z) E).
    + destruct (HubModel.split_colon a) as [|x [|y l]] eqn:Ea; [now destruct (split_nonempty a)| |].
      * cbn in *. split; [intros [K|K]; [congruence|auto]|].
        left. f_equal. now apply split_single.
      * change (last ((c :: x) :: y :: l) []) with (last (x :: y :: l) []). split; [exact IH1|].
        right. destruct IH2 as [E|[h E]].
        -- (* two pieces: the text has a colon *)
           exfalso. apply IH1. rewrite <- E. clear - Ea. revert x y l Ea.
           induction a as [|d a IH]; intros x y l Ea; cbn in Ea; [discriminate|].
           destruct (Z.eqb_spec d 58) as [->|N]; [now left|]. right.
           destruct (HubModel.split_colon a) as [|u [|v w]] eqn:E; try discriminate.
           eapply IH; reflexivity.
        -- exists (c :: h). exact (f_equal (cons c) E).
Qed.

Lemma port_unique a t u : port_of a t -> port_of a u -> t = u.
Proof.
  assert (K : forall h k (x y : name), ~ In 58%Z x -> ~ In 58%Z y -> h ++ 58%Z :: x = k ++ 58%Z :: y -> x = y).
  { induction h as [|a0 h IH]; intros [|b k] x y Hx Hy E; cbn in E.
    - congruence.
    - injection E as <- E. destruct Hx. rewrite E. apply in_or_app. right. now left.
    - injection E as -> E. destruct Hy. rewrite <- E. apply in_or_app. right. now left.
    - injection E as _ E. eauto. }
  intros [H1 [E1|[h E1]]] [H2 [E2|[k E2]]]; try congruence.
  - destruct H1. rewrite <- E1, E2. apply in_or_app. right. now left.
  - destruct H2. rewrite <- E2, E1. apply in_or_app. right. now left.
  - apply (K h k); congruence.
Qed.

Lemma format_iff a b : format_addr a = format_addr b <-> same_port a b.
Proof.
  unfold format_addr. split.
  - intros E. apply app_inv_head in E. exists (last (HubModel.split_colon a) []).
    split; [apply last_port|rewrite E; apply last_port].
  - intros (t & Ha & Hb). f_equal. rewrite (port_unique _ _ _ (last_port a) Ha). now rewrite (port_unique _ _ _ (last_port b) Hb).
Qed.
Global Opaque format_addr.

(* ---- steps ---- *)
Ltac minv H := unfold mstep in H;
  repeat match type of H with
         | (if ?b then _ else _) = _ => destruct b eqn:?; try discriminate H
         | match ?x with _ => _ end = _ => destruct x eqn:?; try discriminate H
         end; try (injection H as H; subst).

Ltac proj := cbn [lmap nl chanconn closed nc stat peer chanbuf dial gor crash hist add w_lmap w_nl w_chanconn w_closed
  w_nc w_stat w_peer w_chanbuf w_dial w_gor w_crash] in *.

Lemma hist_grows s l s' : mstep s l = Some s' -> exists es, hist s' = hist s ++ es.
Proof.
  intros H. minv H; cbn; first [now exists []; rewrite app_nil_r | eexists; reflexivity].
Qed.
Lemma hist_mono s l s' e : mstep s l = Some s' -> In e (hist s) -> In e (hist s').
Proof. intros H K. destruct (hist_grows _ _ _ H) as [es ->]. apply in_or_app; auto. Qed.

(* ---- delivery ---- *)
Definition put (d : nat) (h : list mev) : list slice :=
  flat_map (fun e => match e with EWrote _ x b => if x =? d then [b] else [] | _ => [] end) h.
Lemma put_app d a b : put d (a ++ b) = put d a ++ put d b.
Proof. apply flat_map_app. Qed.
Lemma reads_app d a b : reads d (a ++ b) = reads d a ++ reads d b.
Proof. apply flat_map_app. Qed.
Lemma sent_app d a b : sent d (a ++ b) = sent d a ++ sent d b.
Proof. apply flat_map_app. Qed.

Lemma read_of_firstn w n : read_of w (n, option_map (firstn n) w).
Proof.
  destruct w as [b|]; cbn; [|reflexivity]. exists (firstn n b), (skipn n b). repeat split.
  - symmetry; apply firstn_skipn.
  - intros. now apply skipn_all2.
  - intros. rewrite firstn_length. lia.
Qed.

Definition delivery (s : mst) : Prop := forall d, length (chanbuf s d) <= 1 /\
  exists taken, put d (hist s) = taken ++ chanbuf s d /\ Forall2 read_of taken (reads d (hist s)).

Lemma delivery_step s l s' : delivery s -> mstep s l = Some s' -> delivery s'.
Proof.
  intros D H. minv H; intros dd; specialize (D dd); proj; rewrite ?put_app, ?reads_app; cbn [put reads flat_map app]; rewrite ?app_nil_r; try exact D.
  - (* Read *) unfold updp. destruct (Nat.eqb_spec dd c) as [->|N].
    + rewrite Nat.eqb_refl. destruct D as (L & tk & E & F). match goal with Hc : chanbuf s c = _ |- _ => rewrite Hc in L, E end. cbn in L. split; [lia|].
      exists (tk ++ [s0]). split; [rewrite E, <- app_assoc; reflexivity|]. apply Forall2_app; auto.
      constructor; [apply read_of_firstn|constructor].
    + destruct (Nat.eqb_spec c dd); [congruence|]. rewrite app_nil_r. exact D.
  - (* send *) unfold updp. destruct (Nat.eqb_spec dd d) as [->|N].
    + rewrite Nat.eqb_refl. destruct D as (L & tk & E & F). match goal with Hc : chanbuf s d = _ |- _ => rewrite Hc in E end. rewrite app_nil_r in E. split; [cbn; lia|].
      exists tk. rewrite E. auto.
    + destruct (Nat.eqb_spec d dd); [congruence|]. rewrite app_nil_r. exact D.
Qed.

(* ---- who is linked to whom ---- *)
Inductive place := PNew | PPush | PQueue (l : nat) | PGor (g : nat) | PLink (l c : nat).
Definition at_ (s : mst) (d : nat) (p : place) : Prop :=
  match p with
  | PNew => stat s d = SNew
  | PPush => exists a l, dial s d = DPush a l
  | PQueue l => In (Some d) (chanconn s l)
  | PGor g => exists l c, gor s g = GLink l c d
  | PLink l c => In (ELinked l c d) (hist s)
  end.
Inductive cplace := QGor (g : nat) | QLink (l d : nat).
Definition atc (s : mst) (c : nat) (q : cplace) : Prop :=
  match q with
  | QGor g => exists l d, gor s g = GLink l c d
  | QLink l d => In (ELinked l c d) (hist s)
  end.

Record links (s : mst) : Prop := {
  at_one : forall d p q, at_ s d p -> at_ s d q -> p = q;
  atc_one : forall c p q, atc s c p -> atc s c q -> p = q;
  queue_one : forall l, length (chanconn s l) <= 1;
  q_dialled : forall d l, In (Some d) (chanconn s l) -> dial s d <> DNone;
  g_dialled : forall d g l c, gor s g = GLink l c d -> dial s d <> DNone;
  k_dialled : forall d l c, In (ELinked l c d) (hist s) -> dial s d <> DNone;
  gs_linked : forall g l c d, gor s g = GStatus l c d -> In (ELinked l c d) (hist s);
  dial_old : forall d, dial s d <> DNone -> d < nc s;
  stat_dialled : forall d, stat s d <> SNew -> dial s d <> DNone;
  atc_new : forall c q, atc s c q -> c < nc s /\ dial s c = DNone
}.

Lemma uniq_step {P} (A A' : nat -> P -> Prop) :
  (forall d p q, A d p -> A d q -> p = q) ->
  ((forall d p, A' d p -> A d p) \/ (exists d0 p1, forall d p, A' d p -> (d = d0 /\ p = p1) \/ (A d p /\ d <> d0))) ->
  forall d p q, A' d p -> A' d q -> p = q.
Proof.
  intros U [H|(d0 & p1 & H)] d p q Hp Hq; [eauto|].
  destruct (H _ _ Hp) as [[-> ->]|[Hp' N]], (H _ _ Hq) as [[E ->]|[Hq' N']]; try congruence. eauto.
Qed.

Lemma updp_case {A} (f : nat -> A) k v x : (x = k /\ updp f k v x = v) \/ (x <> k /\ updp f k v x = f x).
Proof. unfold updp. destruct (Nat.eqb_spec x k); auto. Qed.

Ltac upd := rewrite ?updp_same in *; repeat (match goal with
  | H : context [updp ?f ?k ?v ?x] |- _ =>
      let E := fresh in let X := fresh in destruct (updp_case f k v x) as [[X E]|[X E]]; rewrite E in H; clear E; [subst|]
  | |- context [updp ?f ?k ?v ?x] =>
      let E := fresh in let X := fresh in destruct (updp_case f k v x) as [[X E]|[X E]]; rewrite E; clear E; [subst|]
  end; rewrite ?updp_same in * ).
Ltac snoc := repeat match goal with
  | H : In _ (_ ++ [_]) |- _ => apply in_app_or in H as [H|[H|[]]]
  end.

Ltac uniq L S K := let Q := fresh "Q" in match type of K with
  | stat _ ?d = _ => pose proof (at_one _ L d _ PNew S K) as Q
  | exists a l, dial _ ?d = _ => pose proof (at_one _ L d _ PPush S K) as Q
  | In (Some ?d) (chanconn _ ?l) => pose proof (at_one _ L d _ (PQueue l) S K) as Q
  | exists l c, gor _ ?g = GLink _ _ ?d => pose proof (at_one _ L _ _ (PGor g) S K) as Q
  | In (ELinked ?l ?c ?d) _ => pose proof (at_one _ L d _ (PLink l c) S K) as Q
  end; first [discriminate | congruence].

Lemma at_step s l s' : links s -> mstep s l = Some s' ->
  (forall d p, at_ s' d p -> at_ s d p) \/
  (exists d0 p1, forall d p, at_ s' d p -> (d = d0 /\ p = p1) \/ (at_ s d p /\ d <> d0)).
Proof.
  intros L H. minv H.
  all: try (left; intros dd [| |l'|g'|l' c']; cbn; intros K; upd; snoc; try destruct K as (x & y & K); try discriminate; eauto; congruence).
  - (* looked up: new -> about to push *)
    right. exists c, PPush. assert (S : at_ s c PNew) by assumption.
    intros dd p K. destruct (Nat.eq_dec dd c) as [->|N]; [left; split; auto|right; split; auto].
    + destruct p as [| |l'|g'|l' c']; cbn in K; upd; try congruence; try reflexivity; uniq L S K.
    + destruct p as [| |l'|g'|l' c']; cbn in K |- *; upd; try congruence; auto.
  - (* pushed *)
    right. exists c, (PQueue l0). assert (S : at_ s c PPush) by (cbn; eauto).
    intros dd p K. destruct (Nat.eq_dec dd c) as [->|N]; [left; split; auto|right; split; auto].
    + destruct p as [| |l'|g'|l' c']; cbn in K; upd; auto; try (destruct K as (x & y & K); congruence);
        try (uniq L S K); congruence.
    + destruct p as [| |l'|g'|l' c']; cbn in K |- *; upd; auto; try congruence.
      destruct K as [K|[]]; congruence.
  - (* popped *)
    right. exists n, (PGor g). match goal with Hq : chanconn s l0 = _ |- _ => rename Hq into Hql end.
    assert (S : at_ s n (PQueue l0)) by (cbn; rewrite Hql; now left).
    assert (l1 = []) as -> by (pose proof (queue_one _ L l0) as Q; rewrite Hql in Q; destruct l1; auto; cbn in Q; lia).
    intros dd p K. destruct (Nat.eq_dec dd n) as [->|N]; [left; split; auto|right; split; auto].
    + destruct p as [| |l'|g'|l' c']; cbn in K; upd; auto;
        try (uniq L S K); try contradiction.
    + destruct p as [| |l'|g'|l' c']; cbn in K |- *; upd; auto; try contradiction.
      destruct K as (x & y & K). congruence.
  - left. intros dd [| |l'|g'|l' c']; cbn; intros K; upd; snoc; auto; try discriminate.
    match goal with Hq : chanconn s l0 = _ |- _ => rewrite Hq end. now right.
  - left. intros dd [| |l'|g'|l' c']; cbn; intros K; upd; snoc; auto; try discriminate.
    destruct K as [K|[]]; discriminate.
  - left. intros dd [| |l'|g'|l' c']; cbn; intros K; upd; snoc; auto; try discriminate.
    destruct K as (x & y & K), k; discriminate.
  - (* linked *)
    right. exists d, (PLink l0 c). assert (S : at_ s d (PGor g)) by (cbn; eauto).
    intros dd p K. destruct (Nat.eq_dec dd d) as [->|N]; [left; split; auto|right; split; auto].
    + destruct p as [| |l'|g'|l' c']; cbn in K; upd; snoc; auto;
        try (uniq L S K); try (destruct K as (x & y & K); discriminate); congruence.
    + destruct p as [| |l'|g'|l' c']; cbn in K |- *; upd; snoc; auto; try congruence.
      destruct K as (x & y & K); discriminate.
Qed.

Lemma atc_step s l s' : links s -> mstep s l = Some s' ->
  (forall d p, atc s' d p -> atc s d p) \/
  (exists d0 p1, forall d p, atc s' d p -> (d = d0 /\ p = p1) \/ (atc s d p /\ d <> d0)).
Proof.
  intros L H. minv H.
  all: try (left; intros dd [g'|l' c']; cbn; intros K; upd; snoc; try destruct K as (x & y & K); try discriminate; eauto; congruence).
  - right. exists (nc s), (QGor g).
    intros dd p K. destruct (Nat.eq_dec dd (nc s)) as [->|N]; [left; split; auto|right; split; auto].
    + destruct p as [g'|l' c']; cbn in K; upd; auto.
      * destruct (atc_new _ L (nc s) (QGor g') K). lia.
      * destruct (atc_new _ L (nc s) (QLink l' c') K). lia.
    + destruct p as [g'|l' c']; cbn in K |- *; upd; auto. destruct K as (x & y & K). congruence.
  - left. intros dd [g'|l' c']; cbn; intros K; upd; snoc; auto; try discriminate.
    destruct K as (x & y & K), k; discriminate.
  - right. exists c, (QLink l0 d). assert (S : atc s c (QGor g)) by (cbn; eauto).
    intros dd p K. destruct (Nat.eq_dec dd c) as [->|N]; [left; split; auto|right; split; auto].
    + destruct p as [g'|l' c']; cbn in K; upd; snoc; auto.
      * destruct K as (x & y & K); discriminate.
      * pose proof (atc_one _ L _ _ (QGor g') S K); congruence.
      * pose proof (atc_one _ L _ _ (QLink l' c') S K); discriminate.
      * congruence.
    + destruct p as [g'|l' c']; cbn in K |- *; upd; snoc; auto; try congruence.
      destruct K as (x & y & K); discriminate.
Qed.

Lemma links_init : links minit.
Proof.
  split; cbn.
  - intros d [| |l|g|l c] [| |l'|g'|l' c']; cbn; auto; try tauto; try (intros (x & y & K); discriminate);
      try (intros _ (x & y & K); discriminate).
  - intros d [g|l c]; cbn; [|tauto]. intros q (x & y & K); discriminate.
  - lia.
  - tauto.
  - congruence.
  - tauto.
  - congruence.
  - congruence.
  - congruence.
  - intros d [g|l c]; cbn; [|tauto]. intros (x & y & K); discriminate.
Qed.

Lemma dial_mono s l s' x : mstep s l = Some s' -> dial s x <> DNone -> dial s' x <> DNone.
Proof. intros H K. minv H; proj; auto; upd; auto; discriminate. Qed.

Lemma dial_none s l s' x : mstep s l = Some s' -> x < nc s -> dial s x = DNone -> dial s' x = DNone.
Proof. intros H N K. minv H; proj; auto; upd; auto; try lia; congruence. Qed.
Lemma nc_mono s l s' : mstep s l = Some s' -> nc s <= nc s'.
Proof. intros H. minv H; proj; auto. Qed.

Lemma links_step s l s' : links s -> mstep s l = Some s' -> links s'.
Proof.
  intros L H. split.
  - eapply uniq_step; [apply at_one; exact L|apply (at_step _ _ _ L H)].
  - eapply uniq_step; [apply atc_one; exact L|apply (atc_step _ _ _ L H)].
  - intros k. pose proof (queue_one _ L k) as Q. minv H; proj; auto; upd; auto; cbn; try lia;
    match goal with Hq : chanconn s _ = _ |- _ => rewrite Hq in Q; cbn in Q; lia end.
  - intros dd k K.
    assert (O : In (Some dd) (chanconn s k) \/ dial s dd <> DNone).
    { minv H; proj; auto; upd; auto.
      - destruct K as [K|[]]. right. congruence.
      - left. match goal with Hq : chanconn s _ = _ |- _ => rewrite Hq end. now right.
      - left. match goal with Hq : chanconn s _ = _ |- _ => rewrite Hq end. now right.
      - destruct K as [K|[]]. discriminate. }
    eapply dial_mono; [exact H|]. destruct O as [O|O]; auto. eapply q_dialled; eauto.
  - intros dd g k x K.
    assert (O : gor s g = GLink k x dd \/ dial s dd <> DNone).
    { minv H; proj; auto; upd; auto; try discriminate.
      - assert (n = dd) as <- by congruence. right. eapply q_dialled; eauto.
        match goal with Hq : chanconn s _ = _ |- _ => rewrite Hq end. now left.
      - destruct k0; discriminate. }
    eapply dial_mono; [exact H|]. destruct O as [O|O]; auto. eapply g_dialled; eauto.
  - intros dd k x K.
    assert (O : In (ELinked k x dd) (hist s) \/ dial s dd <> DNone).
    { minv H; proj; auto; snoc; auto; try discriminate. injection K as -> -> ->. right. eapply g_dialled; eauto. }
    eapply dial_mono; [exact H|]. destruct O as [O|O]; auto. eapply k_dialled; eauto.
  - intros g k x dd K.
    assert (O : gor s g = GStatus k x dd \/ In (ELinked k x dd) (hist s')).
    { minv H; proj; auto; upd; auto; try discriminate.
      - destruct k0; discriminate.
      - injection K as -> -> ->. right. apply in_or_app. right. now left. }
    destruct O as [O|O]; auto. eapply hist_mono; eauto. eapply gs_linked; eauto.
  - intros dd. pose proof (dial_old _ L dd) as O. minv H; proj; auto; intros K; upd; try lia;
      try (apply O; congruence); try (specialize (O K); lia).
  - intros dd K.
    assert (O : stat s dd <> SNew \/ dial s dd <> DNone).
    { minv H; proj; auto; upd; auto; try (right; congruence). right. eapply k_dialled; eauto. eapply gs_linked; eauto. }
    eapply dial_mono; [exact H|]. destruct O as [O|O]; auto. now apply stat_dialled.
  - intros c q K.
    assert (O : (exists q', atc s c q') \/ (c = nc s /\ nc s' = S (nc s) /\ dial s' = dial s)).
    { destruct q as [g|k d]; cbn in K |- *.
      - assert (O : (exists l0 d, gor s g = GLink l0 c d) \/ (c = nc s /\ nc s' = S (nc s) /\ dial s' = dial s)).
        { minv H; proj; auto; upd; auto; try (destruct K as (x & y & K); try discriminate).
          + right. split; [congruence|auto].
          + destruct k; discriminate. }
        destruct O as [O|O]; auto. left. now exists (QGor g).
      - left. assert (O : In (ELinked k c d) (hist s) \/ exists g, gor s g = GLink k c d).
        { minv H; proj; auto; snoc; auto; try discriminate. injection K as -> -> ->. eauto. }
        destruct O as [O|(g & O)]; [now exists (QLink k d)|]. exists (QGor g). cbn. eauto. }
    destruct O as [(q' & O)|(-> & E1 & E2)].
    + destruct (atc_new _ L _ _ O) as [O1 O2]. split; [pose proof (nc_mono _ _ _ H); lia|]. eapply dial_none; eauto.
    + rewrite E1, E2. split; [lia|]. destruct (dial s (nc s)) eqn:E; auto;
      (assert (N : nc s < nc s) by (apply (dial_old _ L); congruence); lia).
Qed.

Lemma reach_links ls s : mexec ls = Some s -> links s.
Proof. apply (exec_inv mstep links); [intros; eapply links_step; eauto|apply links_init]. Qed.
Lemma reach_delivery ls s : mexec ls = Some s -> delivery s.
Proof.
  apply (exec_inv mstep delivery); [intros; eapply delivery_step; eauto|].
  intros d. split; [cbn; lia|]. exists []. split; [reflexivity|constructor].
Qed.

(* ---- peers ---- *)
Lemma ends_sym h c d : ends h c d -> ends h d c.
Proof. intros [l [H|H]]; exists l; auto. Qed.

Lemma link_one s l c d l' c' d' : links s -> In (ELinked l c d) (hist s) -> In (ELinked l' c' d') (hist s) ->
  c = c' \/ d = d' \/ c = d' \/ d = c' -> l = l' /\ c = c' /\ d = d'.
Proof.
  intros L H K [->|[->|[->| ->]]].
  - pose proof (atc_one _ L c' (QLink l d) (QLink l' d') H K) as E. injection E as -> ->. auto.
  - pose proof (at_one _ L d' (PLink l c) (PLink l' c') H K) as E. injection E as -> ->. auto.
  - destruct (atc_new _ L d' (QLink l d) H) as [_ N]. destruct (k_dialled _ L _ _ _ K N).
  - destruct (atc_new _ L c' (QLink l' d') K) as [_ N]. destruct (k_dialled _ L _ _ _ H N).
Qed.

Lemma ends_unique s c d e : links s -> ends (hist s) c d -> ends (hist s) c e -> d = e.
Proof.
  intros L [l [H|H]] [k [K|K]];
  destruct (link_one _ _ _ _ _ _ _ L H K) as (E1 & E2 & E3); auto; congruence.
Qed.

Record paired (s : mst) : Prop := {
  peer_ends : forall c d, peer s c = Some d -> ends (hist s) c d;
  send_ends : forall g c d b k, gor s g = GSend c d b k -> ends (hist s) c d;
  wrote_ends : forall c d b, In (EWrote c d b) (hist s) -> ends (hist s) c d;
  deref_ends : forall g c b k, gor s g = GDeref c b k -> exists d, ends (hist s) c d;
  open_peer : forall c d, ends (hist s) c d -> peer s c = Some d \/ In (EClosed c) (hist s) }.

Lemma ends_mono s l s' c d : mstep s l = Some s' -> ends (hist s) c d -> ends (hist s') c d.
Proof. intros H [k [K|K]]; exists k; eauto using hist_mono. Qed.

Lemma paired_step s l s' : links s -> paired s -> mstep s l = Some s' -> paired s'.
Proof.
  intros L P H. split.
  - intros x y K. assert (O : peer s x = Some y \/ ends (hist s') x y).
    { minv H; proj; auto; upd; auto; try discriminate; right; exists l0; rewrite !in_app_iff; cbn;
      try (injection K as <-); auto. }
    destruct O as [O|O]; auto. eapply ends_mono; eauto. now apply peer_ends.
  - intros g x y b k K. assert (O : gor s g = GSend x y b k \/ peer s x = Some y).
    { minv H; proj; auto; upd; auto; try discriminate; [right; congruence|destruct k0; discriminate]. }
    eapply ends_mono; eauto. destruct O as [O|O]; [eapply send_ends|apply peer_ends]; eauto.
  - intros x y b K. assert (O : In (EWrote x y b) (hist s) \/ exists g k, gor s g = GSend x y b k).
    { minv H; proj; auto; snoc; auto; try discriminate. injection K as -> -> ->. eauto. }
    eapply ends_mono; eauto. destruct O as [O|(g & k & O)]; [eapply wrote_ends|eapply send_ends]; eauto.
  - intros g x b k K. assert (O : gor s g = GDeref x b k \/ exists y, peer s x = Some y).
    { minv H; proj; auto; upd; auto; try discriminate; try (right; injection K as <- _ _; eauto). destruct k0; discriminate. }
    destruct O as [O|(y & O)]; [destruct (deref_ends _ P _ _ _ _ O) as [y Hy]; exists y|exists y]; eapply ends_mono; eauto.
    now apply peer_ends.
  - intros x y K.
    assert (O : (ends (hist s) x y /\ (peer s' x = peer s x \/ In (EClosed x) (hist s'))) \/ peer s' x = Some y).
    { destruct K as [k K]. minv H; proj.
      all: try (left; split; [exists k; destruct K as [K|K]; snoc; auto; discriminate|]; auto; fail).
      - left. split; [exists k; destruct K as [K|K]; snoc; auto; discriminate|]. upd; auto. right. rewrite in_app_iff. cbn. auto.
      - assert (N : c <> d).
        { intros ->. destruct (atc_new _ L d (QGor g)) as [_ N]; [cbn; eauto|]. eapply g_dialled; eauto. }
        assert (Fc : forall k a, ~ In (ELinked k c a) (hist s)).
        { intros k' a Q. pose proof (atc_one _ L c (QGor g) (QLink k' a)) as E. discriminate E; cbn; eauto. }
        assert (Fd : forall k a, ~ In (ELinked k a d) (hist s)).
        { intros k' a Q. pose proof (at_one _ L d (PGor g) (PLink k' a)) as E. discriminate E; cbn; eauto. }
        assert (Gc : forall k a, ~ In (ELinked k a c) (hist s)).
        { intros k' a Q. destruct (atc_new _ L c (QGor g)) as [_ E]; [cbn; eauto|]. eapply k_dialled; eauto. }
        assert (Gd : forall k a, ~ In (ELinked k d a) (hist s)).
        { intros k' a Q. destruct (atc_new _ L d (QLink k' a) Q) as [_ E]. eapply g_dialled; eauto. }
        destruct K as [K|K]; snoc.
        + left. split; [exists k; auto|]. left. rewrite !updp_other; auto; intros ->; [eapply Fc|eapply Gd]; eauto.
        + injection K as -> -> ->. right. rewrite updp_other, updp_same; auto.
        + left. split; [exists k; auto|]. left. rewrite !updp_other; auto; intros ->; [eapply Gc|eapply Fd]; eauto.
        + injection K as -> -> ->. right. rewrite updp_same; auto. }
    destruct O as [[O1 [->|O2]]|O]; auto. destruct (open_peer _ P _ _ O1); eauto using hist_mono.
Qed.

Lemma reach_paired ls s : mexec ls = Some s -> paired s.
Proof.
  intros H. assert (X : links s /\ paired s); [|tauto]. revert H.
  apply (exec_inv mstep (fun s => links s /\ paired s)).
  - intros a l b [La Pa] E. split; [eapply links_step|eapply paired_step]; eauto.
  - split; [apply links_init|]. split; cbn; try discriminate; try tauto. intros c d [l [[]|[]]].
Qed.

(* All that is put into the channel of d is what was written on the other end. *)
Lemma put_sent s c d : links s -> paired s -> ends (hist s) c d -> put d (hist s) = sent c (hist s).
Proof.
  intros L P E. unfold put, sent.
  assert (W : forall x y b, In (EWrote x y b) (hist s) -> (y =? d) = (x =? c)).
  { intros x y b H. apply (wrote_ends _ P) in H.
    destruct (Nat.eqb_spec y d) as [->|N1], (Nat.eqb_spec x c) as [->|N2]; auto.
    - destruct N2. apply (ends_unique s d); auto using ends_sym.
    - destruct N1. apply (ends_unique s c); auto. }
  clear E P L. induction (hist s) as [|e h IH]; [reflexivity|]. cbn.
  rewrite IH by (intros; eapply W; right; eauto). f_equal.
  destruct e; auto. rewrite (W c0 d0 b); [reflexivity|now left].
Qed.

Lemma connection_delivers ls s c d : mexec ls = Some s -> ends (hist s) c d ->
  exists taken rest, sent c (hist s) = taken ++ rest /\ Forall2 read_of taken (reads d (hist s)) /\ length rest <= 1.
Proof.
  intros H E. destruct (reach_delivery _ _ H d) as (Lq & tk & Ep & F).
  rewrite (put_sent s c d) in Ep; [|eapply reach_links|eapply reach_paired|]; eauto.
Qed.

Lemma connection_unique ls s l c d l' c' d' : mexec ls = Some s ->
  In (ELinked l c d) (hist s) -> In (ELinked l' c' d') (hist s) ->
  c = c' \/ d = d' \/ c = d' \/ d = c' -> l = l' /\ c = c' /\ d = d'.
Proof. intros H. apply link_one. eapply reach_links; eauto. Qed.

Lemma writes_on_connections ls s c d b : mexec ls = Some s -> In (EWrote c d b) (hist s) -> ends (hist s) c d.
Proof. intros H. apply wrote_ends. eapply reach_paired; eauto. Qed.

Lemma write_error ls s g c b s' d : mexec ls = Some s -> mstep s (MWrite g c b) = Some s' ->
  hist s' = hist s ++ [EWriteErr c] -> ends (hist s) c d -> In (EClosed c) (hist s).
Proof.
  intros R H Hh E. destruct (open_peer _ (reach_paired _ _ R) _ _ E) as [K|K]; auto.
  unfold mstep in H. rewrite K in H. destruct (crash s), (gor s g), (c <? nc s); try discriminate.
  injection H as <-. proj. symmetry in Hh. apply (f_equal (@length _)) in Hh. rewrite app_length in Hh. cbn in Hh. lia.
Qed.
