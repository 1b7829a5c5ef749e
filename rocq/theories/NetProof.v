(* C70. *)
From Verif Require Import Lts GoVal Tables NetModel NetSpec.
From Coq Require Import Arith Bool List ZArith Lia.
Import ListNotations.
Open Scope nat_scope.

Implicit Types (h : list event) (s : net).

(* --- the specification --- *)
Lemma snoc_split {A} (a b c : list A) x e : a ++ x :: b = c ++ [e] ->
  (b = [] /\ a = c /\ x = e) \/ exists b0, b = b0 ++ [e] /\ c = a ++ x :: b0.
Proof.
  intros E. destruct b as [|y b] using rev_ind.
  - apply app_inj_tail in E as [-> ->]. auto.
  - right. exists b. rewrite app_comm_cons, app_assoc in E. apply app_inj_tail in E as [<- <-]. auto.
Qed.
Lemma snoc_mid {A} (a b : list A) x e : (a ++ x :: b) ++ [e] = a ++ x :: b ++ [e].
Proof. rewrite <- app_assoc. reflexivity. Qed.

Definition about (e : event) (n : name) : Prop := exists x, e = EExtend n x.
Lemma last_snoc_other h n e x : ~ about e n -> last_registered (h ++ [e]) n x <-> last_registered h n x.
Proof.
  intros N. split.
  - intros (h1 & h2 & E & No). symmetry in E. apply snoc_split in E as [(-> & -> & <-)|(h2' & -> & ->)].
    + exfalso. apply N. now exists x.
    + exists h1, h2'. split; [reflexivity|]. intros y I. apply (No y), in_or_app; auto.
  - intros (h1 & h2 & -> & No). exists h1, (h2 ++ [e]). split; [apply snoc_mid|].
    intros y I. apply in_app_or in I as [I|[Ee|[]]]; [now apply (No y)|]. apply N. now exists y.
Qed.
Lemma last_snoc_same h n x : last_registered (h ++ [EExtend n x]) n x.
Proof. exists h, []. split; [reflexivity|]. intros y []. Qed.
Lemma since_snoc_other h n e x : ~ about e n -> last_registered_since (h ++ [e]) n x <-> last_registered_since h n x.
Proof.
  intros N. split.
  - intros (h1 & h2 & E & M & No). symmetry in E. apply snoc_split in E as [(-> & -> & <-)|(h2' & -> & ->)].
    + exfalso. apply N. now exists x.
    + exists h1, h2'. split; [reflexivity|]. split; [exact M|]. intros y I. apply (No y), in_or_app; auto.
  - intros (h1 & h2 & -> & M & No). exists h1, (h2 ++ [e]). split; [apply snoc_mid|]. split; [exact M|].
    intros y I. apply in_app_or in I as [I|[Ee|[]]]; [now apply (No y)|]. apply N. now exists y.
Qed.
Lemma since_snoc_same h n x : made h -> last_registered_since (h ++ [EExtend n x]) n x.
Proof. intros M. exists h, []. split; [reflexivity|]. split; [exact M|]. intros y []. Qed.
Lemma never_snoc_other h n e : ~ about e n -> never_registered (h ++ [e]) n <-> never_registered h n.
Proof.
  intros N. split; intros H x I; [apply (H x), in_or_app; auto|].
  apply in_app_or in I as [I|[Ee|[]]]; [now apply (H x)|]. apply N. now exists x.
Qed.
Lemma since_made h n x : last_registered_since h n x -> made h.
Proof. intros (h1 & h2 & -> & (k & m & I) & _). exists k, m. apply in_or_app. auto. Qed.

Lemma split_unique {A} (P : A -> Prop) (a a' b b' : list A) x x' : a ++ x :: b = a' ++ x' :: b' -> P x -> P x' ->
  (forall y, P y -> ~ In y b) -> (forall y, P y -> ~ In y b') -> x = x'.
Proof.
  revert a'. induction a as [|z a IH]; intros [|z' a'] E Px Px' Nb Nb'; cbn in E; injection E as E1 E2.
  - exact E1.
  - exfalso. apply (Nb x' Px'). rewrite E2. apply in_or_app. right. now left.
  - exfalso. apply (Nb' x Px). rewrite <- E2. apply in_or_app. right. now left.
  - eapply IH; eauto.
Qed.
Lemma last_unique h n x y : last_registered h n x -> last_registered h n y -> x = y.
Proof.
  intros (a & b & -> & N) (a' & b' & E & N').
  assert (X : EExtend n x = EExtend n y).
  { eapply (split_unique (fun e => exists z, e = EExtend n z)); [exact E| | | |]; eauto; intros e [z ->]; auto. }
  now injection X.
Qed.
Lemma since_unique h n x y : last_registered_since h n x -> last_registered_since h n y -> x = y.
Proof. intros (a & b & E & _ & N) (a' & b' & E' & _ & N'). eapply last_unique; [exists a, b; split; [exact E|exact N]|exists a', b'; split; [exact E'|exact N']]. Qed.
Lemma chosen_unique h n o o' : chosen h n o -> chosen h n o' -> o = o'.
Proof.
  unfold chosen. destruct (zlist_eqb n nTxt).
  - intros [[-> N]|(x & -> & L)] [[-> N']|(y & -> & L')]; [reflexivity|now elim (N y)|now elim (N' x)|]. f_equal. eapply since_unique; eauto.
  - intros [[-> N]|(x & -> & L)] [[-> N']|(y & -> & L')]; [reflexivity| | |f_equal; eapply last_unique; eauto].
    + destruct L' as (a & b & -> & _). elim (N y). apply in_or_app. right. now left.
    + destruct L as (a & b & -> & _). elim (N' x). apply in_or_app. right. now left.
Qed.

Lemma chosen_snoc_other h n o e : ~ about e n -> chosen (h ++ [e]) n o <-> chosen h n o.
Proof.
  intros N. unfold chosen. destruct (zlist_eqb n nTxt).
  - setoid_rewrite (fun x => since_snoc_other h n e x N). reflexivity.
  - setoid_rewrite (fun x => last_snoc_other h n e x N). rewrite (never_snoc_other h n e N). reflexivity.
Qed.

(* --- steps --- *)
Ltac ncase H :=
  unfold nstep in H;
  match type of H with match status ?s with _ => _ end = _ => destruct (status s) eqn:?Run; try discriminate H end;
  match type of H with match ?l with _ => _ end = _ => destruct l as [n x|n|n b|k ok|k|k ok|p|p] end;
  [ | |
  | match type of H with match nth_error ?a ?b with _ => _ end = _ => destruct (nth_error a b) as [sk|] eqn:?Ek; [|discriminate H] end;
    match type of H with match ?a with _ => _ end = _ => destruct a as [m|] eqn:?Em end; [match type of H with (if ?b then _ else _) = _ => destruct b end|]
  | match type of H with match nth_error ?a ?b with _ => _ end = _ => destruct (nth_error a b) as [[en si [m|]]|] eqn:?Ek; try discriminate H end
  | match type of H with match nth_error ?a ?b with _ => _ end = _ => destruct (nth_error a b) as [sk|] eqn:?Ek; [|discriminate H] end;
    match type of H with (if ?b then _ else _) = _ => destruct b eqn:?Es end; [match type of H with match ?a with _ => _ end = _ => destruct a as [m|] eqn:?Em end; [match type of H with (if ?b then _ else _) = _ => destruct b end|]|]
  | unfold use in H; match type of H with match nth_error ?a ?b with _ => _ end = _ => destruct (nth_error a b) as [c|] eqn:?Ec; [|discriminate H] end; match type of H with Some (match ?x with _ => _ end) = _ => destruct x eqn:?Ee end
  | unfold use in H; match type of H with match nth_error ?a ?b with _ => _ end = _ => destruct (nth_error a b) as [c|] eqn:?Ec; [|discriminate H] end; match type of H with Some (match ?x with _ => _ end) = _ => destruct x eqn:?Ee end ];
  injection H as <-.
Lemma new_conn_some k self m s sk : nth_error (socks s) k = Some sk ->
  new_conn k self m s = add (EConn (length (conns s)) k) (mkNet (sers s) (once s) (makers s) (socks s) (conns s ++ [mkConn k (enc sk) self m]) (status s) (hist s)).
Proof. intros E. unfold new_conn. rewrite E. reflexivity. Qed.

(* tables *)
Definition tables s : Prop :=
  (once s = true <-> made (hist s)) /\
  (forall n, n <> nTxt -> chosen (hist s) n (sers s n)) /\
  (once s = true -> chosen (hist s) nTxt (sers s nTxt)) /\
  exists m, makers s nTcp = Some m /\ (m = MockNet <-> mocked (hist s)).
Definition quiet_event (e : event) : Prop := match e with EExtend _ _ | EMock _ | ENew _ _ => False | _ => True end.
Lemma tables_add s e : quiet_event e -> tables s -> tables (add e s).
Proof.
  intros Q (A & B & C & m & D & F). unfold tables, add; cbn [hist sers once makers].
  assert (N : forall n, ~ about e n) by (intros n [x ->]; exact Q).
  split; [|split; [|split]].
  - rewrite A. split; intros (k & n & I); exists k, n; [apply in_or_app; auto|]. apply in_app_or in I as [I|[->|[]]]; [exact I|elim Q].
  - intros n Hn. apply chosen_snoc_other; auto.
  - intros O. apply chosen_snoc_other; auto.
  - exists m. split; [exact D|]. rewrite F. unfold mocked. split; intros I; [apply in_or_app; auto|]. apply in_app_or in I as [I|[->|[]]]; [exact I|elim Q].
Qed.
Lemma tables_same s s' : sers s' = sers s -> once s' = once s -> makers s' = makers s -> hist s' = hist s -> tables s -> tables s'.
Proof. unfold tables. intros -> -> -> ->. auto. Qed.
Lemma txt_name n : zlist_eqb n nTxt = true <-> n = nTxt.
Proof. apply zlist_eqb_eq. Qed.
Lemma chosen_txt h o : chosen h nTxt o <-> o = Some STxt /\ (forall x, ~ last_registered_since h nTxt x) \/ (exists x, o = Some x /\ last_registered_since h nTxt x).
Proof. reflexivity. Qed.
Lemma chosen_other h n o : n <> nTxt -> chosen h n o <-> (o = None /\ never_registered h n \/ (exists x, o = Some x /\ last_registered h n x)).
Proof. intros N. unfold chosen. destruct (zlist_eqb n nTxt) eqn:E; [apply txt_name in E; congruence|reflexivity]. Qed.
Lemma made_snoc h e : made (h ++ [e]) <-> made h \/ exists k n, e = ENew k n.
Proof.
  split.
  - intros (k & n & I). apply in_app_or in I as [I|[->|[]]]; [left; now exists k, n|right; now exists k, n].
  - intros [(k & n & I)|(k & n & ->)]; exists k, n; apply in_or_app; auto. right. now left.
Qed.
Lemma tables_extend n x s : tables s -> tables (add (EExtend n x) (set_ser n x s)).
Proof.
  intros (A & B & C & m & D & F). unfold tables, add, set_ser; cbn [hist sers once makers]. split; [|split; [|split]].
  - rewrite made_snoc, A. split; [auto|]. intros [M|(k & n' & X)]; [exact M|discriminate X].
  - intros n' Hn. destruct (updn_case (sers s) n (Some x) n') as [[-> ->]|[Ne ->]].
    + apply chosen_other; [exact Hn|]. right. exists x. split; [reflexivity|]. apply last_snoc_same.
    + apply chosen_snoc_other; [intros [y Y]; injection Y as ->; auto|]. auto.
  - intros O. destruct (updn_case (sers s) n (Some x) nTxt) as [[<- ->]|[Ne ->]].
    + apply chosen_txt. right. exists x. split; [reflexivity|]. apply since_snoc_same, A, O.
    + apply chosen_snoc_other; [intros [y Y]; injection Y as ->; auto|]. auto.
  - exists m. split; [exact D|]. rewrite F. unfold mocked. split; intros I; [apply in_or_app; auto|]. apply in_app_or in I as [I|[X|[]]]; [exact I|discriminate X].
Qed.
Lemma tables_mock n s : tables s -> tables (add (EMock n) (bind n MockNet s)).
Proof.
  intros (A & B & C & m & D & F).
  assert (Q : forall n', ~ about (EMock n) n') by (intros n' [x X]; discriminate X).
  assert (H1 : sers (bind n MockNet s) = sers s /\ once (bind n MockNet s) = once s /\ hist (bind n MockNet s) = hist s) by (destruct n; auto).
  destruct H1 as (E1 & E2 & E3). unfold tables, add; cbn [hist sers once makers]. rewrite E1, E2, E3. split; [|split; [|split]].
  - rewrite made_snoc, A. split; [auto|]. intros [M|(k & n' & X)]; [exact M|discriminate X].
  - intros n' Hn. apply chosen_snoc_other; auto.
  - intros O. apply chosen_snoc_other; auto.
  - destruct (zlist_eqb_spec n nTcp) as [->|Ne].
    + exists MockNet. split; [reflexivity|]. split; [|reflexivity]. intros _. apply in_or_app. right. now left.
    + exists m. split.
      * destruct n as [|z r]; [exact D|]. cbn [bind makers]. rewrite updn_other; auto.
      * rewrite F. unfold mocked. split; intros I; [apply in_or_app; auto|]. apply in_app_or in I as [I|[X|[]]]; [exact I|]. injection X as ->. congruence.
Qed.
Lemma tables_once s : tables s -> chosen (hist s) nTxt (sers (do_once s) nTxt) /\ forall n, n <> nTxt -> chosen (hist s) n (sers (do_once s) n).
Proof.
  intros (A & B & C & _). unfold do_once. destruct (once s) eqn:O; [split; auto|]. cbn [sers]. split.
  - rewrite updn_same. apply chosen_txt. left. split; [reflexivity|]. intros x L. apply since_made in L. apply A in L. discriminate.
  - intros n N. rewrite updn_other by auto. auto.
Qed.
Lemma tables_new k n sk s : tables s -> tables (add (ENew k n) (set_socks sk (do_once s))).
Proof.
  intros T. destruct (tables_once s T) as [T1 T2]. destruct T as (A & B & C & m & D & F).
  assert (Q : forall n', ~ about (ENew k n) n') by (intros n' [x X]; discriminate X).
  assert (H1 : makers (do_once s) = makers s /\ hist (do_once s) = hist s /\ once (do_once s) = true) by (unfold do_once; destruct (once s) eqn:?; auto).
  destruct H1 as (E1 & E2 & E3). unfold tables, add, set_socks; cbn [hist sers once makers]. rewrite E1, E2, E3. split; [|split; [|split]].
  - rewrite made_snoc. split; [intros _; right; now exists k, n|reflexivity].
  - intros n' Hn. apply chosen_snoc_other; auto.
  - intros _. apply chosen_snoc_other; auto.
  - exists m. split; [exact D|]. rewrite F. unfold mocked. split; intros I; [apply in_or_app; auto|]. apply in_app_or in I as [I|[X|[]]]; [exact I|discriminate X].
Qed.

(* sockets and connections *)
Definition opened h k (m : maker) : Prop := exists h1 h2, h = h1 ++ EListen k :: h2 /\ ~ In (EListen k) h2 /\ (m = MockNet <-> mocked h1).
Definition sock_ok h k (sk : sock) : Prop :=
  (exists h1 n h2, h = h1 ++ ENew k n :: h2 /\ chosen h1 n (enc sk)) /\
  forall m, listener sk = Some m -> opened h k m.
Definition conn_ok h p (c : conn) : Prop := exists h1 h2, h = h1 ++ EConn p (c_sock c) :: h2 /\
  (if c_self c then exists h0, h1 = h0 ++ [EDial (c_sock c)] /\ (c_via c = MockNet <-> mocked h0) 
   else (forall h0, h1 <> h0 ++ [EDial (c_sock c)]) /\ opened h1 (c_sock c) (c_via c)).
Lemma sock_ok_snoc h k sk e : e <> EListen k -> sock_ok h k sk -> sock_ok (h ++ [e]) k sk.
Proof.
  intros N [(h1 & n & h2 & -> & C) L]. split.
  - exists h1, n, (h2 ++ [e]). split; [apply snoc_mid|exact C].
  - intros m E. destruct (L m E) as (a & b & E' & No & M). exists a, (b ++ [e]). rewrite E'. split; [apply snoc_mid|]. split; [|exact M].
    intros I. apply in_app_or in I as [I|[->|[]]]; auto.
Qed.
Lemma conn_ok_snoc h p c e : conn_ok h p c -> conn_ok (h ++ [e]) p c.
Proof. intros (h1 & h2 & -> & R). exists h1, (h2 ++ [e]). split; [apply snoc_mid|exact R]. Qed.

Definition good s : Prop :=
  tables s /\
  (forall k sk, nth_error (socks s) k = Some sk -> sock_ok (hist s) k sk) /\
  (forall p c, nth_error (conns s) p = Some c -> conn_ok (hist s) p c /\ exists sk, nth_error (socks s) (c_sock c) = Some sk /\ c_enc c = enc sk) /\
  (forall h k, hist s = h ++ [EDial k] -> False).
Lemma good0 : good net0.
Proof.
  split; [|split; [|split]].
  - split; [split; [discriminate|intros (k & n & [])]|]. split; [|split; [discriminate|]].
    + intros n N. apply chosen_other; [exact N|]. left. split; [reflexivity|]. intros x [].
    + exists Tcp. split; [reflexivity|]. split; [discriminate|intros []].
  - intros [|k]; discriminate.
  - intros [|p]; discriminate.
  - intros [|e h] k E; discriminate.
Qed.
Lemma no_dial_tail h e h' k : (forall j, e <> EDial j) -> h ++ [e] = h' ++ [EDial k] -> False.
Proof. intros N E. apply app_inj_tail in E as [_ E]. now apply (N k). Qed.
Lemma good_add s e : quiet_event e -> (forall k, e <> EListen k) -> (forall k, e <> EDial k) -> good s -> good (add e s).
Proof.
  intros Q N D (T & Sk & Cn & _). split; [now apply tables_add|]. cbn. split; [|split].
  - intros k sk E. apply sock_ok_snoc; auto.
  - intros p c E. destruct (Cn _ _ E) as [X Y]. split; [now apply conn_ok_snoc|exact Y].
  - intros h k E. eapply no_dial_tail; eauto.
Qed.
Lemma good_same s s' : sers s' = sers s -> once s' = once s -> makers s' = makers s -> hist s' = hist s -> socks s' = socks s -> conns s' = conns s -> good s -> good s'.
Proof. intros A B C D E F (T & R). split; [eapply tables_same; eauto|]. rewrite D, E, F. exact R. Qed.

Lemma good_accept s k m en si : good s -> nth_error (socks s) k = Some (mkSock en si (Some m)) -> good (new_conn k false m s).
Proof.
  intros (T & Sk & Cn & Nd) E. rewrite (new_conn_some _ _ _ _ _ E). cbn [enc].
  split; [apply tables_add; [exact I|eapply tables_same; [..|exact T]; reflexivity]|]. cbn. split; [|split].
  - intros j sk Ej. apply sock_ok_snoc; [discriminate|auto].
  - intros p c Ec. apply nth_snoc in Ec as [Ec|[-> ->]].
    + destruct (Cn _ _ Ec) as [X Y]. split; [now apply conn_ok_snoc|exact Y].
    + split; [|exists (mkSock en si (Some m)); auto]. exists (hist s), []. cbn. split; [reflexivity|]. split; [intros h0 E0; eapply Nd; eauto|].
      destruct (Sk _ _ E) as [_ L]. exact (L m eq_refl).
  - intros h j X. eapply no_dial_tail; [|exact X]. discriminate.
Qed.
Lemma good_dial s k m sk : good s -> nth_error (socks s) k = Some sk -> make_net nTcp s = Some m -> good (new_conn k true m (add (EDial k) s)).
Proof.
  intros (T & Sk & Cn & Nd) E Em. rewrite (new_conn_some _ _ _ _ sk) by exact E.
  split; [apply tables_add; [exact I|]; eapply tables_same; [..|apply (tables_add s (EDial k) I T)]; reflexivity|]. cbn. split; [|split].
  - intros j sj Ej. apply sock_ok_snoc; [discriminate|]. apply sock_ok_snoc; [discriminate|auto].
  - intros p c Ec. apply nth_snoc in Ec as [Ec|[-> ->]].
    + destruct (Cn _ _ Ec) as [X Y]. split; [now do 2 apply conn_ok_snoc|exact Y].
    + split; [|exists sk; auto]. exists (hist s ++ [EDial k]), []. cbn. split; [reflexivity|]. exists (hist s). split; [reflexivity|].
      destruct T as (_ & _ & _ & m' & D & F). cbn in Em. assert (m' = m) by congruence. subst m'. exact F.
  - intros h j X. eapply no_dial_tail; [|exact X]. discriminate.
Qed.

Lemma good_step s l s' : good s -> nstep s l = Some s' -> good s'.
Proof.
  intros G H. pose proof G as (T & Sk & Cn & Nd). ncase H.
  - split; [now apply tables_extend|]. cbn. split; [|split].
    + intros k sk E. apply sock_ok_snoc; [discriminate|auto].
    + intros p c E. destruct (Cn _ _ E) as [X Y]. split; [now apply conn_ok_snoc|exact Y].
    + intros h k E. eapply no_dial_tail; [|exact E]. discriminate.
  - split; [now apply tables_mock|].
    assert (X : socks (bind n MockNet s) = socks s /\ conns (bind n MockNet s) = conns s /\ hist (bind n MockNet s) = hist s) by (destruct n; auto).
    destruct X as (E1 & E2 & E3). cbn. rewrite E1, E2, E3. split; [|split].
    + intros k sk E. apply sock_ok_snoc; [discriminate|auto].
    + intros p c E. destruct (Cn _ _ E) as [X Y]. split; [now apply conn_ok_snoc|exact Y].
    + intros h k E. eapply no_dial_tail; [|exact E]. discriminate.
  - split; [now apply tables_new|].
    assert (X : conns (do_once s) = conns s /\ hist (do_once s) = hist s) by (unfold do_once; destruct (once s); auto).
    destruct X as (E2 & E3). cbn. rewrite E2, E3. split; [|split].
    + intros k sk E. apply nth_snoc in E as [E|[-> ->]]; [apply sock_ok_snoc; [discriminate|auto]|]. split; [|discriminate].
      exists (hist s), n, []. split; [reflexivity|]. cbn [enc]. destruct (tables_once s T) as [T1 T2].
      destruct (zlist_eqb_spec n nTxt) as [->|N]; auto.
    + intros p c E. destruct (Cn _ _ E) as [X (sk & Y & Z)]. split; [now apply conn_ok_snoc|]. exists sk. split; [now apply nth_app|exact Z].
    + intros h k E. eapply no_dial_tail; [|exact E]. discriminate.
  - cbn in Em. destruct T as (TA & TB & TC & m' & D & F). assert (m' = m) by congruence. subst m'.
    split; [apply tables_add; [exact I|]; eapply tables_same; [..|split; [exact TA|split; [exact TB|split; [exact TC|exists m; auto]]]]; reflexivity|].
    cbn. split; [|split].
    + intros j sj E. apply set_nth_case in E as [[-> ->]|[N E]].
      * destruct (Sk _ _ Ek) as [(h1 & n & h2 & Eh & C) _]. split.
        -- exists h1, n, (h2 ++ [EListen k]). rewrite Eh. split; [apply snoc_mid|exact C].
        -- intros m' Em'. cbn in Em'. injection Em' as <-. exists (hist s), []. split; [reflexivity|]. split; [intros []|exact F].
      * apply sock_ok_snoc; [intros X; injection X as ->; auto|auto].
    + intros p c E. destruct (Cn _ _ E) as [X (sj & Y & Z)]. split; [now apply conn_ok_snoc|].
      destruct (Nat.eq_dec (c_sock c) k) as [Ec|Ec].
      * rewrite Ec in *. exists (mkSock (enc sk) (sink sk) (Some m)). split; [apply set_nth_same; eapply nth_lt; eauto|]. cbn. congruence.
      * exists sj. split; [rewrite set_nth_other; auto|exact Z].
    + intros h j E. eapply no_dial_tail; [|exact E]. discriminate.
  - apply good_add; try discriminate; [exact I|]. eapply good_same; [..|exact G]; reflexivity.
  - eapply good_same; [..|exact G]; reflexivity.
  - eapply good_accept; eauto.
  - eapply good_dial; eauto.
  - apply good_add; try discriminate; [exact I|]. eapply good_same; [..|exact G]; reflexivity.
  - eapply good_same; [..|exact G]; reflexivity.
  - apply good_add; try discriminate; [exact I|]. eapply good_same; [..|exact G]; reflexivity.
  - exact G.
  - eapply good_same; [..|exact G]; reflexivity.
  - exact G.
  - eapply good_same; [..|exact G]; reflexivity.
Qed.
Lemma good_exec ls s : exec nstep net0 ls = Some s -> good s.
Proof. apply exec_inv; [exact good_step|exact good0]. Qed.

(* --- theorems --- *)
Lemma serializer ls s k sk : exec nstep net0 ls = Some s -> nth_error (socks s) k = Some sk ->
  exists h1 n h2, hist s = h1 ++ ENew k n :: h2 /\ chosen h1 n (enc sk).
Proof. intros H E. apply good_exec in H as (_ & S & _). destruct (S _ _ E) as [X _]. exact X. Qed.

Lemma in_split_first (P : event -> bool) h : existsb P h = true -> exists h1 e h2, h = h1 ++ e :: h2 /\ P e = true /\ existsb P h1 = false.
Proof.
  induction h as [|e h IH]; cbn; [discriminate|]. destruct (P e) eqn:E; intros H.
  - exists [], e, h. auto.
  - destruct (IH H) as (h1 & e' & h2 & -> & Pe & N). exists (e :: h1), e', h2. cbn. rewrite E, N. auto.
Qed.
(* numbers of sockets and connections in the history *)
Definition news h : list nat := flat_map (fun e => match e with ENew k _ => [k] | _ => [] end) h.
Lemma news_app a b : news (a ++ b) = news a ++ news b.
Proof. apply flat_map_app. Qed.
Lemma news_step s l s' : news (hist s) = seq 0 (length (socks s)) -> nstep s l = Some s' -> news (hist s') = seq 0 (length (socks s')).
Proof.
  intros G H. ncase H; cbn; try (rewrite (new_conn_some _ _ _ _ _ Ek) || rewrite (new_conn_some _ _ _ _ sk) by exact Ek); cbn; rewrite ?news_app; cbn; rewrite ?app_nil_r, ?set_nth_length; auto.
  - destruct n; exact G.
  - replace (hist (do_once s)) with (hist s) by (unfold do_once; destruct (once s); reflexivity).
    rewrite G, app_length. cbn. rewrite Nat.add_1_r, seq_S. reflexivity.
Qed.
Lemma news_exec ls s : exec nstep net0 ls = Some s -> news (hist s) = seq 0 (length (socks s)).
Proof. apply (exec_inv nstep (fun s => news (hist s) = seq 0 (length (socks s)))); [exact news_step|reflexivity]. Qed.
Lemma new_once h k n n' a a' b b' : NoDup (news h) -> h = a ++ ENew k n :: b -> h = a' ++ ENew k n' :: b' -> a = a' /\ n = n' /\ b = b'.
Proof.
  intros D -> E. revert a' E D. induction a as [|e a IH]; intros [|e' a'] E D; cbn in E; injection E as E1 E2.
  - subst. auto.
  - exfalso. subst. cbn in D. inversion D as [|x l N _]. apply N. rewrite news_app. apply in_or_app. right. now left.
  - exfalso. subst. cbn in D. inversion D as [|x l N _]. apply N. rewrite news_app. apply in_or_app. right. now left.
  - subst e'.
    assert (D' : NoDup (news (a ++ ENew k n :: b))) by (change ((e :: a) ++ ENew k n :: b) with ([e] ++ a ++ ENew k n :: b) in D; rewrite news_app in D; clear -D; induction (news [e]); [exact D|inversion D; auto]).
    destruct (IH a' E2 D') as (-> & X). auto.
Qed.
Lemma made_as ls s k sk h1 n h2 : exec nstep net0 ls = Some s -> nth_error (socks s) k = Some sk -> hist s = h1 ++ ENew k n :: h2 -> chosen h1 n (enc sk).
Proof.
  intros H E Eh. destruct (serializer _ _ _ _ H E) as (h1' & n' & h2' & Eh' & C).
  assert (D : NoDup (news (hist s))) by (rewrite (news_exec _ _ H); apply seq_NoDup).
  destruct (new_once _ _ _ _ _ _ _ _ D Eh Eh') as (-> & -> & _). exact C.
Qed.
Lemma early_txt ls s k sk h1 h2 : exec nstep net0 ls = Some s -> nth_error (socks s) k = Some sk -> hist s = h1 ++ ENew k nTxt :: h2 ->
  (forall a j n b x, h1 = a ++ ENew j n :: b -> ~ In (EExtend nTxt x) b) -> enc sk = Some STxt.
Proof.
  intros H E Eh No. pose proof (made_as _ _ _ _ _ _ _ H E Eh) as C.
  apply chosen_txt in C as [[-> _]|(x & _ & (a & b & -> & (j & n & I) & _))]; [reflexivity|]. exfalso.
  apply in_split in I as (c & d & ->). rewrite <- app_assoc in No. apply (No c j n _ x eq_refl). apply in_or_app. right. now left.
Qed.

Lemma connections ls s p c : exec nstep net0 ls = Some s -> nth_error (conns s) p = Some c ->
  exists sk h1 h2, nth_error (socks s) (c_sock c) = Some sk /\ c_enc c = enc sk /\ hist s = h1 ++ EConn p (c_sock c) :: h2 /\
  (c_self c = true <-> exists h0, h1 = h0 ++ [EDial (c_sock c)]) /\
  (c_self c = true -> (c_via c = MockNet <-> mocked h1)) /\
  (c_self c = false -> exists a b, h1 = a ++ EListen (c_sock c) :: b /\ ~ In (EListen (c_sock c)) b /\ (c_via c = MockNet <-> mocked a)).
Proof.
  intros H E. apply good_exec in H as (_ & _ & C & _). destruct (C _ _ E) as [(h1 & h2 & Eh & R) (sk & Es & Ee)].
  exists sk, h1, h2. split; [exact Es|]. split; [exact Ee|]. split; [exact Eh|]. destruct (c_self c).
  - destruct R as (h0 & -> & M). split; [split; [intros _; now exists h0|reflexivity]|]. split; [|discriminate]. intros _. rewrite M. unfold mocked.
    split; intros I; [apply in_or_app; auto|]. apply in_app_or in I as [I|[X|[]]]; [exact I|discriminate X].
  - destruct R as [N O]. split; [split; [discriminate|intros [h0 X]; elim (N h0 X)]|]. split; [discriminate|]. intros _. exact O.
Qed.

Lemma fixed_step s l s' : nstep s l = Some s' ->
  (forall k sk, nth_error (socks s) k = Some sk -> exists sk', nth_error (socks s') k = Some sk' /\ enc sk' = enc sk /\ sink sk' = sink sk) /\
  (forall p c, nth_error (conns s) p = Some c -> nth_error (conns s') p = Some c).
Proof.
  intros H. ncase H; cbn; try (rewrite (new_conn_some _ _ _ _ _ Ek) || rewrite (new_conn_some _ _ _ _ sk) by exact Ek); cbn; (split; [|intros; try apply nth_app; auto]); eauto.
  - destruct n; eauto.
  - destruct n; auto.
  - intros k sk E. exists sk. split; [now apply nth_app|auto].
  - unfold do_once. destruct (once s); auto.
  - intros j sj E. destruct (Nat.eq_dec j k) as [->|N].
    + rewrite E in Ek. injection Ek as ->. exists (mkSock (enc sk) (sink sk) (Some m)). split; [apply set_nth_same; eapply nth_lt; eauto|auto].
    + exists sj. rewrite set_nth_other; auto.
Qed.
Lemma fixed ls s s' : exec nstep s ls = Some s' ->
  (forall k sk, nth_error (socks s) k = Some sk -> exists sk', nth_error (socks s') k = Some sk' /\ enc sk' = enc sk /\ sink sk' = sink sk) /\
  (forall p c, nth_error (conns s) p = Some c -> nth_error (conns s') p = Some c).
Proof.
  apply (exec_rel nstep (fun s s' => (forall k sk, nth_error (socks s) k = Some sk -> exists sk', nth_error (socks s') k = Some sk' /\ enc sk' = enc sk /\ sink sk' = sink sk) /\
  (forall p c, nth_error (conns s) p = Some c -> nth_error (conns s') p = Some c))).
  - eauto.
  - intros a b c [A1 A2] [B1 B2]. split; [|auto]. intros k sk E. destruct (A1 _ _ E) as (x & X & Y & Z). destruct (B1 _ _ X) as (y & ? & ? & ?). exists y. repeat split; congruence.
  - exact fixed_step.
Qed.

(* what the program registered is in the history *)
Lemma extend_hist ls : forall s s', exec nstep s ls = Some s' -> forall n x, In (PExtend n x) ls -> In (EExtend n x) (hist s').
Proof.
  assert (G : forall s l s', nstep s l = Some s' -> exists es, hist s' = hist s ++ es).
  { intros s l s' H. ncase H; cbn; try (rewrite (new_conn_some _ _ _ _ _ Ek) || rewrite (new_conn_some _ _ _ _ sk) by exact Ek); cbn; try (eexists; reflexivity); try (exists []; symmetry; apply app_nil_r).
    - destruct n; eexists; reflexivity.
    - unfold do_once. destruct (once s); eexists; reflexivity.
    - eexists. rewrite <- app_assoc. reflexivity. }
  induction ls as [|l ls IH]; intros s s' H n x I; [destruct I|]. cbn in H. destruct (nstep s l) as [s1|] eqn:E1; [|discriminate].
  destruct I as [->|I]; [|eapply IH; eauto]. destruct (exec_grows nstep hist G _ _ _ H) as [es ->].
  unfold nstep in E1. destruct (status s); try discriminate. injection E1 as <-. cbn. apply in_or_app. left. apply in_or_app. right. now left.
Qed.
Lemma no_panic ls s : registered_first ls -> exec nstep net0 ls = Some s -> status s <> Panicked /\ Forall (fun sk => enc sk <> None) (socks s).
Proof.
  revert s. induction ls as [|l ls IH] using rev_ind; intros s R H; [injection H as <-; cbn; split; [discriminate|constructor]|].
  apply exec_split in H as (s0 & Hm & H). cbn in H. destruct (nstep s0 l) as [s1|] eqn:E; [|discriminate]. injection H as <-.
  assert (R' : registered_first ls). { intros l1 n b l2 -> N. apply (R l1 n b (l2 ++ [l])); [rewrite <- app_assoc; reflexivity|exact N]. }
  destruct (IH _ R' Hm) as [P F]. pose proof (good_exec _ _ Hm) as (T & _ & Cn & _).
  assert (Ce : forall p c, nth_error (conns s0) p = Some c -> c_enc c <> None).
  { intros p c Ec. destruct (Cn _ _ Ec) as [_ (sk & Es & ->)]. rewrite Forall_forall in F. apply F. eapply nth_error_In; eauto. }
  ncase E; cbn; try (rewrite (new_conn_some _ _ _ _ _ Ek) || rewrite (new_conn_some _ _ _ _ sk) by exact Ek); cbn; (split; [try discriminate; try (rewrite Run; discriminate)|auto]); try (now elim (Ce _ _ Ec)).
  - destruct n; cbn; rewrite Run; discriminate.
  - destruct n; exact F.
  - unfold do_once. destruct (once s0); cbn; rewrite Run; discriminate.
  - apply Forall_app. split; [exact F|]. constructor; [|constructor]. cbn. destruct (tables_once s0 T) as [T1 T2].
    destruct (zlist_eqb_spec n nTxt) as [->|N].
    + apply chosen_txt in T1 as [[-> _]|(x & -> & _)]; discriminate.
    + specialize (T2 n N). apply chosen_other in T2 as [[_ Nv]|(x & -> & _)]; [|discriminate|exact N]. exfalso.
      destruct (R ls n b [] eq_refl N) as [x I]. apply (Nv x). eapply extend_hist; eauto.
  - apply Forall_forall. intros sj I. apply In_nth_error in I as [j Ej]. rewrite Forall_forall in F. apply set_nth_case in Ej as [[-> ->]|[_ Ej]]; [apply (F sk)|apply F]; eapply nth_error_In; eauto.
Qed.
Lemma nil_serializer s p c : status s = Running -> nth_error (conns s) p = Some c ->
  exists s', nstep s (PSend p) = Some s' /\ nstep s (PReceive p) = Some s' /\ (status s' = Panicked <-> c_enc c = None) /\ (c_enc c <> None -> s' = s).
Proof.
  intros R E. unfold nstep, use. rewrite R, E. destruct (c_enc c); eexists; (split; [reflexivity|split; [reflexivity|]]); cbn; rewrite ?R; (split; [split|]); congruence.
Qed.
Lemma exits ls s : exec nstep net0 ls = Some s -> status s = Exited -> exists h k, hist s = h ++ [EFailed k] \/ hist s = h ++ [ENoSink k].
Proof.
  intros H X. destruct ls as [|l ls] using rev_ind; [injection H as <-; discriminate|].
  apply exec_split in H as (s0 & Hm & H). cbn in H. destruct (nstep s0 l) as [s1|] eqn:E; [|discriminate]. injection H as <-.
  pose proof (good_exec _ _ Hm) as ((_ & _ & _ & m' & D & _) & _).
  ncase E; cbn in X; try (rewrite (new_conn_some _ _ _ _ _ Ek) in X || rewrite (new_conn_some _ _ _ _ sk) in X by exact Ek); cbn in X; try congruence; try (cbn; eauto 6).
  - destruct n; cbn in X; congruence.
  - unfold do_once in X. destruct (once s0); cbn in X; congruence.
  - cbn in Em. congruence.
  - cbn in Em. congruence.
Qed.
Lemma no_sink s k sk ok : status s = Running -> nth_error (socks s) k = Some sk -> sink sk = false ->
  exists s', nstep s (PDial k ok) = Some s' /\ status s' = Exited /\ conns s' = conns s.
Proof. intros R E S. unfold nstep. rewrite R, E, S. eexists. split; [reflexivity|]. auto. Qed.
Lemma opens ls s k sk : exec nstep net0 ls = Some s -> status s = Running -> nth_error (socks s) k = Some sk ->
  (exists s', nstep s (PListen k true) = Some s' /\ status s' = Running /\ hist s' = hist s ++ [EListen k]) /\
  (sink sk = true -> exists s', nstep s (PDial k true) = Some s' /\ status s' = Running /\ length (conns s') = S (length (conns s))).
Proof.
  intros H R E. apply good_exec in H as ((_ & _ & _ & m & D & _) & _). unfold nstep, make_net, nTcp in *. rewrite R, E, D. split.
  - eexists. split; [reflexivity|]. auto.
  - intros ->. eexists. split; [reflexivity|]. rewrite (new_conn_some _ _ _ _ sk) by exact E. cbn. rewrite app_length. cbn. split; [exact R|lia].
Qed.
