(* Lemmas for the hub: queries (C32-C34). *)
From Verif Require Import Lts GoVal Tables HubModel HubSpec HubProof.
From Coq Require Import Arith Bool List ZArith.
Import ListNotations.
Open Scope nat_scope.

Section Proof.
Variables (black : list Z) (raddr : nat -> name).
Notation hstep := (hstep black raddr).

Definition stub_ok (h : list event) (f : name) (st : stub) : Prop :=
  (exists sl, nth_error h (st_reg st) = Some (ERecv (st_peer st) (PRegister sl)) /\ In f sl) /\
  st_host st = pickIP (raddr (st_peer st)) /\ In (EAlloc (st_reg st) (st_peer st) (st_host st) (st_port st)) h /\
  (st_ready st = true -> st_reg st < st_mark st /\ exists sl, nth_error h (st_mark st) = Some (ERecv (st_peer st) (PReady sl)) /\ In f sl).
Lemma stub_ok_mono h e f st : stub_ok h f st -> stub_ok (h ++ e) f st.
Proof.
  intros ((sl & A & B) & C & D & E). split; [exists sl; split; [apply nth_app; exact A|exact B]|]. split; [exact C|].
  split; [rewrite in_app_iff; left; exact D|]. intros R. destruct (E R) as (F & sl' & G & I). split; [exact F|].
  exists sl'. split; [apply nth_app; exact G|exact I].
Qed.

Definition older (d : name -> list stub) (p t : nat) : Prop := forall f st, In st (d f) -> st_peer st = p -> st_reg st < t.
Definition handler_ok (h : list event) (d : name -> list stub) (p : nat) (c : hpc) : Prop :=
  match c with
  | HIdle => older d p (length h)
  | RAlloc t sl => nth_error h t = Some (ERecv p (PRegister sl))
  | RPush t host port todo => exists sl, nth_error h t = Some (ERecv p (PRegister sl)) /\ incl todo sl /\ host = pickIP (raddr p) /\ In (EAlloc t p host port) h
  | YNext t todo => exists sl, nth_error h t = Some (ERecv p (PReady sl)) /\ incl todo sl /\ older d p t
  | YScan t f i todo | YAdv t f i todo =>
      exists sl, nth_error h t = Some (ERecv p (PReady sl)) /\ incl todo sl /\ In f sl /\ i < length (d f) /\ older d p t
  end.
Record inv s : Prop := {
  i_regs : forall f, map (fun st => (st_peer st, st_host st, st_port st)) (docks s f) = registrations f (hist s);
  i_stub : forall f st, In st (docks s f) -> stub_ok (hist s) f st;
  i_handler : forall p, handler_ok (hist s) (docks s) p (handlers s p) }.
Lemma stub_reg_lt h f st : stub_ok h f st -> st_reg st < length h.
Proof. intros ((sl & A & _) & _). apply nth_lt in A. exact A. Qed.

(* nothing but the history grows *)
Lemma handler_ok_mono h e d d' p c : (forall f st, In st (d f) -> st_reg st < length h) ->
  (forall f, length (d f) <= length (d' f)) ->
  (forall f st, In st (d' f) -> st_peer st = p -> exists st0, In st0 (d f) /\ st_peer st0 = p /\ st_reg st0 = st_reg st) ->
  handler_ok h d p c -> handler_ok (h ++ e) d' p c.
Proof.
  intros B L O H.
  assert (K : forall t, older d p t -> older d' p t).
  { intros t X f st I E. destruct (O f st I E) as (st0 & I0 & E0 & R0). specialize (X f st0 I0 E0). lia. }
  destruct c; cbn in *.
  - intros f st I E. apply K in H. specialize (H f st I E). rewrite app_length. lia.
  - apply nth_app; exact H.
  - destruct H as (sl & A1 & A2 & A3 & A4). exists sl. split; [apply nth_app; exact A1|]. rewrite in_app_iff. tauto.
  - destruct H as (sl & A1 & A2 & A3). exists sl. split; [apply nth_app; exact A1|]. split; auto.
  - destruct H as (sl & A1 & A2 & A3 & A4 & A5). exists sl. split; [apply nth_app; exact A1|]. repeat split; auto. specialize (L f). lia.
  - destruct H as (sl & A1 & A2 & A3 & A4 & A5). exists sl. split; [apply nth_app; exact A1|]. repeat split; auto. specialize (L f). lia.
Qed.

(* a step of p's handler that leaves docks alone *)
Lemma inv_handler s p c (e : list event) s' : inv s -> docks s' = docks s -> hist s' = hist s ++ e ->
  registrations [] e = [] /\ (forall f, registrations f e = []) -> handlers s' = updp (handlers s) p c ->
  handler_ok (hist s ++ e) (docks s) p c -> inv s'.
Proof.
  intros [I1 I2 I3] D H [_ R] Hh Hc. constructor; rewrite ?D, ?H.
  - intros f. rewrite registrations_app, R, app_nil_r. apply I1.
  - intros f st Hi. apply stub_ok_mono. auto.
  - intros q. rewrite Hh. unfold updp. destruct (Nat.eqb_spec q p) as [->|]; [exact Hc|].
    apply handler_ok_mono with (d := docks s); auto.
    + intros f st Hi. eapply stub_reg_lt; eauto.
    + intros f st Hi E. exists st. auto.
Qed.
Lemma inv_other s (e : list event) s' : inv s -> docks s' = docks s -> hist s' = hist s ++ e ->
  (forall f, registrations f e = []) -> handlers s' = handlers s -> inv s'.
Proof.
  intros [I1 I2 I3] D H R Hh. constructor; rewrite ?D, ?H, ?Hh.
  - intros f. rewrite registrations_app, R, app_nil_r. apply I1.
  - intros f st Hi. apply stub_ok_mono. auto.
  - intros q. apply handler_ok_mono with (d := docks s); auto.
    + intros f st Hi. eapply stub_reg_lt; eauto.
    + intros f st Hi E. exists st. auto.
Qed.

Lemma inv_step s l s' : inv s -> hstep s l = Some s' -> inv s'.
Proof.
  intros I H. pose proof I as [I1 I2 I3].
  assert (BL : forall f st, In st (docks s f) -> st_reg st < length (hist s)) by (intros; eapply stub_reg_lt; eauto).
  destruct l as [p k|p|t|p].
  - (* receive *)
    unfold HubModel.hstep in H. destruct (halted s); [discriminate|]. destruct (handlers s p) eqn:Eh; try discriminate.
    pose proof (I3 p) as Ip. rewrite Eh in Ip. cbn in Ip.
    assert (N : forall e, nth_error (hist s ++ [e]) (length (hist s)) = Some e) by (intros; rewrite nth_error_app2, Nat.sub_diag; [reflexivity|lia]).
    destruct k; cbv zeta in H; injection H as <-.
    + apply (inv_handler s p (RAlloc (length (hist s)) slots) [ERecv p (PRegister slots)]); auto. cbn. apply N.
    + apply (inv_handler s p (YNext (length (hist s)) slots) [ERecv p (PReady slots)]); auto. cbn. exists slots. split; [apply N|].
      split; [apply incl_refl|exact Ip].
    + apply (inv_other s [ERecv p (PQuery slot)]); auto.
    + apply (inv_other s [ERecv p POther]); auto.
  - (* handler *)
    unfold HubModel.hstep in H. destruct (halted s); [discriminate|]. pose proof (I3 p) as Ip.
    destruct (handlers s p) as [|t slots|t host port [|f todo]|t [|f todo]|t f i todo|t f i todo] eqn:Eh; try discriminate; cbn in Ip.
    + destruct (allocate black (assigned s (pickIP (raddr p)))) eqn:Ea; injection H as <-; auto.
      * apply (inv_handler s p (RPush t (pickIP (raddr p)) p0 slots) [EAlloc t p (pickIP (raddr p)) p0]); auto.
        cbn. exists slots. split; [apply nth_app; exact Ip|]. split; [apply incl_refl|]. split; [reflexivity|]. rewrite in_app_iff. right. left. reflexivity.
      * apply (inv_other s []); auto. cbn. rewrite app_nil_r. reflexivity.
    + injection H as <-. apply (inv_handler s p HIdle [EReply p port]); auto. cbn. intros f st Hi E. rewrite app_length. specialize (BL f st Hi). lia.
    + injection H as <-. destruct Ip as (sl & A1 & A2 & A3 & A4).
      set (st0 := mkStub host port p false t 0).
      assert (O0 : stub_ok (hist s ++ [EPush f p host port]) f st0).
      { split; [exists sl; cbn; split; [apply nth_app; exact A1|apply A2; left; reflexivity]|]. cbn. split; [exact A3|].
        split; [rewrite in_app_iff; left; exact A4|discriminate]. }
      constructor; proj.
      * intros g. rewrite registrations_app. cbn [registrations flat_map]. rewrite app_nil_r.
        destruct (updn_case (docks s) f (docks s f ++ [st0]) g) as [[-> ->]|[N ->]].
        -- rewrite zlist_refl, map_app, I1. reflexivity.
        -- destruct (zlist_eqb f g) eqn:Ex; [apply zlist_eqb_eq in Ex; congruence|]. rewrite app_nil_r. apply I1.
      * intros g st. destruct (updn_case (docks s) f (docks s f ++ [st0]) g) as [[-> ->]|[N ->]].
        -- rewrite in_app_iff. intros [Hi|[<-|[]]]; [apply stub_ok_mono; auto|exact O0].
        -- intros Hi. apply stub_ok_mono; auto.
      * intros q. unfold updp. destruct (Nat.eqb_spec q p) as [->|Nq].
        -- cbn. exists sl. split; [apply nth_app; exact A1|]. split; [intros x Hx; apply A2; right; exact Hx|]. split; [exact A3|rewrite in_app_iff; left; exact A4].
        -- apply handler_ok_mono with (d := docks s); auto.
           ++ intros g. destruct (updn_case (docks s) f (docks s f ++ [st0]) g) as [[-> ->]|[N ->]]; [rewrite app_length; lia|lia].
           ++ intros g st. destruct (updn_case (docks s) f (docks s f ++ [st0]) g) as [[-> ->]|[N ->]]; [|intros; exists st; auto].
              rewrite in_app_iff. intros [Hi|[<-|[]]] E; [exists st; auto|]. cbn in E. congruence.
    + injection H as <-. apply (inv_handler s p HIdle []); auto; [cbn; rewrite app_nil_r; reflexivity|]. rewrite app_nil_r. cbn. intros f st Hi E. apply (BL f st Hi).
    + injection H as <-. destruct Ip as (sl & A1 & A2 & A3).
      apply (inv_handler s p (match docks s f with [] => YNext t todo | _ => YScan t f 0 todo end) []); auto; [cbn; rewrite app_nil_r; reflexivity|].
      rewrite app_nil_r. destruct (docks s f) eqn:Ed; cbn; exists sl.
      * split; [exact A1|]. split; [intros x Hx; apply A2; right; exact Hx|exact A3].
      * split; [exact A1|]. split; [intros x Hx; apply A2; right; exact Hx|]. split; [apply A2; left; reflexivity|]. split; [rewrite Ed; cbn; lia|exact A3].
    + destruct Ip as (sl & A1 & A2 & A3 & A4 & A5). destruct (nth_error (docks s f) i) as [st|] eqn:En; [|discriminate].
      destruct (Nat.eqb_spec (st_peer st) p) as [Ep|Ep]; injection H as <-.
      * set (st1 := mkStub (st_host st) (st_port st) (st_peer st) true (st_reg st) t).
        assert (Hin : In st (docks s f)) by (eapply nth_error_In; exact En).
        assert (O1 : stub_ok (hist s ++ [EMark f i]) f st1).
        { destruct (I2 f st Hin) as (B1 & B2 & B3 & B4). destruct B1 as (sl0 & C1 & C2).
          split; [exists sl0; cbn; split; [apply nth_app; exact C1|exact C2]|]. split; [exact B2|].
          split; [rewrite in_app_iff; left; exact B3|]. intros _. cbn. split; [apply (A5 f st Hin Ep)|]. exists sl. split; [apply nth_app; congruence|exact A3]. }
        constructor; proj.
        -- intros g. rewrite registrations_app. cbn [registrations flat_map]. rewrite app_nil_r.
           destruct (updn_case (docks s) f (set_nth (docks s f) i st1) g) as [[-> ->]|[N ->]]; [|apply I1].
           rewrite (set_nth_map _ (docks s f) i st1 st En); [apply I1|reflexivity].
        -- intros g x. destruct (updn_case (docks s) f (set_nth (docks s f) i st1) g) as [[-> ->]|[N ->]]; intros Hx; [|apply stub_ok_mono; auto].
           apply set_nth_in in Hx. destruct Hx as [->|Hx]; [exact O1|apply stub_ok_mono; auto].
        -- assert (KL : forall g, length (docks s g) <= length (updn (docks s) f (set_nth (docks s f) i st1) g)).
           { intros g. destruct (updn_case (docks s) f (set_nth (docks s f) i st1) g) as [[-> ->]|[N ->]]; [rewrite set_nth_length; lia|lia]. }
           assert (KO : forall q g x, In x (updn (docks s) f (set_nth (docks s f) i st1) g) -> st_peer x = q -> exists x0, In x0 (docks s g) /\ st_peer x0 = q /\ st_reg x0 = st_reg x).
           { intros q g x. destruct (updn_case (docks s) f (set_nth (docks s f) i st1) g) as [[-> ->]|[N ->]]; intros Hx Eq; [|exists x; auto].
             apply set_nth_in in Hx. destruct Hx as [->|Hx]; [exists st; auto|exists x; auto]. }
           intros q. unfold updp. destruct (Nat.eqb_spec q p) as [->|Nq].
           ++ apply (handler_ok_mono (hist s) [EMark f i] (docks s)); auto. cbn. exists sl. auto.
           ++ apply handler_ok_mono with (d := docks s); auto.
      * apply (inv_handler s p (YAdv t f i todo) []); auto; [cbn; rewrite app_nil_r; reflexivity|]. rewrite app_nil_r. cbn. exists sl. auto.
    + injection H as <-. destruct Ip as (sl & A1 & A2 & A3 & A4 & A5).
      apply (inv_handler s p (if S i <? length (docks s f) then YScan t f (S i) todo else YNext t todo) []); auto; [cbn; rewrite app_nil_r; reflexivity|].
      rewrite app_nil_r. destruct (Nat.ltb_spec (S i) (length (docks s f))); cbn; exists sl; auto.
  - (* query *)
    unfold HubModel.hstep in H. destruct (halted s); [discriminate|]. destruct (queries s t) as [|p f|p f i|]; try discriminate.
    + injection H as <-. apply (inv_other s [ERound t]); destruct (docks s f); auto.
    + destruct (nth_error (docks s f) i) as [st|]; [|discriminate]. destruct (st_ready st); injection H as <-.
      * apply (inv_other s [EAnswer t p f i (st_host st) (st_port st)]); auto.
      * apply (inv_other s []); auto; cbn; rewrite ?app_nil_r; destruct i; reflexivity.
  - unfold HubModel.hstep in H. destruct (halted s); [discriminate|]. injection H as <-. apply (inv_other s [EClosed p]); auto.
Qed.
Lemma inv_init : inv new_hub.
Proof. constructor; cbn; intros; try tauto. intros f st []. Qed.
Lemma inv_exec ls s : exec hstep new_hub ls = Some s -> inv s.
Proof. apply exec_inv; [apply inv_step|apply inv_init]. Qed.
End Proof.
