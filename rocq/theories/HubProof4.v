(* Lemmas for the hub: registrations are recorded in full and answered once (C56). *)
From Verif Require Import Lts GoVal Tables HubModel HubSpec HubProof HubProof2 HubProof3.
From Coq Require Import Arith Bool List ZArith.
Import ListNotations.
Open Scope nat_scope.

Section Proof.
Variables (black : list Z) (raddr : nat -> name).
Notation hstep := (hstep black raddr).

Lemma requests_app p a b : requests p (a ++ b) = requests p a ++ requests p b. Proof. apply flat_map_app. Qed.
Lemma granted_app p a b : granted p (a ++ b) = granted p a ++ granted p b. Proof. apply flat_map_app. Qed.
Lemma recorded_app p a b : recorded p (a ++ b) = recorded p a ++ recorded p b. Proof. apply flat_map_app. Qed.
Lemma replies_app p a b : replies p (a ++ b) = replies p a ++ replies p b. Proof. apply flat_map_app. Qed.

(* per peer: what is left to do *)
Definition reg_ok (h : list event) (p : nat) (c : hpc) : Prop :=
  match c with
  | RAlloc _ slots => exists l, requests p h = l ++ [slots] /\ length l = length (granted p h) /\
      granted p h = replies p h /\ recorded p h = records l (granted p h)
  | RPush _ _ port todo => exists l g, length (requests p h) = length (granted p h) /\ granted p h = replies p h ++ [port] /\
      requests p h = l ++ [g] /\ exists done, g = done ++ todo /\ recorded p h = records l (replies p h) ++ map (fun f => (f, port)) done
  | _ => length (requests p h) = length (granted p h) /\ granted p h = replies p h /\ recorded p h = records (requests p h) (granted p h)
  end.
Lemma records_snoc l ps g q : length l = length ps -> records (l ++ [g]) (ps ++ [q]) = records l ps ++ map (fun f => (f, q)) g.
Proof.
  unfold records. revert ps. induction l as [|x l IH]; intros [|y ps] H; try discriminate; cbn.
  - rewrite app_nil_r. reflexivity.
  - rewrite (IH ps) by (injection H; auto). rewrite app_assoc. reflexivity.
Qed.
Definition silent (p : nat) (e : event) : Prop := requests p [e] = [] /\ granted p [e] = [] /\ recorded p [e] = [] /\ replies p [e] = [].
Lemma reg_ok_silent h p c e : silent p e -> reg_ok h p c -> reg_ok (h ++ [e]) p c.
Proof.
  intros (A & B & C & D). unfold reg_ok. rewrite requests_app, granted_app, recorded_app, replies_app, A, B, C, D, !app_nil_r. auto.
Qed.
Ltac quiet := cbn; repeat match goal with |- context [?a =? ?b] => destruct (Nat.eqb_spec a b); [congruence|] end; auto.
Definition regs_inv (s : hub) : Prop := forall p, reg_ok (hist s) p (handlers s p).
Lemma regs_step s l s' : regs_inv s -> hstep s l = Some s' -> regs_inv s'.
Proof.
  intros R H. destruct l as [p k|p|t|p].
  - unfold HubModel.hstep in H. destruct (halted s); [discriminate|]. destruct (handlers s p) eqn:Eh; try discriminate. cbv zeta in H.
    destruct k; injection H as <-; intros u; proj.
    + unfold updp. destruct (Nat.eqb_spec u p) as [->|N].
      * specialize (R p). rewrite Eh in R. destruct R as (R1 & R2 & R3). cbn. exists (requests p (hist s)).
        rewrite requests_app, granted_app, recorded_app, replies_app. cbn. rewrite Nat.eqb_refl. cbn. rewrite !app_nil_r. auto.
      * apply reg_ok_silent; [|apply R]. unfold silent. quiet.
    + unfold updp. destruct (Nat.eqb_spec u p) as [->|N]; (apply reg_ok_silent; [unfold silent; quiet|]).
      * specialize (R p). rewrite Eh in R. exact R.
      * apply R.
    + apply reg_ok_silent; [unfold silent; quiet|apply R].
    + apply reg_ok_silent; [unfold silent; quiet|apply R].
  - unfold HubModel.hstep in H. destruct (halted s); [discriminate|]. pose proof (R p) as Rp.
    destruct (handlers s p) as [|t slots|t host port [|f todo]|t [|f todo]|t f i todo|t f i todo] eqn:Eh; try discriminate; cbn [reg_ok] in Rp.
    + destruct (allocate black (assigned s (pickIP (raddr p)))) as [q| |]; injection H as <-; auto. intros u. proj.
      unfold updp. destruct (Nat.eqb_spec u p) as [->|N]; [|apply reg_ok_silent; [unfold silent; quiet|apply R]].
      destruct Rp as (l & R1 & R2 & R3 & R4). cbn [reg_ok]. exists l, slots. rewrite requests_app, granted_app, recorded_app, replies_app. cbn. rewrite Nat.eqb_refl. cbn. rewrite !app_nil_r.
      rewrite R1, !app_length, R2, R3. split; [reflexivity|]. split; [reflexivity|]. split; [reflexivity|]. exists []. rewrite app_nil_r, R4, R3. auto.
    + injection H as <-. intros u. proj. unfold updp. destruct (Nat.eqb_spec u p) as [->|N]; [|apply reg_ok_silent; [unfold silent; quiet|apply R]].
      destruct Rp as (l & g & R1 & R2 & R3 & dn & R4 & R5). cbn [reg_ok]. rewrite requests_app, granted_app, recorded_app, replies_app. cbn. rewrite Nat.eqb_refl. cbn. rewrite !app_nil_r.
      rewrite app_nil_r in R4. subst dn. split; [exact R1|]. split; [exact R2|]. rewrite R5, R3, R2. symmetry. apply records_snoc.
      rewrite R3, R2, !app_length in R1. cbn in R1. lia.
    + injection H as <-. intros u. proj. unfold updp. destruct (Nat.eqb_spec u p) as [->|N]; [|apply reg_ok_silent; [unfold silent; quiet|apply R]].
      destruct Rp as (l & g & R1 & R2 & R3 & dn & R4 & R5). cbn [reg_ok]. exists l, g. rewrite requests_app, granted_app, recorded_app, replies_app. cbn. rewrite Nat.eqb_refl. cbn. rewrite !app_nil_r.
      split; [exact R1|]. split; [exact R2|]. split; [exact R3|]. exists (dn ++ [f]). rewrite <- app_assoc. split; [exact R4|]. rewrite R5, map_app, app_assoc. reflexivity.
    + injection H as <-. intros u. proj. unfold updp. destruct (Nat.eqb_spec u p) as [->|N]; [exact Rp|apply R].
    + injection H as <-. intros u. proj. unfold updp. destruct (Nat.eqb_spec u p) as [->|N]; [|apply R]. destruct (docks s f); exact Rp.
    + destruct (nth_error (docks s f) i); [|discriminate]. destruct (st_peer s0 =? p); injection H as <-; intros u; proj; unfold updp; destruct (Nat.eqb_spec u p) as [->|N].
      * apply reg_ok_silent; [unfold silent; quiet|exact Rp].
      * apply reg_ok_silent; [unfold silent; quiet|apply R].
      * exact Rp.
      * apply R.
    + injection H as <-. intros u. proj. unfold updp. destruct (Nat.eqb_spec u p) as [->|N]; [|apply R]. destruct (S i <? length (docks s f)); exact Rp.
  - unfold HubModel.hstep in H. destruct (halted s); [discriminate|]. destruct (queries s t) as [|p g|p g i|]; try discriminate.
    + injection H as <-. intros u. destruct (docks s g); proj; (apply reg_ok_silent; [unfold silent; quiet|apply R]).
    + destruct (nth_error (docks s g) i); [|discriminate]. destruct (st_ready s0); injection H as <-; intros u; proj; [|apply R].
      apply reg_ok_silent; [unfold silent; quiet|apply R].
  - steps H. intros u. proj. apply reg_ok_silent; [unfold silent; quiet|apply R].
Qed.
Lemma regs_exec ls s : exec hstep new_hub ls = Some s -> regs_inv s.
Proof. apply exec_inv; [apply regs_step|]. intros p. cbn. auto. Qed.

Lemma replies_own_ports ls s p : exec hstep new_hub ls = Some s -> exists rest, granted p (hist s) = replies p (hist s) ++ rest /\ length rest <= 1.
Proof.
  intros H. pose proof (regs_exec _ _ H p) as R. destruct (handlers s p); cbn in R.
  1,4,5,6: exists []; rewrite app_nil_r; split; [tauto|cbn; lia].
  - destruct R as (l & _ & _ & R & _). exists []. rewrite app_nil_r. split; [exact R|cbn; lia].
  - destruct R as (l & g & _ & R & _). exists [port]. split; [exact R|cbn; lia].
Qed.
(* handled packets are in the records *)
Lemma registration_complete ls s p : exec hstep new_hub ls = Some s -> handlers s p = HIdle ->
  length (replies p (hist s)) = length (requests p (hist s)) /\ replies p (hist s) = granted p (hist s) /\
  recorded p (hist s) = records (requests p (hist s)) (replies p (hist s)).
Proof.
  intros H Hi. pose proof (regs_exec _ _ H p) as R. rewrite Hi in R. cbn in R. destruct R as (R1 & R2 & R3). rewrite <- R2. auto.
Qed.
Lemma records_firstn l ps n : records l (firstn n ps) = records (firstn n l) (firstn n ps).
Proof.
  unfold records. revert ps n. induction l as [|x l IH]; intros [|y ps] [|n]; cbn; try reflexivity. rewrite IH. reflexivity.
Qed.
(* at any moment: what was replied is recorded in full, and nothing but requested features is *)
Lemma combine_app {A B} (a c : list A) (b d : list B) : length a = length b -> combine (a ++ c) (b ++ d) = combine a b ++ combine c d.
Proof. revert b. induction a; intros [|y b] E; try discriminate; cbn; [reflexivity|]. rewrite IHa by (injection E; auto). reflexivity. Qed.
Lemma combine_nil_r {A B} (l : list A) : combine l (@nil B) = [].
Proof. destruct l; reflexivity. Qed.
Lemma records_more l m ps : length l = length ps -> records (l ++ m) ps = records l ps.
Proof. intros H. unfold records. rewrite <- (app_nil_r ps), combine_app, combine_nil_r by exact H. rewrite !app_nil_r. reflexivity. Qed.
Lemma recorded_before_reply ls s p : exec hstep new_hub ls = Some s ->
  exists more, recorded p (hist s) = records (requests p (hist s)) (replies p (hist s)) ++ more /\
    exists more', recorded p (hist s) ++ more' = records (requests p (hist s)) (granted p (hist s)).
Proof.
  intros H. pose proof (regs_exec _ _ H p) as R. destruct (handlers s p) as [|t slots|t host port todo| | |]; cbn in R.
  1,4,5,6: destruct R as (R1 & R2 & R3); exists []; rewrite <- R2, app_nil_r; split; [exact R3|exists []; rewrite app_nil_r; exact R3].
  - destruct R as (l & R1 & R2 & R3 & R4). exists []. rewrite app_nil_r, <- R3. rewrite R4, R1, records_more by exact R2. split; [reflexivity|]. exists []. apply app_nil_r.
  - destruct R as (l & g & R1 & R2 & R3 & dn & R4 & R5). rewrite R2, R3, !app_length in R1. cbn in R1.
    exists (map (fun f => (f, port)) dn). rewrite R2, R3, records_more by lia. split; [exact R5|].
    exists (map (fun f => (f, port)) todo). rewrite R5, <- app_assoc, <- map_app, <- R4. symmetry. apply records_snoc. lia.
Qed.

(* a ready packet marks the first registration of its sender *)
Definition none_before (p : nat) (l : list nat) (i : nat) : Prop := forall j, j < i -> nth_error l j <> Some p.
Definition ready_pending (l : list nat) (p m : nat) (f : name) (c : hpc) : Prop :=
  match c with
  | YNext t todo => t = m /\ In f todo
  | YScan t g i todo => t = m /\ (In f todo \/ g = f /\ none_before p l i)
  | YAdv t g i todo => t = m /\ (In f todo \/ g = f /\ none_before p l (S i))
  | _ => False
  end.
Definition marked (s : hub) (f : name) (p : nat) : Prop := exists k, first_at p (registrants f (hist s)) k /\ In (EMark f k) (hist s).
Definition ready_inv (s : hub) : Prop := forall p m sl f, nth_error (hist s) m = Some (ERecv p (PReady sl)) -> In f sl ->
  In p (registrants f (firstn m (hist s))) -> marked s f p \/ ready_pending (registrants f (hist s)) p m f (handlers s p).
Lemma registrants_app f a b : registrants f (a ++ b) = registrants f a ++ registrants f b.
Proof. unfold registrants. rewrite registrations_app. apply map_app. Qed.
Lemma firstn_app_lt {A} (h e : list A) j : j <= length h -> firstn j (h ++ e) = firstn j h.
Proof. intros H. rewrite firstn_app. replace (j - length h) with 0 by lia. rewrite app_nil_r. reflexivity. Qed.
Lemma first_app p l e k : first_at p l k -> first_at p (l ++ e) k.
Proof.
  intros [A B]. split; [apply nth_app; exact A|]. intros j Hj X. apply (B j Hj). rewrite nth_error_app1 in X; [exact X|]. apply nth_lt in A. lia.
Qed.
Lemma none_app p l e i : i <= length l -> none_before p l i -> none_before p (l ++ e) i.
Proof. intros Hi N j Hj X. apply (N j Hj). rewrite nth_error_app1 in X; [exact X|lia]. Qed.
Lemma marked_mono s s' e f p : hist s' = hist s ++ e -> marked s f p -> marked s' f p.
Proof. intros H (k & A & B). exists k. rewrite H, registrants_app, in_app_iff. split; [apply first_app; exact A|auto]. Qed.
Lemma docks_registrants s f : inv raddr s -> registrants f (hist s) = map st_peer (docks s f).
Proof. intros I. unfold registrants. rewrite <- (i_regs _ _ I f), map_map. reflexivity. Qed.
(* a step that does not receive a packet of p and leaves its handler alone *)
Lemma ready_frame s s' e p : inv raddr s -> hist s' = hist s ++ e -> length e <= 1 -> handlers s' p = handlers s p -> (forall sl, ~ In (ERecv p (PReady sl)) e) ->
  (forall m sl f, nth_error (hist s) m = Some (ERecv p (PReady sl)) -> In f sl -> In p (registrants f (firstn m (hist s))) -> marked s f p \/ ready_pending (registrants f (hist s)) p m f (handlers s p)) ->
  forall m sl f, nth_error (hist s') m = Some (ERecv p (PReady sl)) -> In f sl -> In p (registrants f (firstn m (hist s'))) -> marked s' f p \/ ready_pending (registrants f (hist s')) p m f (handlers s' p).
Proof.
  intros I H Le Hh N R m sl f Hm Hf Hp. rewrite H in Hm, Hp.
  assert (Hm' : nth_error (hist s) m = Some (ERecv p (PReady sl))).
  { destruct e as [|x [|]]; [rewrite app_nil_r in Hm; exact Hm| |cbn in Le; lia]. apply nth_snoc in Hm. destruct Hm as [Hm|[_ <-]]; [exact Hm|].
    exfalso. apply (N sl). left. reflexivity. }
  rewrite firstn_app_lt in Hp by (apply nth_lt in Hm'; lia). destruct (R _ _ _ Hm' Hf Hp) as [X|X]; [left; eapply marked_mono; eauto|right].
  rewrite Hh, H, registrants_app. pose proof (i_handler _ _ I p) as K. destruct (handlers s p) as [| | |t todo|t g i todo|t g i todo]; cbn in *; auto.
  - destruct X as [X1 [X2|[-> X2]]]; split; auto. right. split; [reflexivity|]. apply none_app; [|exact X2].
    rewrite (docks_registrants _ _ I), map_length. destruct K as (_ & _ & _ & _ & K & _). lia.
  - destruct X as [X1 [X2|[-> X2]]]; split; auto. right. split; [reflexivity|]. apply none_app; [|exact X2].
    rewrite (docks_registrants _ _ I), map_length. destruct K as (_ & _ & _ & _ & K & _). lia.
Qed.
Lemma in_prefix f p m (h : list event) : In p (registrants f (firstn m h)) -> In p (registrants f h).
Proof. intros X. rewrite <- (firstn_skipn m h), registrants_app, in_app_iff. left. exact X. Qed.
Ltac rf s e p := apply (ready_frame s _ e p); proj; rewrite ?app_nil_r, ?updp_other by congruence; auto; try (cbn; lia);
  try (let x := fresh in intros ? x; cbn in x; intuition (try discriminate; congruence)).
Lemma ready_step s l s' : inv raddr s -> ready_inv s -> hstep s l = Some s' -> ready_inv s'.
Proof.
  intros I R H q. specialize (R q). pose proof (i_handler _ _ I q) as K. destruct l as [p k|p|t|p].
  - unfold HubModel.hstep in H. destruct (halted s); [discriminate|]. destruct (handlers s p) eqn:Eh; try discriminate. cbv zeta in H.
    destruct (Nat.eq_dec q p) as [->|Nq].
    2:{ destruct k; injection H as <-; match goal with |- context [ERecv p ?x] => rf s [ERecv p x] q end. }
    assert (D : forall m sl f, nth_error (hist s) m = Some (ERecv p (PReady sl)) -> In f sl -> In p (registrants f (firstn m (hist s))) -> marked s f p).
    { intros m sl f A B C. destruct (R m sl f A B C) as [X|X]; [exact X|]. rewrite Eh in X. destruct X. }
    destruct k; injection H as <-; intros m sl f A B C; proj; apply nth_snoc in A.
    + destruct A as [A|[_ A]]; [|discriminate A]. rewrite firstn_app_lt in C by (apply nth_lt in A; lia). left. apply (marked_mono s _ [ERecv p (PRegister slots)]); eauto.
    + destruct A as [A|[-> A]].
      * rewrite firstn_app_lt in C by (apply nth_lt in A; lia). left. apply (marked_mono s _ [ERecv p (PReady slots)]); eauto.
      * injection A as ->. right. rewrite updp_same. cbn. auto.
    + destruct A as [A|[_ A]]; [|discriminate A]. rewrite firstn_app_lt in C by (apply nth_lt in A; lia). left. apply (marked_mono s _ [ERecv p (PQuery slot)]); eauto.
    + destruct A as [A|[_ A]]; [|discriminate A]. rewrite firstn_app_lt in C by (apply nth_lt in A; lia). left. apply (marked_mono s _ [ERecv p POther]); eauto.
  - unfold HubModel.hstep in H. destruct (halted s) eqn:Eha; [discriminate|]. destruct (Nat.eq_dec q p) as [->|Nq].
    2:{ destruct (handlers s p) as [|t slots|t host port [|f todo]|t [|f todo]|t f i todo|t f i todo] eqn:Eh; try discriminate.
        - destruct (allocate black (assigned s (pickIP (raddr p)))); injection H as <-; auto. rf s [EAlloc t p (pickIP (raddr p)) p0] q.
        - injection H as <-. rf s [EReply p port] q.
        - injection H as <-. rf s [EPush f p host port] q.
        - injection H as <-. rf s (@nil event) q.
        - injection H as <-. rf s (@nil event) q.
        - destruct (nth_error (docks s f) i) as [st|] eqn:En; [|discriminate]. destruct (Nat.eqb_spec (st_peer st) p) as [Ep|Ep]; injection H as <-; [rf s [EMark f i] q|rf s (@nil event) q].
        - injection H as <-. rf s (@nil event) q. }
    destruct (handlers s p) as [|t slots|t host port [|g todo]|t [|g todo]|t g i todo|t g i todo] eqn:Eh; try discriminate; cbn [ready_pending] in R.
    + assert (D : forall m sl f, nth_error (hist s) m = Some (ERecv p (PReady sl)) -> In f sl -> In p (registrants f (firstn m (hist s))) -> marked s f p) by (intros m sl f A B C; destruct (R m sl f A B C); tauto).
      destruct (allocate black (assigned s (pickIP (raddr p)))); injection H as <-; intros m sl f A B C; proj; [|left; exact (D m sl f A B C)|left; exact (D m sl f A B C)].
      apply nth_snoc in A. destruct A as [A|[_ A]]; [|discriminate A]. rewrite firstn_app_lt in C by (apply nth_lt in A; lia). left. eapply (marked_mono s); [reflexivity|eauto].
    + injection H as <-. intros m sl f A B C. proj. apply nth_snoc in A. destruct A as [A|[_ A]]; [|discriminate A]. rewrite firstn_app_lt in C by (apply nth_lt in A; lia).
      left. eapply (marked_mono s); [reflexivity|]. destruct (R m sl f A B C); tauto.
    + injection H as <-. intros m sl f A B C. proj. apply nth_snoc in A. destruct A as [A|[_ A]]; [|discriminate A]. rewrite firstn_app_lt in C by (apply nth_lt in A; lia).
      left. eapply (marked_mono s); [reflexivity|]. destruct (R m sl f A B C); tauto.
    + injection H as <-. intros m sl f A B C. proj. left. destruct (R m sl f A B C) as [X|[_ []]]. exact X.
    + injection H as <-. intros m sl f A B C. proj. destruct (R m sl f A B C) as [X|[-> [->|X]]]; [left; exact X| |].
      * right. rewrite updp_same. pose proof (in_prefix _ _ _ _ C) as Y. rewrite (docks_registrants _ _ I) in Y.
        destruct (docks s f) eqn:Ed; [destruct Y|]. cbn. split; [reflexivity|]. right. split; [reflexivity|]. intros j Hj. lia.
      * right. rewrite updp_same. destruct (docks s g); cbn; auto.
    + destruct (nth_error (docks s g) i) as [st|] eqn:En; [|discriminate]. destruct (Nat.eqb_spec (st_peer st) p) as [Ep|Ep]; injection H as <-; intros m sl f A B C; proj.
      * apply nth_snoc in A. destruct A as [A|[_ A]]; [|discriminate A]. rewrite firstn_app_lt in C by (apply nth_lt in A; lia).
        destruct (R m sl f A B C) as [X|[-> [X|[-> X]]]].
        -- left. eapply (marked_mono s); [reflexivity|exact X].
        -- right. rewrite updp_same. cbn. auto.
        -- left. exists i. proj. rewrite in_app_iff. split; [|right; left; reflexivity]. rewrite registrants_app. apply first_app. split; [|exact X].
           rewrite (docks_registrants _ _ I), <- Ep. apply map_nth_error. exact En.
      * destruct (R m sl f A B C) as [X|[-> [X|[-> X]]]]; [left; exact X|right; rewrite updp_same; cbn; auto|].
        right. rewrite updp_same. cbn. split; [reflexivity|]. right. split; [reflexivity|]. intros j Hj. destruct (Nat.eq_dec j i) as [->|Nj]; [|apply X; lia].
        rewrite (docks_registrants _ _ I). rewrite (map_nth_error st_peer _ _ En). congruence.
    + injection H as <-. intros m sl f A B C. proj. destruct (R m sl f A B C) as [X|[-> [X|[-> X]]]]; [left; exact X|right; rewrite updp_same|right; rewrite updp_same].
      * destruct (S i <? length (docks s g)); cbn; auto.
      * pose proof (in_prefix _ _ _ _ C) as Y. apply In_nth_error in Y. destruct Y as [n Y]. pose proof (nth_lt _ _ _ Y) as Z. rewrite (docks_registrants _ _ I), map_length in Z.
        destruct (Nat.ltb_spec (S i) (length (docks s f))); [cbn; auto|]. exfalso. apply (X n); [lia|exact Y].
  - unfold HubModel.hstep in H. destruct (halted s); [discriminate|]. destruct (queries s t) as [|p g|p g i|]; try discriminate.
    + injection H as <-. destruct (docks s g); rf s [ERound t] q.
    + destruct (nth_error (docks s g) i); [|discriminate]. destruct (st_ready s0); injection H as <-; [|rf s (@nil event) q].
      rf s [EAnswer t p g i (st_host s0) (st_port s0)] q.
  - unfold HubModel.hstep in H. destruct (halted s); [discriminate|]. injection H as <-. rf s [EClosed p] q.
Qed.
Lemma ready_exec ls s : exec hstep new_hub ls = Some s -> ready_inv s.
Proof.
  intros H. cut (inv raddr s /\ ready_inv s); [tauto|]. revert H. apply (exec_inv hstep (fun s => inv raddr s /\ ready_inv s)).
  - intros a l b [I R] H. split; [eapply inv_step; eauto|eapply ready_step; eauto].
  - split; [apply inv_init|]. intros p m sl f A. destruct m; discriminate A.
Qed.
Lemma ready_marks ls s d m sl f : exec hstep new_hub ls = Some s -> nth_error (hist s) m = Some (ERecv d (PReady sl)) -> In f sl ->
  In d (registrants f (firstn m (hist s))) -> handlers s d = HIdle -> exists k, first_at d (registrants f (hist s)) k /\ In (EMark f k) (hist s).
Proof. intros H A B C D. destruct (ready_exec _ _ H d m sl f A B C) as [X|X]; [exact X|]. rewrite D in X. destruct X. Qed.
(* the port handed out is the least one allowed *)
Lemma least_inv ls s : exec hstep new_hub ls = Some s -> forall a b t p host port, hist s = a ++ EAlloc t p host port :: b ->
  forall q, (20000 < q < port)%Z -> (forall x, In x (allocs host a) -> (x < q)%Z) -> In q black.
Proof.
  intros H. cut (ports black s /\ forall a b t p host port, hist s = a ++ EAlloc t p host port :: b ->
    forall q, (20000 < q < port)%Z -> (forall x, In x (allocs host a) -> (x < q)%Z) -> In q black); [tauto|].
  revert H. apply (exec_inv hstep (fun s => ports black s /\ forall a b t p host port, hist s = a ++ EAlloc t p host port :: b ->
    forall q, (20000 < q < port)%Z -> (forall x, In x (allocs host a) -> (x < q)%Z) -> In q black)).
  2:{ split; [apply ports_init|]. intros a b t p host port E. destruct a; discriminate E. }
  intros u l u' [P L] E. split; [eapply ports_step; eauto|]. intros a b t p host port Eh q Hq Hx.
  assert (G : (exists e, hist u' = hist u ++ [e] /\ forall t p host port, e = EAlloc t p host port ->
      forall q, (20000 < q < port)%Z -> (forall x, In x (allocs host (hist u)) -> (x < q)%Z) -> In q black) \/ hist u' = hist u).
  { destruct l as [p' k'|p'|t'|p'].
    - steps E; left; eexists; (split; [reflexivity|discriminate]).
    - unfold HubModel.hstep in E. destruct (halted u); [discriminate|]. destruct (handlers u p') as [|t1 slots| | | |] eqn:Eq; try discriminate.
      + destruct (allocate black (assigned u (pickIP (raddr p')))) eqn:Ea; injection E as <-; auto.
        left. eexists. split; [reflexivity|]. intros t2 p2 h2 po E2. injection E2 as <- <- <- <-. clear q Hq Hx. intros q Hq Hx.
        apply allocate_port in Ea; [|apply assigned_nonneg with black; exact P]. destruct Ea as (_ & _ & Ea). apply Ea. split; [|lia].
        destruct P as [P1 P2 P3]. unfold start_port. destruct (Z.eqb_spec (assigned u (pickIP (raddr p'))) 0); [unfold cOriginPort; lia|].
        apply Hx. rewrite P3. apply last_in. intros X. rewrite P3, X in n. cbn in n. congruence.
      + destruct todo; injection E as <-; left; eexists; (split; [reflexivity|discriminate]).
      + destruct todo; injection E as <-; right; reflexivity.
      + destruct (nth_error (docks u f) i) as [st|]; [|discriminate]. destruct (st_peer st =? p'); injection E as <-; [left; eexists; (split; [reflexivity|discriminate])|right; reflexivity].
      + injection E as <-. right. reflexivity.
    - steps E; first [right; reflexivity|left; eexists; (split; [reflexivity|discriminate])].
    - steps E; left; eexists; (split; [reflexivity|discriminate]). }
  destruct G as [(e & G & K)|G]; [|rewrite G in Eh; eauto].
  rewrite G in Eh. destruct b as [|z b'] using rev_ind.
  - apply app_inj_tail in Eh. destruct Eh as [<- ->]. eapply K; eauto.
  - clear IHb'. rewrite app_comm_cons, app_assoc in Eh. apply app_inj_tail in Eh. destruct Eh as [Eh _]. eauto.
Qed.
Lemma search_ends ls s p t slots : exec hstep new_hub ls = Some s -> halted s = false -> handlers s p = RAlloc t slots ->
  exists s', hstep s (HStep p) = Some s' /\ (halted s' = true \/ exists port, hist s' = hist s ++ [EAlloc t p (pickIP (raddr p)) port]).
Proof.
  intros H Hh Hp. unfold HubModel.hstep. rewrite Hh, Hp. pose proof (ports_exec _ _ _ _ H) as P.
  pose proof (allocate_total black _ (assigned_nonneg _ _ P (pickIP (raddr p)))) as T.
  destruct (allocate black (assigned s (pickIP (raddr p)))); [| |congruence]; eexists; (split; [reflexivity|]); [right; eexists; reflexivity|left; reflexivity].
Qed.

Lemma answers_in t h : answers t h <> [] -> exists p f k host port, In (EAnswer t p f k host port) h.
Proof.
  intros H. destruct (answers t h) as [|x l] eqn:E; [congruence|]. assert (X : In x (answers t h)) by (rewrite E; left; reflexivity).
  unfold answers in X. apply in_flat_map in X. destruct X as (e & He & X). destruct e; try destruct X. destruct (Nat.eqb_spec t0 t) as [->|]; [|destruct X]. eauto 8.
Qed.
(* a query is answered once a dock was ready, whoever left since *)
Lemma departed_served ls s p f k : exec hstep new_hub ls = Some s -> halted s = false -> handlers s p = HIdle -> In (EMark f k) (hist s) ->
  exists n s' k' d host port, exec hstep s (LRecv p (PQuery f) :: repeat (QStep (length (hist s))) n) = Some s' /\
    In (EAnswer (length (hist s)) p f k' host port) (hist s') /\ nth_error (registrations f (hist s)) k' = Some (d, host, port) /\ In (EMark f k') (hist s).
Proof.
  intros H Hh Hp Hm. set (t := length (hist s)). set (s1 := with_query t (QFetch p f) (add (ERecv p (PQuery f)) s)).
  assert (E1 : hstep s (LRecv p (PQuery f)) = Some s1) by (unfold HubModel.hstep; rewrite Hh, Hp; reflexivity).
  assert (H1 : exec hstep new_hub (ls ++ [LRecv p (PQuery f)]) = Some s1) by (rewrite exec_app, H; cbn [exec]; rewrite E1; reflexivity).
  assert (T1 : nth_error (hist s1) t = Some (ERecv p (PQuery f))) by (cbn; rewrite nth_error_app2, Nat.sub_diag by (unfold t; lia); reflexivity).
  destruct (can_finish _ _ _ _ t p f k H1 Hh T1) as (n & s' & E2 & A); [cbn; rewrite in_app_iff; left; exact Hm|].
  exists n, s'. apply answers_in in A. destruct A as (p' & f' & k' & host & port & A). apply In_nth_error in A. destruct A as [j A].
  assert (H2 : exec hstep new_hub ((ls ++ [LRecv p (PQuery f)]) ++ repeat (QStep t) n) = Some s') by (rewrite exec_app, H1; exact E2).
  destruct (qinv_exec _ _ _ _ H2) as (I & M & Q). destruct (q_answer _ _ Q _ _ _ _ _ _ _ A) as (B1 & B2 & d & r & m & sl & sl' & B3 & B4 & _).
  (* along the query's own steps only rounds and answers are logged *)
  assert (G : forall n u u', exec hstep u (repeat (QStep t) n) = Some u' -> exists e, hist u' = hist u ++ e /\ Forall (fun x => is_q x = true) e).
  { clear. induction n as [|n IH]; intros u u' E; [injection E as <-; exists []; rewrite app_nil_r; auto|]. cbn [repeat exec] in E.
    destruct (hstep u (QStep t)) as [u1|] eqn:E1; [|discriminate]. destruct (IH _ _ E) as (e & -> & F). 
    unfold HubModel.hstep in E1. destruct (halted u); [discriminate|]. destruct (queries u t) as [|q g|q g i|]; try discriminate.
    - injection E1 as <-. exists (ERound t :: e). split; [|constructor; auto]. destruct (docks u g); proj; rewrite <- app_assoc; reflexivity.
    - destruct (nth_error (docks u g) i); [|discriminate]. destruct (st_ready s0); injection E1 as <-; [|exists e; split; [reflexivity|exact F]].
      exists (EAnswer t q g i (st_host s0) (st_port s0) :: e). split; [proj; rewrite <- app_assoc; reflexivity|constructor; auto]. }
  destruct (G _ _ _ E2) as (e & Ee & Fe). cbn in Ee. rewrite <- app_assoc in Ee.
  assert (X : nth_error (hist s') t = Some (ERecv p (PQuery f))).
  { rewrite Ee. rewrite nth_error_app2, Nat.sub_diag by (unfold t; lia). reflexivity. }
  rewrite X in B2. injection B2 as <- <-.
  assert (Rg : forall l, Forall (fun x => is_q x = true) l -> registrations f l = []).
  { clear. induction 1 as [|x l Hx F IH]; [reflexivity|]. cbn. fold (registrations f l). rewrite IH. destruct x; try discriminate; reflexivity. }
  assert (Mk : forall l g i, Forall (fun x => is_q x = true) l -> ~ In (EMark g i) l).
  { clear. intros l g i F X. rewrite Forall_forall in F. specialize (F _ X). discriminate. }
  exists k', d, host, port. split; [cbn [exec]; rewrite E1; exact E2|]. split; [eapply nth_error_In; exact A|].
  assert (Sub : exists e', firstn j (hist s') = firstn j (hist s) ++ e' /\ (forall g i, ~ In (EMark g i) e') /\ registrations f e' = []).
  { rewrite Ee, firstn_app. exists (firstn (j - length (hist s)) (ERecv p (PQuery f) :: e)). split; [reflexivity|].
    assert (F1 : forall i, exists e1, firstn i (ERecv p (PQuery f) :: e) = e1 /\ (e1 = [] \/ exists e2, e1 = ERecv p (PQuery f) :: e2 /\ Forall (fun x => is_q x = true) e2)).
    { intros [|i]; [exists []; auto|]. eexists. split; [reflexivity|]. right. exists (firstn i e). split; [reflexivity|].
      rewrite <- (firstn_skipn i e), Forall_app in Fe. tauto. }
    destruct (F1 (j - length (hist s))) as (e1 & -> & [->|(e2 & -> & F2)]); [split; [intros g i []|reflexivity]|].
    split; [intros g i [Y|Y]; [discriminate|exact (Mk _ _ _ F2 Y)]|]. cbn. fold (registrations f e2). rewrite (Rg _ F2). reflexivity. }
  destruct Sub as (e' & S1 & S2 & S3). rewrite S1, registrations_app, S3, app_nil_r in B3. rewrite S1, in_app_iff in B4.
  split.
  - rewrite <- (firstn_skipn j (hist s)), registrations_app. apply nth_app. exact B3.
  - destruct B4 as [B4|B4]; [|destruct (S2 _ _ B4)]. rewrite <- (firstn_skipn j (hist s)), in_app_iff. left. exact B4.
Qed.

Lemma answer_names_ready_dock ls s : exec hstep new_hub ls = Some s ->
  forall j t p f k host port, nth_error (hist s) j = Some (EAnswer t p f k host port) ->
  t < j /\ nth_error (hist s) t = Some (ERecv p (PQuery f)) /\
  exists d r m sl sl', nth_error (registrations f (firstn j (hist s))) k = Some (d, host, port) /\
    In (EMark f k) (firstn j (hist s)) /\ r < m < j /\
    nth_error (hist s) r = Some (ERecv d (PRegister sl)) /\ In f sl /\
    nth_error (hist s) m = Some (ERecv d (PReady sl')) /\ In f sl' /\
    host = pickIP (raddr d) /\ In (EAlloc r d host port) (hist s).
Proof. intros H. destruct (qinv_exec _ _ _ _ H) as (_ & _ & Q). exact (q_answer _ _ Q). Qed.
Lemma one_answer ls s : exec hstep new_hub ls = Some s -> forall t, length (answers t (hist s)) <= 1.
Proof. intros H. destruct (qinv_exec _ _ _ _ H) as (_ & _ & Q). exact (q_once _ _ Q). Qed.
Lemma newest_ready ls s : exec hstep new_hub ls = Some s ->
  forall a b c t p f k host port, hist s = a ++ ERound t :: b ++ EAnswer t p f k host port :: c -> ~ In (ERound t) b ->
  forall k', In (EMark f k') a -> k' <= k.
Proof. intros H. destruct (qinv_exec _ _ _ _ H) as (_ & _ & Q). exact (q_new _ _ Q). Qed.
Lemma no_answer_without_mark ls s : exec hstep new_hub ls = Some s -> forall t p f, nth_error (hist s) t = Some (ERecv p (PQuery f)) ->
  (forall k, ~ In (EMark f k) (hist s)) -> answers t (hist s) = [].
Proof.
  intros H t p f Ht Hm. destruct (answers t (hist s)) eqn:E; [reflexivity|exfalso]. assert (X : answers t (hist s) <> []) by (rewrite E; discriminate).
  apply answers_in in X. destruct X as (p' & f' & k & host & port & X). apply In_nth_error in X. destruct X as [j X].
  destruct (answer_names_ready_dock _ _ H _ _ _ _ _ _ _ X) as (_ & A & d & r & m & sl & sl' & _ & B & _). rewrite Ht in A. injection A as <- <-.
  apply (Hm k). rewrite <- (firstn_skipn j (hist s)), in_app_iff. left. exact B.
Qed.
Lemma spins ls s t p f n : exec hstep new_hub ls = Some s -> halted s = false ->
  nth_error (hist s) t = Some (ERecv p (PQuery f)) -> registrations f (hist s) = [] ->
  exists s', exec hstep s (repeat (QStep t) n) = Some s' /\ answers t (hist s') = [].
Proof.
  intros H Hh Ht Hr. destruct (live_exec _ _ _ _ H) as (I & M & Q & L).
  assert (D : docks s f = []). { pose proof (i_regs _ _ I f) as X. rewrite Hr in X. destruct (docks s f); [reflexivity|discriminate X]. }
  assert (A : answers t (hist s) = []).
  { apply (no_answer_without_mark _ _ H _ _ _ Ht). intros k X. destruct (m_ready _ M _ _ X) as (st & Y & _). rewrite D in Y. destruct k; discriminate Y. }
  assert (F : exists q, queries s t = QFetch q f).
  { pose proof (asks_of _ _ _ _ _ _ _ H Ht) as B. pose proof (l_done _ L t) as C. pose proof (q_pc _ _ Q t) as P. destruct (queries s t) as [|q g|q g i|]; cbn in B; [tauto| | |].
    - subst g. eauto.
    - subst g. destruct P as (_ & P & _). rewrite D in P. cbn in P. lia.
    - exfalso. exact (C eq_refl A). }
  destruct F as [q F]. clear - Hh D A F. revert s Hh D A F. induction n as [|n IH]; intros s Hh D A F; [exists s; split; [reflexivity|exact A]|].
  destruct (IH (add (ERound t) s)) as (s' & X & Y); auto.
  - proj. rewrite answers_app, A. reflexivity.
  - exists s'. split; [|exact Y]. cbn [repeat exec]. assert (E : hstep s (QStep t) = Some (add (ERound t) s)) by (unfold HubModel.hstep; rewrite Hh, F, D; reflexivity).
    rewrite E. exact X.
Qed.
Lemma answer_has_round ls s : exec hstep new_hub ls = Some s -> forall j t p f k host port,
  nth_error (hist s) j = Some (EAnswer t p f k host port) -> In (ERound t) (firstn j (hist s)).
Proof.
  intros H. cut ((inv raddr s /\ marks s /\ qinv raddr s) /\ forall j t p f k host port, nth_error (hist s) j = Some (EAnswer t p f k host port) -> In (ERound t) (firstn j (hist s))); [tauto|].
  revert H. apply (exec_inv hstep (fun s => (inv raddr s /\ marks s /\ qinv raddr s) /\ forall j t p f k host port, nth_error (hist s) j = Some (EAnswer t p f k host port) -> In (ERound t) (firstn j (hist s)))).
  2:{ split; [apply (qinv_exec black raddr []); reflexivity|]. intros j t p f k host port X. destruct j; discriminate X. }
  intros u l u' ((I & M & Q) & R) E. split; [split; [eapply inv_step; eauto|]; split; [eapply marks_step; eauto|eapply qinv_step; eauto]|].
  intros j t p f k host port Hj.
  assert (G : (exists e, hist u' = hist u ++ [e] /\ forall t p f k host port, e = EAnswer t p f k host port -> In (ERound t) (hist u)) \/ hist u' = hist u).
  { clear j t p f k host port Hj. destruct l as [p' k'|p'|t'|p'].
    - steps E; left; eexists; (split; [reflexivity|discriminate]).
    - unfold HubModel.hstep in E. destruct (halted u); [discriminate|]. destruct (handlers u p') as [|t1 slots|t1 host port [|g todo]|t1 [|g todo]|t1 g i todo|t1 g i todo] eqn:Eq; try discriminate.
      + destruct (allocate black (assigned u (pickIP (raddr p')))) eqn:Ea; injection E as <-; auto. left. eexists. split; [reflexivity|discriminate].
      + injection E as <-. left. eexists. split; [reflexivity|discriminate].
      + injection E as <-. left. eexists. split; [reflexivity|discriminate].
      + injection E as <-. right. reflexivity.
      + injection E as <-. right. reflexivity.
      + destruct (nth_error (docks u g) i) as [st|]; [|discriminate]. destruct (st_peer st =? p'); injection E as <-; [left; eexists; (split; [reflexivity|discriminate])|right; reflexivity].
      + injection E as <-. right. reflexivity.
    - unfold HubModel.hstep in E. destruct (halted u); [discriminate|]. pose proof (q_pc _ _ Q t') as P. destruct (queries u t') as [|q g|q g i|]; try discriminate.
      + injection E as <-. left. exists (ERound t'). split; [destruct (docks u g); reflexivity|discriminate].
      + destruct (nth_error (docks u g) i) as [st|]; [|discriminate]. destruct (st_ready st); injection E as <-; [|right; reflexivity].
        left. eexists. split; [reflexivity|]. intros t p f k host port X. injection X as <- <- <- <- <- <-. destruct P as (_ & _ & a & b & -> & _). rewrite in_app_iff. right. left. reflexivity.
    - steps E; left; eexists; (split; [reflexivity|discriminate]). }
  destruct G as [(e & G & K)|G]; [|rewrite G in *; eauto]. rewrite G in *. apply nth_snoc in Hj. destruct Hj as [Hj|[-> Hj]].
  - rewrite firstn_app_lt by (apply nth_lt in Hj; lia). eauto.
  - rewrite firstn_app_lt, firstn_all by lia. eapply K. symmetry. exact Hj.
Qed.

(* marks go to first registrations only *)
Definition scan_ok (h : list event) (p : nat) (c : hpc) : Prop :=
  match c with
  | YScan _ g i _ => none_before p (registrants g h) i
  | YAdv _ g i _ => none_before p (registrants g h) (S i)
  | _ => True
  end.
Definition mark_ok (h : list event) (f : name) (k : nat) : Prop :=
  exists d m sl, first_at d (registrants f h) k /\ nth_error h m = Some (ERecv d (PReady sl)) /\ In f sl.
Record scans s : Prop := { sc_scan : forall p, scan_ok (hist s) p (handlers s p); sc_mark : forall f k, In (EMark f k) (hist s) -> mark_ok (hist s) f k }.
Lemma mark_ok_mono h e f k : mark_ok h f k -> mark_ok (h ++ e) f k.
Proof.
  intros (d & m & sl & A & B & C). exists d, m, sl. rewrite registrants_app. split; [apply first_app; exact A|]. split; [apply nth_app; exact B|exact C].
Qed.
Lemma scan_mono s p e : inv raddr s -> scan_ok (hist s) p (handlers s p) -> scan_ok (hist s ++ e) p (handlers s p).
Proof.
  intros I A. pose proof (i_handler _ _ I p) as K. destruct (handlers s p) as [| | |t todo|t g i todo|t g i todo]; cbn in *; auto; rewrite registrants_app.
  - apply none_app; [|exact A]. rewrite (docks_registrants _ _ I), map_length. destruct K as (_ & _ & _ & _ & K & _). lia.
  - apply none_app; [|exact A]. rewrite (docks_registrants _ _ I), map_length. destruct K as (_ & _ & _ & _ & K & _). lia.
Qed.
Lemma scans_frame s s' e p c : inv raddr s -> scans s -> hist s' = hist s ++ e -> handlers s' = updp (handlers s) p c -> scan_ok (hist s ++ e) p c ->
  (forall f k, In (EMark f k) e -> mark_ok (hist s) f k) -> scans s'.
Proof.
  intros I [S1 S2] H Hh Hc Hm. constructor; rewrite H, ?Hh.
  - intros q. unfold updp. destruct (Nat.eqb_spec q p) as [->|]; [exact Hc|]. apply scan_mono; auto.
  - intros f k. rewrite in_app_iff. intros [X|X]; apply mark_ok_mono; auto.
Qed.
Lemma scans_same s s' e : inv raddr s -> scans s -> hist s' = hist s ++ e -> handlers s' = handlers s -> (forall f k, ~ In (EMark f k) e) -> scans s'.
Proof.
  intros I [S1 S2] H Hh Hm. constructor; rewrite H, ?Hh.
  - intros q. apply scan_mono; auto.
  - intros f k. rewrite in_app_iff. intros [X|X]; [apply mark_ok_mono; auto|destruct (Hm _ _ X)].
Qed.
Ltac nomark := let x := fresh in intros ? ? x; cbn in x; intuition (try discriminate).
Lemma scans_step s l s' : inv raddr s -> scans s -> hstep s l = Some s' -> scans s'.
Proof.
  intros I S H. pose proof S as [S1 S2]. destruct l as [p k|p|t|p].
  - unfold HubModel.hstep in H. destruct (halted s); [discriminate|]. destruct (handlers s p) eqn:Eh; try discriminate. cbv zeta in H.
    destruct k; injection H as <-.
    + apply (scans_frame s _ [ERecv p (PRegister slots)] p (RAlloc (length (hist s)) slots)); auto; [exact Logic.I|nomark].
    + apply (scans_frame s _ [ERecv p (PReady slots)] p (YNext (length (hist s)) slots)); auto; [exact Logic.I|nomark].
    + apply (scans_same s _ [ERecv p (PQuery slot)]); auto. nomark.
    + apply (scans_same s _ [ERecv p POther]); auto. nomark.
  - unfold HubModel.hstep in H. destruct (halted s); [discriminate|]. pose proof (S1 p) as Sp. pose proof (i_handler _ _ I p) as K.
    destruct (handlers s p) as [|t slots|t host port [|g todo]|t [|g todo]|t g i todo|t g i todo] eqn:Eh; try discriminate; cbn [scan_ok handler_ok] in Sp, K.
    + destruct (allocate black (assigned s (pickIP (raddr p)))); injection H as <-; auto.
      * eapply (scans_frame s _ [EAlloc t p (pickIP (raddr p)) p0]); eauto; try reflexivity; try exact Logic.I; try solve [nomark].
      * apply (scans_same s _ []); auto; proj; try (rewrite app_nil_r; reflexivity); try solve [nomark].
    + injection H as <-. eapply (scans_frame s _ [EReply p port]); eauto; try reflexivity; try exact Logic.I; try solve [nomark].
    + injection H as <-. eapply (scans_frame s _ [EPush g p host port]); eauto; try reflexivity; try exact Logic.I; try solve [nomark].
    + injection H as <-. eapply (scans_frame s _ []); eauto; try reflexivity; proj; rewrite ?app_nil_r; try reflexivity; try exact Logic.I; try solve [nomark].
    + injection H as <-. eapply (scans_frame s _ []); eauto; try reflexivity; proj; rewrite ?app_nil_r; try reflexivity; try solve [nomark].
      destruct (docks s g); [exact Logic.I|]. intros j Hj. lia.
    + destruct (nth_error (docks s g) i) as [st|] eqn:En; [|discriminate]. 
      assert (Ni : nth_error (registrants g (hist s)) i = Some (st_peer st)) by (rewrite (docks_registrants _ _ I); apply map_nth_error; exact En).
      destruct (Nat.eqb_spec (st_peer st) p) as [Ep|Ep]; injection H as <-.
      * eapply (scans_frame s _ [EMark g i]); eauto; try reflexivity; try exact Logic.I. intros f k [X|[]]. injection X as <- <-.
        destruct K as (sl & K1 & K2 & K3 & _). exists p, t, sl. split; [|auto]. split; [congruence|exact Sp].
      * eapply (scans_frame s _ []); eauto; try reflexivity; proj; rewrite ?app_nil_r; try reflexivity; try solve [nomark].
        intros j Hj. destruct (Nat.eq_dec j i) as [->|]; [congruence|]. apply Sp. lia.
    + injection H as <-. eapply (scans_frame s _ []); eauto; try reflexivity; proj; rewrite ?app_nil_r; try reflexivity; try solve [nomark].
      destruct (Datatypes.S i <? length (docks s g)); [exact Sp|exact Logic.I].
  - unfold HubModel.hstep in H. destruct (halted s); [discriminate|]. destruct (queries s t) as [|p g|p g i|]; try discriminate.
    + injection H as <-. destruct (docks s g); (eapply (scans_same s _ [ERound t]); auto; nomark).
    + destruct (nth_error (docks s g) i); [|discriminate]. destruct (st_ready s0); injection H as <-.
      * apply (scans_same s _ [EAnswer t p g i (st_host s0) (st_port s0)]); auto. nomark.
      * apply (scans_same s _ []); auto; proj; try (rewrite app_nil_r; reflexivity); try solve [nomark].
  - unfold HubModel.hstep in H. destruct (halted s); [discriminate|]. injection H as <-. eapply (scans_same s _ [EClosed p]); auto; nomark.
Qed.
Lemma marks_first_only ls s f k : exec hstep new_hub ls = Some s -> In (EMark f k) (hist s) ->
  exists d m sl, first_at d (registrants f (hist s)) k /\ nth_error (hist s) m = Some (ERecv d (PReady sl)) /\ In f sl.
Proof.
  intros H. cut (inv raddr s /\ scans s); [intros [_ S]; apply (sc_mark _ S)|]. revert H. apply (exec_inv hstep (fun s => inv raddr s /\ scans s)).
  - intros a l b [I R] H. split; [eapply inv_step; eauto|eapply scans_step; eauto].
  - split; [apply inv_init|]. constructor; cbn; tauto.
Qed.

Lemma exits_without_port ls s p t slots : exec hstep new_hub ls = Some s -> halted s = false -> handlers s p = RAlloc t slots ->
  (forall q, (20000 < q <= 49000)%Z -> In q black \/ exists a, In a (allocs (pickIP (raddr p)) (hist s)) /\ (q <= a)%Z) ->
  exists s', hstep s (HStep p) = Some s' /\ halted s' = true /\ hist s' = hist s.
Proof.
  intros H Hh Hp Hx. pose proof (ports_exec _ _ _ _ H) as P. unfold HubModel.hstep. rewrite Hh, Hp. set (h := pickIP (raddr p)) in *.
  pose proof (assigned_nonneg _ _ P h) as N. pose proof (allocate_total black _ N) as T. pose proof (all_below _ _ h P) as B. pose proof (start_low _ _ h P) as L.
  destruct (allocate black (assigned s h)) as [q| |] eqn:E; [|eexists; split; [reflexivity|split; reflexivity]|congruence]. exfalso.
  apply allocate_port in E; [|exact N]. destruct E as (E1 & E2 & E3). destruct (Hx q) as [X|(a & X & Y)]; [unfold cOriginPort, cMaxPortRange in *; lia|contradiction|].
  rewrite Forall_forall in B. specialize (B _ X). lia.
Qed.
End Proof.
