(* Lemmas for the hub. *)
From Verif Require Import Lts GoVal Tables HubModel HubSpec.
From Coq Require Import Arith Bool List ZArith Sorted FinFun.
Import ListNotations.
Open Scope nat_scope.

Ltac proj := cbn [docks assigned handlers queries halted hist add with_handler with_query with_docks with_assigned
  st_host st_port st_peer st_ready st_reg st_mark] in *.
Ltac steps H :=
  unfold hstep in H;
  repeat match type of H with
    | (let _ := _ in _) = _ => cbv zeta in H
    | context [match ?x with _ => _ end] => let E := fresh "E" in destruct x eqn:E; try discriminate H
    end;
  try (injection H as <-); proj.

(* --- ports (C31) --- *)
Open Scope Z_scope.
Definition start_port (a : Z) : Z := if a =? 0 then cOriginPort else a.
Lemma next_port_spec black : forall fuel a p, 0 <= a -> next_port black fuel a = Some p ->
  start_port a < p /\ ~ In p black /\ forall q, start_port a < q < p -> In q black.
Proof.
  induction fuel as [|fuel IH]; intros a p Ha H; [discriminate|]. cbn in H. fold (start_port a) in H.
  assert (X : 0 <= start_port a) by (unfold start_port, cOriginPort; destruct (_ =? _); lia).
  destruct (existsb (Z.eqb (start_port a + 1)) black) eqn:E.
  - apply IH in H; [|lia]. assert (Y : start_port (start_port a + 1) = start_port a + 1).
    { unfold start_port at 1. destruct (Z.eqb_spec (start_port a + 1) 0); lia. }
    rewrite Y in H. destruct H as (A & B & C). split; [lia|]. split; [exact B|]. intros q Hq.
    destruct (Z.eq_dec q (start_port a + 1)) as [->|]; [|apply C; lia].
    apply existsb_exists in E. destruct E as (x & Hx & Ex). apply Z.eqb_eq in Ex. congruence.
  - injection H as <-. split; [lia|]. split; [|lia]. intros Hin.
    assert (existsb (Z.eqb (start_port a + 1)) black = true) by (apply existsb_exists; eexists; split; [exact Hin|apply Z.eqb_refl]). congruence.
Qed.
(* out of fuel means fuel consecutive black ports *)
Lemma next_port_none black : forall fuel a, 0 <= a -> next_port black fuel a = None ->
  forall q, start_port a < q <= start_port a + Z.of_nat fuel -> In q black.
Proof.
  induction fuel as [|fuel IH]; intros a Ha H q Hq; [lia|]. cbn in H. fold (start_port a) in H.
  assert (X : 0 <= start_port a) by (unfold start_port, cOriginPort; destruct (_ =? _); lia).
  destruct (existsb (Z.eqb (start_port a + 1)) black) eqn:E; [|discriminate].
  assert (Y : start_port (start_port a + 1) = start_port a + 1).
  { unfold start_port at 1. destruct (Z.eqb_spec (start_port a + 1) 0); lia. }
  destruct (Z.eq_dec q (start_port a + 1)) as [->|].
  - apply existsb_exists in E. destruct E as (x & Hx & Ex). apply Z.eqb_eq in Ex. congruence.
  - apply (IH (start_port a + 1)); [lia|exact H|rewrite Y; lia].
Qed.
Lemma consecutive_length black : forall n a, (forall q, a < q <= a + Z.of_nat n -> In q black) -> (n <= length black)%nat.
Proof.
  intros n a H. set (l := map (fun k => a + 1 + Z.of_nat k) (seq 0 n)).
  assert (N : NoDup l). { apply FinFun.Injective_map_NoDup; [intros x y E; lia|apply seq_NoDup]. }
  assert (I : incl l black).
  { intros q Hq. apply in_map_iff in Hq. destruct Hq as (k & <- & Hk). apply in_seq in Hk. apply H. lia. }
  pose proof (NoDup_incl_length N I) as L. unfold l in L. rewrite map_length, seq_length in L. exact L.
Qed.
Lemma allocate_total black a : 0 <= a -> allocate black a <> Loops.
Proof.
  intros Ha H. unfold allocate in H. destruct (next_port black (S (length black)) a) eqn:E; [destruct (_ <? _); discriminate|].
  pose proof (next_port_none black _ a Ha E) as X. apply consecutive_length in X. lia.
Qed.
Lemma allocate_port black a p : 0 <= a -> allocate black a = Port p ->
  start_port a < p <= cMaxPortRange /\ ~ In p black /\ forall q, start_port a < q < p -> In q black.
Proof.
  intros Ha H. unfold allocate in H. destruct (next_port black (S (length black)) a) eqn:E; [|discriminate].
  destruct (Z.ltb_spec cMaxPortRange z); [discriminate|]. injection H as <-. apply next_port_spec in E; [|exact Ha].
  split; [lia|tauto].
Qed.
Lemma allocate_none black a : 0 <= a -> allocate black a = NoPort -> forall q, start_port a < q <= cMaxPortRange -> In q black.
Proof.
  intros Ha H q Hq. unfold allocate in H. destruct (next_port black (S (length black)) a) eqn:E; [|discriminate].
  destruct (Z.ltb_spec cMaxPortRange z); [|discriminate]. apply next_port_spec in E; [|exact Ha]. apply E. lia.
Qed.

(* pickIP (C35) *)
Lemma pickIP_prefix host rest : ~ In 58 host -> pickIP (host ++ 58 :: rest) = host.
Proof.
  unfold pickIP. intros H. induction host as [|c host IH]; [reflexivity|]. cbn.
  destruct (Z.eqb_spec c 58) as [->|]; [exfalso; apply H; left; reflexivity|].
  assert (X : ~ In 58 host) by (intros Y; apply H; right; exact Y). specialize (IH X).
  destruct (split_colon (host ++ 58 :: rest)); [subst; reflexivity|subst; reflexivity].
Qed.
Lemma pickIP_plain host : ~ In 58 host -> pickIP host = host.
Proof.
  unfold pickIP. intros H. induction host as [|c host IH]; [reflexivity|]. cbn.
  destruct (Z.eqb_spec c 58) as [->|]; [exfalso; apply H; left; reflexivity|].
  assert (X : ~ In 58 host) by (intros Y; apply H; right; exact Y). specialize (IH X).
  destruct (split_colon host); [subst; reflexivity|subst; reflexivity].
Qed.
Lemma pickIP_no_colon addr : ~ In 58 (pickIP addr).
Proof.
  unfold pickIP. induction addr as [|c r IH]; cbn; [tauto|].
  destruct (Z.eqb_spec c 58); [tauto|]. destruct (split_colon r); cbn in *; intuition congruence.
Qed.
Lemma pickIP_colon host rest : In 58 host -> pickIP (host ++ rest) <> host.
Proof. intros H E. apply (pickIP_no_colon (host ++ rest)). rewrite E. exact H. Qed.
Open Scope nat_scope.

Section Proof.
Variables (black : list Z) (raddr : nat -> name).
Notation hstep := (hstep black raddr).

Lemma allocs_app h a b : allocs h (a ++ b) = allocs h a ++ allocs h b.
Proof. apply flat_map_app. Qed.
Lemma registrations_app f a b : registrations f (a ++ b) = registrations f a ++ registrations f b.
Proof. apply flat_map_app. Qed.
Lemma answers_app t a b : answers t (a ++ b) = answers t a ++ answers t b.
Proof. apply flat_map_app. Qed.

Record ports s : Prop := {
  po_range : forall h q, In q (allocs h (hist s)) -> (cOriginPort < q <= cMaxPortRange)%Z /\ ~ In q black;
  po_sorted : forall h, StronglySorted Z.lt (allocs h (hist s));
  po_last : forall h, assigned s h = last (allocs h (hist s)) 0%Z }.

Lemma sorted_snoc l x : StronglySorted Z.lt l -> Forall (fun y => (y < x)%Z) l -> StronglySorted Z.lt (l ++ [x]).
Proof.
  induction 1 as [|a l S IH F]; cbn; intros H; [repeat constructor|]. inversion H; subst.
  constructor; [auto|]. apply Forall_app. split; [exact F|repeat constructor; assumption].
Qed.
Lemma last_max l : StronglySorted Z.lt l -> l <> [] -> Forall (fun y => (y <= last l 0)%Z) l.
Proof.
  induction 1 as [|a l S IH F]; intros N; [congruence|]. destruct l as [|b l]; [repeat constructor; cbn; lia|].
  specialize (IH ltac:(discriminate)). change (last (a :: b :: l) 0%Z) with (last (b :: l) 0%Z). constructor; [|exact IH].
  inversion F; inversion IH; subst. lia.
Qed.
Lemma last_in {A} (l : list A) d : l <> [] -> In (last l d) l.
Proof. induction l as [|a l IH]; [congruence|]. intros _. destruct l; [left; reflexivity|right; apply IH; discriminate]. Qed.
Lemma assigned_nonneg s : ports s -> forall h, (0 <= assigned s h)%Z.
Proof.
  intros [P1 P2 P3] h. rewrite P3. destruct (allocs h (hist s)) eqn:E; [cbn; lia|].
  assert (X : allocs h (hist s) <> []) by (rewrite E; discriminate).
  pose proof (P1 h _ (last_in _ 0%Z X)) as Y. unfold cOriginPort in Y. rewrite E in Y. lia.
Qed.
Lemma all_below s h : ports s -> Forall (fun y => (y <= start_port (assigned s h))%Z) (allocs h (hist s)).
Proof.
  intros [P1 P2 P3]. destruct (allocs h (hist s)) eqn:E; [constructor|]. rewrite <- E.
  assert (X : allocs h (hist s) <> []) by (rewrite E; discriminate). pose proof (last_max _ (P2 h) X) as L.
  pose proof (P1 h _ (last_in _ 0%Z X)) as Y. rewrite <- P3 in *. unfold start_port. unfold cOriginPort in *.
  destruct (Z.eqb_spec (assigned s h) 0); [lia|exact L].
Qed.
Lemma start_low s h : ports s -> (cOriginPort <= start_port (assigned s h))%Z.
Proof.
  intros [P1 P2 P3]. unfold start_port. destruct (Z.eqb_spec (assigned s h) 0); [lia|].
  destruct (allocs h (hist s)) eqn:E; [rewrite P3, E in n; cbn in n; congruence|].
  assert (X : allocs h (hist s) <> []) by (rewrite E; discriminate).
  rewrite P3. pose proof (P1 h _ (last_in _ 0%Z X)). lia.
Qed.
Lemma ports_frame s s' : (forall h, allocs h (hist s') = allocs h (hist s)) -> (forall h, assigned s' h = assigned s h) -> ports s -> ports s'.
Proof. intros A B [P1 P2 P3]. constructor; intros h; rewrite ?A, ?B; eauto. Qed.
Lemma ports_step s l s' : ports s -> hstep s l = Some s' -> ports s'.
Proof.
  intros P H. destruct l.
  - steps H; apply (ports_frame s); proj; auto; intros; rewrite allocs_app; cbn; apply app_nil_r.
  - unfold HubModel.hstep in H. destruct (halted s); [discriminate|]. destruct (handlers s p) as [|t slots| | | |] eqn:Eh; try discriminate.
    + destruct (allocate black (assigned s (pickIP (raddr p)))) eqn:Ea; injection H as <-; auto.
      * apply allocate_port in Ea; [|apply assigned_nonneg; exact P]. destruct Ea as (A1 & A2 & A3).
        pose proof (all_below s (pickIP (raddr p)) P) as B. pose proof (start_low s (pickIP (raddr p)) P) as C.
        destruct P as [P1 P2 P3].
        constructor; intros h; proj; rewrite ?allocs_app; cbn [allocs flat_map].
        -- intros q. rewrite in_app_iff. intros [Q|Q]; [apply (P1 h q Q)|]. destruct (zlist_eqb (pickIP (raddr p)) h); [|destruct Q].
           destruct Q as [<-|[]]. split; [lia|exact A2].
        -- destruct (zlist_eqb (pickIP (raddr p)) h) eqn:Ex; [|rewrite app_nil_r; auto]. apply zlist_eqb_eq in Ex. subst h.
           cbn. apply sorted_snoc; [auto|]. eapply Forall_impl; [|exact B]. cbn. intros; lia.
        -- destruct (updn_case (assigned s) (pickIP (raddr p)) p0 h) as [[-> ->]|[N ->]].
           ++ rewrite zlist_refl. cbn. rewrite last_last. reflexivity.
           ++ destruct (zlist_eqb (pickIP (raddr p)) h) eqn:Ex; [apply zlist_eqb_eq in Ex; congruence|]. cbn. rewrite app_nil_r. apply P3.
      * apply (ports_frame s); auto.
    + steps H; apply (ports_frame s); proj; auto; intros; rewrite allocs_app; cbn; apply app_nil_r.
    + steps H; apply (ports_frame s); proj; auto.
    + steps H; apply (ports_frame s); proj; auto; intros; rewrite allocs_app; cbn; apply app_nil_r.
    + steps H; apply (ports_frame s); proj; auto.
  - steps H; apply (ports_frame s); proj; auto; intros; rewrite allocs_app; cbn; apply app_nil_r.
  - steps H; apply (ports_frame s); proj; auto; intros; rewrite allocs_app; cbn; apply app_nil_r.
Qed.
Lemma ports_init : ports new_hub.
Proof. constructor; cbn; intros; [tauto|constructor|reflexivity]. Qed.
Lemma ports_exec ls s : exec hstep new_hub ls = Some s -> ports s.
Proof. apply exec_inv; [apply ports_step|apply ports_init]. Qed.

Lemma ports_increase ls s host : exec hstep new_hub ls = Some s -> StronglySorted Z.lt (allocs host (hist s)).
Proof. intros H. apply (ports_exec _ _ H). Qed.
Lemma ports_range ls s host q : exec hstep new_hub ls = Some s -> In q (allocs host (hist s)) -> (20000 < q <= 49000)%Z /\ ~ In q black.
Proof. intros H. apply (ports_exec _ _ H). Qed.
Lemma halts_only_without_port ls s s' p : exec hstep new_hub ls = Some s -> hstep s (HStep p) = Some s' -> halted s' = true ->
  forall q, (20000 < q <= 49000)%Z -> (forall a, In a (allocs (pickIP (raddr p)) (hist s)) -> (a < q)%Z) -> In q black.
Proof.
  intros H E Hh q Hq Ha. pose proof (ports_exec _ _ H) as P.
  steps E; try (rewrite Hh in *; discriminate); try discriminate.
  apply (allocate_none black (assigned s (pickIP (raddr p)))); [apply assigned_nonneg; exact P|assumption|].
  split; [|exact (proj2 Hq)]. destruct P as [P1 P2 P3]. unfold start_port. destruct (Z.eqb_spec (assigned s (pickIP (raddr p))) 0); [unfold cOriginPort; lia|].
  apply Ha. rewrite P3. apply last_in. intros X. rewrite P3, X in n. cbn in n. congruence.
Qed.
End Proof.
