(* Invariants of a system with its features: who asks what of a feature. *)
From Verif Require Import Lts GoVal Tables DockModel DockSpec DockProof DockProof2 DockProof7 SysModel SysSpec SysProof SysProof2 SysProof4 FullModel FullSpec FullProof FullProof2.
From Verif Require ChanModel ChanSpec ChanProof ChanProof2 ChanProof4 HubModel.
From Coq Require Import Arith Bool List ZArith Lia.
Import ListNotations.
Open Scope nat_scope.

Section Full.
Context {O V : Type}.
Variables (carried : nat -> list (name * bool)) (link : nat -> nat -> wend) (hublink : nat -> option (nat * nat)).
Variables (carry : nat -> nat -> list V -> option (list V)) (black : list Z) (raddr : nat -> name) (hostport : name -> Z -> name).
Variable code : name -> nat.
Variable T : nat -> name -> ChanModel.target O V.
Variable o0 : nat -> name -> O.
Hypothesis W : wired link hublink.
Notation sstep := (sstep link hublink carry black raddr hostport).
Notation fstep := (fstep link hublink carry black raddr hostport code T).
Notation finit := (finit carried o0).
Notation full := (FullModel.full O V).
Implicit Types s : full.
Notation srv s i := (servers (sd (fs s) i)).

Definition exec_outcome s i k res err : Prop := exists sv o a rest, nth_error (srv s i) k = Some sv /\
  ChanModel.responses (feat s i (q_slot (s_req sv))) (server_id k) = (o, a) :: rest /\ (res, err) = outcome (q_method (s_req sv)) a.

(* the step of dock i inside a step *)
Lemma dock_part s l s' i : fstep s l = Some s' ->
  (sd (fs s') i = sd (fs s) i /\ (forall k, l <> FReturn i k) /\ (forall f m a w, l <> FLocal i f m a w)) \/
  exists dl, dstep (sd (fs s) i) dl = Some (sd (fs s') i) /\
    match dl with
    | SExec k res err => l = FReturn i k /\ exec_outcome s i k res err
    | LCall f m args w _ => (aget (slots (sd (fs s) i)) f = None /\ exists x, l = FSys x) \/ l = FLocal i f m args w
    | _ => exists x, l = FSys x
    end.
Proof.
  intros H. destruct (fstep_inv _ _ _ _ _ _ _ _ _ _ _ H) as (Fs & _ & _ & _ & _ & G).
  destruct l as [l|i0 k|i0 k|i0 f m args w|i0 n|i0 f l]; cbn [sys_label] in Fs; try (left; cbn in Fs; rewrite Fs; repeat split; intros; discriminate).
  - cbn [optstep] in Fs. destruct (sys_dock _ _ _ _ _ _ _ _ _ i Fs) as [->|(dl & E & [[ps ->]|(p & k & -> & ->)])]; [left; repeat split; intros; discriminate|right..].
    + exists dl. split; auto. unfold allowed in G. destruct dl; try (eexists; reflexivity).
      * destruct (aget (slots (sd (fs s) i)) f); [discriminate|]. eauto.
      * discriminate.
    + exists (LRecv p k). eauto.
  - destruct G as (_ & G1 & G2). cbn [sys_label] in G2. destruct (nth_error (srv s i0) k) as [sv|] eqn:Ek; [|congruence].
    destruct (ChanModel.responses (feat s i0 (q_slot (s_req sv))) (server_id k)) as [|[o a] rest] eqn:Er; [congruence|]. cbn [optstep SysModel.sstep] in Fs.
    destruct (dock_moves link carry _ _ _ _ _ Fs) as (d & es & E & _ & -> & _). unfold updp. destruct (Nat.eqb_spec i i0) as [->|N].
    + right. eexists. split; [exact E|]. cbn. split; auto. exists sv, o, a, rest. repeat split; auto. destruct (outcome _ a); reflexivity.
    + left. repeat split; intros; congruence.
  - cbn [optstep SysModel.sstep] in Fs. destruct (dock_moves link carry _ _ _ _ _ Fs) as (d & es & E & _ & -> & _). unfold updp. destruct (Nat.eqb_spec i i0) as [->|N].
    + right. eexists. split; [exact E|]. cbn. auto.
    + left. repeat split; intros; congruence.
Qed.
Lemma servers_keep s l s' i k sv : fstep s l = Some s' -> nth_error (srv s i) k = Some sv ->
  exists sv', nth_error (srv s' i) k = Some sv' /\ s_req sv' = s_req sv /\ (s_pc sv <> SRun -> s_pc sv' <> SRun) /\ (s_pc sv' = SRun -> l <> FReturn i k) /\ (s_pc sv' <> SRun -> s_pc sv = SRun -> l = FReturn i k).
Proof.
  intros H Ek. destruct (dock_part _ _ _ i H) as [(-> & N & _)|(dl & E & G)].
  - exists sv. repeat split; auto. intros; congruence.
  - destruct (dock_evolves _ _ _ E) as (A & _ & _). destruct (A _ _ Ek) as (sv' & Ek' & R & P & Q & Z). exists sv'. repeat split; auto.
    + intros X ->. specialize (Q X). destruct dl; try (destruct G as [x G]; discriminate G).
      * destruct G as [[_ [x G]]|G]; discriminate G.
      * destruct G as [G _]. injection G as <-. eapply Q; reflexivity.
    + intros X Y. destruct (Z X Y) as (res & err & ->). destruct G as [-> _]. reflexivity.
Qed.
Lemma servers_fresh s l s' i k sv' : fstep s l = Some s' -> nth_error (srv s i) k = None -> nth_error (srv s' i) k = Some sv' -> s_pc sv' = SRun.
Proof.
  intros H Ek Ek'. destruct (dock_part _ _ _ i H) as [(E & N & _)|(dl & E & G)]; [rewrite E in Ek'; congruence|].
  destruct (dock_evolves _ _ _ E) as (_ & A & _). eauto.
Qed.
Lemma ran_step s l s' i k res err : fstep s l = Some s' -> In (ERan k res err) (hist (sd (fs s') i)) ->
  In (ERan k res err) (hist (sd (fs s) i)) \/ (l = FReturn i k /\ exec_outcome s i k res err).
Proof.
  intros H R. destruct (dock_part _ _ _ i H) as [(E & N & _)|(dl & E & G)]; [rewrite E in R; auto|].
  destruct (dock_evolves _ _ _ E) as (_ & _ & es & He & Hr & _). rewrite He in R. apply in_app_iff in R as [R|R]; auto. apply Hr in R. subst dl. auto.
Qed.
Lemma local_step s l s' i : fstep s l = Some s' -> local_calls (hist (sd (fs s') i)) =
  local_calls (hist (sd (fs s) i)) ++ match l with FLocal i' f m args _ => if i =? i' then [(f, m, args)] else [] | _ => [] end.
Proof.
  intros H. destruct (fstep_inv _ _ _ _ _ _ _ _ _ _ _ H) as (_ & _ & _ & _ & _ & G0). destruct (dock_part _ _ _ i H) as [(-> & _ & N)|(dl & E & G)].
  - destruct l; try (now rewrite app_nil_r). destruct (Nat.eqb_spec i i0) as [<-|]; [|now rewrite app_nil_r]. exfalso. eapply N. reflexivity.
  - destruct (dock_evolves _ _ _ E) as (_ & _ & es & He & _ & Hl). rewrite He, local_app. f_equal. rewrite Hl. clear - G G0.
    destruct dl; try (destruct G as [x ->]; reflexivity).
    + destruct G as [[-> [x ->]]| ->]; auto. cbn in G0. destruct (aget (slots (sd (fs s) i)) f); [|congruence]. now rewrite Nat.eqb_refl.
    + destruct G as [-> _]. reflexivity.
Qed.

Definition asks_ok s : Prop := forall i f r g c m args, In (ChanModel.EIssue r g c m args) (deeds s i f) -> c = g /\
  ((exists k sv, g = server_id k /\ begun s i k = true /\ nth_error (srv s i) k = Some sv /\ q_slot (s_req sv) = f /\ m = code (q_method (s_req sv)) /\ args = q_args (s_req sv)) \/
   (exists n x, g = local_id n /\ nth_error (locals s i) n = Some x /\ l_feature x = f /\ m = code (l_method x) /\ args = l_args x)).
Definition once_ok s : Prop := forall i f r g c m args r' c' m' args', In (ChanModel.EIssue r g c m args) (deeds s i f) -> In (ChanModel.EIssue r' g c' m' args') (deeds s i f) -> r = r'.
Definition begun_ok s : Prop := forall i k, begun s i k = true -> exists sv, nth_error (srv s i) k = Some sv /\
  (s_pc sv = SRun -> ChanModel.gor (feat s i (q_slot (s_req sv))) (server_id k) <> ChanModel.GIdle) /\
  (s_pc sv <> SRun -> ChanModel.gor (feat s i (q_slot (s_req sv))) (server_id k) = ChanModel.GIdle) /\
  exists r, issued code s i (q_slot (s_req sv)) (q_method (s_req sv)) (server_id k) (q_args (s_req sv)) r.
Definition fresh_ok s : Prop := forall i k sv, begun s i k = false -> nth_error (srv s i) k = Some sv -> s_pc sv = SRun.
Definition ran_ok s : Prop := forall i k res err, In (ERan k res err) (hist (sd (fs s) i)) -> exists sv r o a, nth_error (srv s i) k = Some sv /\
  In (ChanModel.EReturn (server_id k) r o a) (deeds s i (q_slot (s_req sv))) /\ (res, err) = outcome (q_method (s_req sv)) a.
Definition locals_ok s : Prop := forall i, local_calls (hist (sd (fs s) i)) = map (fun x => (l_feature x, l_method x, l_args x)) (locals s i).
Definition dead_ok s : Prop := forall i f, dead s i = false -> ChanModel.crashed (feat s i f) = false.
Definition placed_ok s : Prop := forall i n x, nth_error (locals s i) n = Some x -> (exists r, issued code s i (l_feature x) (l_method x) (local_id n) (l_args x) r) /\
  (ChanModel.gor (feat s i (l_feature x)) (local_id n) <> ChanModel.GIdle \/ exists r o a, In (ChanModel.EReturn (local_id n) r o a) (deeds s i (l_feature x))).

Lemma server_inj a b : server_id a = server_id b -> a = b. Proof. unfold server_id. lia. Qed.
Lemma local_inj a b : local_id a = local_id b -> a = b. Proof. unfold local_id. lia. Qed.
Lemma server_local a b : server_id a <> local_id b. Proof. unfold server_id, local_id. lia. Qed.
Lemma deeds_grow s l s' i f : fstep s l = Some s' -> exists es, deeds s' i f = deeds s i f ++ es /\
  forall r g c m a, In (ChanModel.EIssue r g c m a) es -> chan_label code s l i f = Some (ChanModel.LCall g c m a).
Proof.
  intros H. destruct (fstep_inv _ _ _ _ _ _ _ _ _ _ _ H) as (_ & Fc & _). specialize (Fc i f). unfold deeds.
  destruct (chan_label code s l i f) as [cl|]; cbn in Fc.
  - destruct (chan_grows _ _ _ _ Fc) as (es & He & P). exists es. split; auto. intros r g c m a X. destruct (P _ _ _ _ _ X) as [-> _]. reflexivity.
  - rewrite Fc. exists []. rewrite app_nil_r. split; auto. intros ? ? ? ? ? [].
Qed.
(* where a call of a callee comes from *)
Lemma chan_call s l i f g c m a : match l with FFeat _ _ l => inside l = true | _ => True end -> chan_label code s l i f = Some (ChanModel.LCall g c m a) -> c = g /\
  ((exists k sv, l = FBegin i k /\ nth_error (srv s i) k = Some sv /\ g = server_id k /\ q_slot (s_req sv) = f /\ m = code (q_method (s_req sv)) /\ a = q_args (s_req sv)) \/
   (exists m' w, l = FLocal i f m' a w /\ g = local_id (length (locals s i)) /\ m = code m')).
Proof.
  intros G H. destruct l as [l|i0 k|i0 k|i0 f0 m0 args w|i0 n|i0 f0 l]; cbn in H; try discriminate.
  - destruct (nth_error (srv s i0) k) as [sv|] eqn:Ek; [|discriminate]. destruct (Nat.eqb_spec i i0) as [<-|]; cbn in H; [|discriminate].
    destruct (zlist_eqb f (q_slot (s_req sv))) eqn:Z; [|discriminate]. apply zlist_eqb_eq in Z. injection H as <- <- <- <-. split; auto. left. exists k, sv. auto 10.
  - destruct (nth_error (srv s i0) k) as [sv|] eqn:Ek; [|discriminate]. destruct (_ && _); discriminate.
  - destruct (Nat.eqb_spec i i0) as [<-|]; cbn in H; [|discriminate]. destruct (zlist_eqb f f0) eqn:Z; [|discriminate]. apply zlist_eqb_eq in Z. subst f0.
    injection H as <- <- <- <-. split; auto. right. eauto.
  - destruct (nth_error (locals s i0) n); [|discriminate]. destruct (_ && _); discriminate.
  - destruct (_ && _); [|discriminate]. injection H as ->. discriminate.
Qed.

Record inv s : Prop := mkInv { v_asks : asks_ok s; v_once : once_ok s; v_begun : begun_ok s; v_fresh : fresh_ok s; v_ran : ran_ok s; v_locals : locals_ok s; v_dead : dead_ok s; v_placed : placed_ok s }.

Lemma waiting_caller i f s g r : (exists ls', exec (ChanModel.cstep (T i f)) (ChanModel.new_chan (o0 i f)) ls' = Some (feat s i f) /\ matched ls') ->
  ChanModel.gor (feat s i f) g = ChanModel.GWaiting r -> ChanModel.rq_caller (ChanModel.reqs (feat s i f) r) = g.
Proof.
  intros (ls' & E & M) Gw. destruct (ChanProof2.own_exec _ _ _ _ E (matched_discipline _ _ _ _ E M)) as [_ Tr]. specialize (Tr g).
  unfold ChanProof2.active in Tr. rewrite Gw in Tr. symmetry. symmetry. eapply matched_calling; eauto.
Qed.
Lemma chan_receive s l i f g : match l with FFeat _ _ l => inside l = true | _ => True end -> chan_label code s l i f = Some (ChanModel.LReceive g) ->
  (exists k, l = FReturn i k /\ g = server_id k) \/ (exists n, l = FLocalReturn i n /\ g = local_id n).
Proof.
  intros G H. destruct l as [l|i0 k|i0 k|i0 f0 m0 args w|i0 n|i0 f0 l]; cbn in H; try discriminate.
  - destruct (nth_error (srv s i0) k) as [sv|] eqn:Ek; [|discriminate]. destruct (_ && _); discriminate.
  - destruct (nth_error (srv s i0) k) as [sv|] eqn:Ek; [|discriminate]. destruct (Nat.eqb_spec i i0) as [<-|]; cbn in H; [|discriminate]. destruct (zlist_eqb _ _); [|discriminate]. injection H as <-. eauto.
  - destruct (_ && _); discriminate.
  - destruct (nth_error (locals s i0) n); [|discriminate]. destruct (Nat.eqb_spec i i0) as [<-|]; cbn in H; [|discriminate]. destruct (zlist_eqb _ _); [|discriminate]. injection H as <-. eauto.
  - destruct (_ && _); [|discriminate]. injection H as ->. discriminate.
Qed.
Lemma busy_stays U (c : ChanModel.chan O V) l c' g : ChanModel.cstep U c l = Some c' -> l <> ChanModel.LReceive g -> ChanModel.gor c g <> ChanModel.GIdle -> ChanModel.gor c' g <> ChanModel.GIdle.
Proof.
  intros H N B. destruct l; try (rewrite (gor_kept _ _ _ _ g H); auto; intros; discriminate).
  destruct (Nat.eq_dec g g0) as [->|Ng].
  - destruct (call_effect _ _ _ _ _ _ _ H) as [_ E]. rewrite E, Nat.eqb_refl. discriminate.
  - rewrite (gor_kept _ _ _ _ g H); auto. intros; congruence.
Qed.

Lemma inv_step s l s' : 
  (forall i f, exists ls', exec (ChanModel.cstep (T i f)) (ChanModel.new_chan (o0 i f)) ls' = Some (feat s i f) /\ matched ls') ->
  inv s -> fstep s l = Some s' -> inv s'.
Proof.
  intros Rm [A1 A2 A3 A4 A5 A6 A7 A8] H. destruct (fstep_inv _ _ _ _ _ _ _ _ _ _ _ H) as (Fs & Fc & Fb & Fl & Fd & G).
  assert (G' : match l with FFeat _ _ l => inside l = true | _ => True end) by (destruct l; auto).
  assert (Keep : forall i f e, In e (deeds s i f) -> In e (deeds s' i f)).
  { intros i f e X. destruct (deeds_grow _ _ _ i f H) as (es & -> & _). apply in_or_app; auto. }
  assert (New : forall i f g c m a, chan_label code s l i f = Some (ChanModel.LCall g c m a) -> exists r, In (ChanModel.EIssue r g c m a) (deeds s' i f)).
  { intros i f g c m a X. specialize (Fc i f). rewrite X in Fc. cbn in Fc. destruct (call_effect _ _ _ _ _ _ _ Fc) as [E _]. unfold deeds. rewrite E. eexists. apply in_or_app. right. now left. }
  split.
  - (* asks *) intros i f r g c m args X. destruct (deeds_grow _ _ _ i f H) as (es & He & P). rewrite He in X. apply in_app_iff in X as [X|X].
    + destruct (A1 _ _ _ _ _ _ _ X) as [-> [(k & sv & -> & B & Ek & R)|(n & x & -> & En & R)]]; split; auto; [left|right].
      * destruct (servers_keep _ _ _ _ _ _ H Ek) as (sv2 & Ek2 & Rq & _). exists k, sv2. rewrite Fb, B, Rq. auto.
      * exists n, x. rewrite Fl, nth_error_app1 by (apply nth_error_Some; congruence). auto.
    + apply P in X. destruct (chan_call _ _ _ _ _ _ _ _ G' X) as [-> [(k & sv & -> & Ek & -> & R)|(m' & w & -> & -> & ->)]]; split; auto; [left|right].
      * destruct (servers_keep _ _ _ _ _ _ H Ek) as (sv2 & Ek2 & Rq & _). exists k, sv2. rewrite Fb, !Nat.eqb_refl, orb_true_r, Rq. auto.
      * exists (length (locals s i)), (mkLocal f m' args). rewrite Fl, Nat.eqb_refl, nth_error_app2, Nat.sub_diag by lia. auto.
  - (* once *) intros i f r g c m args r' c' m' args' X Y. specialize (Fc i f). destruct (chan_label code s l i f) as [cl|] eqn:El; cbn in Fc.
    2: { unfold deeds in X, Y. rewrite Fc in X, Y. eapply A2; [exact X|exact Y]. }
    destruct (chan_grows _ _ _ _ Fc) as (es & He & P). unfold deeds in X, Y. rewrite He in X, Y.
    assert (No : forall r0 r1 c0 m0 a0 c1 m1 a1, In (ChanModel.EIssue r0 g c0 m0 a0) (ChanModel.hist (feat s i f)) -> In (ChanModel.EIssue r1 g c1 m1 a1) es -> False).
    { intros r0 r1 c0 m0 a0 c1 m1 a1 X0 X1. destruct (P _ _ _ _ _ X1) as (-> & _ & _).
      destruct (chan_call _ _ _ _ _ _ _ _ G' El) as [_ [(k & sv & -> & Ek & -> & _)|(m2 & w & -> & -> & _)]]; destruct (A1 _ _ _ _ _ _ _ X0) as [_ [(k2 & sv2 & E2 & B2 & _)|(n2 & x2 & E2 & N2 & _)]].
      - apply server_inj in E2 as <-. destruct G as [G _]. congruence.
      - now apply server_local in E2.
      - symmetry in E2. now apply server_local in E2.
      - apply local_inj in E2 as <-. assert (length (locals s i) < length (locals s i)) by (apply nth_error_Some; congruence). lia. }
    apply in_app_iff in X as [X|X]; apply in_app_iff in Y as [Y|Y]; [eapply A2; [exact X|exact Y]| | |].
    + exfalso. eapply No; eauto.
    + exfalso. eapply No; eauto.
    + destruct (P _ _ _ _ _ X) as (_ & -> & _). destruct (P _ _ _ _ _ Y) as (_ & -> & _). reflexivity.
  - (* begun *) intros i k B. rewrite Fb in B.
    assert (Old : begun s i k = true -> exists sv, nth_error (srv s' i) k = Some sv /\ (s_pc sv = SRun -> ChanModel.gor (feat s' i (q_slot (s_req sv))) (server_id k) <> ChanModel.GIdle) /\
       (s_pc sv <> SRun -> ChanModel.gor (feat s' i (q_slot (s_req sv))) (server_id k) = ChanModel.GIdle) /\ exists r, issued code s' i (q_slot (s_req sv)) (q_method (s_req sv)) (server_id k) (q_args (s_req sv)) r).
    { intros B0. destruct (A3 _ _ B0) as (sv & Ek & Gr & Gi & r & Is). destruct (servers_keep _ _ _ _ _ _ H Ek) as (sv2 & Ek2 & Rq & P1 & P2 & P3). exists sv2. split; auto. rewrite Rq. split; [|split].
      - intros X. assert (s_pc sv = SRun) as Y by (destruct (s_pc sv); auto; exfalso; apply P1; auto; discriminate). specialize (Gr Y). specialize (P2 X).
        specialize (Fc i (q_slot (s_req sv))). destruct (chan_label code s l i (q_slot (s_req sv))) as [cl|] eqn:El; cbn in Fc; [|now rewrite Fc].
        eapply busy_stays; eauto. intros ->. destruct (chan_receive _ _ _ _ _ G' El) as [(k2 & -> & E2)|(n2 & -> & E2)]; [apply server_inj in E2 as <-; auto|now apply server_local in E2].
      - intros X. specialize (Fc i (q_slot (s_req sv))). destruct (s_pc sv) eqn:Y.
        2,3: assert (Gk : ChanModel.gor (feat s i (q_slot (s_req sv))) (server_id k) = ChanModel.GIdle) by (apply Gi; discriminate).
        2,3: destruct (chan_label code s l i (q_slot (s_req sv))) as [cl|] eqn:El; cbn [optstep] in Fc; [|now rewrite Fc].
        2,3: rewrite (gor_kept _ _ _ _ (server_id k) Fc); auto.
        2,4: intros c m a ->; destruct (chan_call _ _ _ _ _ _ _ _ G' El) as [_ [(k2 & sv3 & -> & _ & E2 & _)|(m2 & w & -> & E2 & _)]]; [apply server_inj in E2 as <-; destruct G; congruence|now apply server_local in E2].
        2,3: intros ->; unfold ChanModel.cstep in Fc; destruct (ChanModel.crashed _); [discriminate|]; rewrite Gk in Fc; discriminate.
        assert (l = FReturn i k) as -> by (apply P3; auto). cbn [chan_label] in Fc. rewrite Ek, Nat.eqb_refl, zlist_refl in Fc. cbn [andb optstep] in Fc.
        destruct (receive_effect _ _ _ _ Fc) as (r' & o' & a' & _ & _ & _ & E). rewrite E, Nat.eqb_refl. reflexivity.
      - exists r. apply Keep, Is. }
    destruct (begun s i k) eqn:B0; [apply Old; reflexivity|]. cbn in B. destruct l; try discriminate. apply andb_prop in B as [B1 B2]. apply Nat.eqb_eq in B1, B2. subst i0 k0.
    destruct (nth_error (srv s i) k) as [sv|] eqn:Ek; [|destruct G; congruence]. destruct (servers_keep _ _ _ _ _ _ H Ek) as (sv2 & Ek2 & Rq & _). exists sv2. split; auto. rewrite Rq.
    assert (El : chan_label code s (FBegin i k) i (q_slot (s_req sv)) = Some (ChanModel.LCall (server_id k) (server_id k) (code (q_method (s_req sv))) (q_args (s_req sv)))) by (cbn; rewrite Ek, Nat.eqb_refl, zlist_refl; reflexivity).
    split; [|split; [|apply (New _ _ _ _ _ _ El)]].
    + intros _. specialize (Fc i (q_slot (s_req sv))). rewrite El in Fc. cbn [optstep] in Fc. destruct (call_effect _ _ _ _ _ _ _ Fc) as [_ E]. rewrite E, Nat.eqb_refl. discriminate.
    + intros X. specialize (A4 _ _ _ B0 Ek). destruct (servers_keep _ _ _ _ _ _ H Ek) as (sv3 & Ek3 & _ & _ & _ & P3). rewrite Ek2 in Ek3. injection Ek3 as <-. specialize (P3 X A4). discriminate.
  - (* fresh *) intros i k sv' B Ek'. rewrite Fb in B. apply orb_false_elim in B as [B _]. destruct (nth_error (srv s i) k) as [sv|] eqn:Ek; [|eapply servers_fresh; eauto].
    specialize (A4 _ _ _ B Ek). destruct (servers_keep _ _ _ _ _ _ H Ek) as (sv2 & Ek2 & _ & _ & _ & P). rewrite Ek2 in Ek'. injection Ek' as ->.
    destruct (s_pc sv') eqn:Ep; auto; exfalso; (assert (l = FReturn i k) as -> by (apply P; auto; discriminate)); destruct G as [G _]; congruence.
  - (* ran *) intros i k res err X. destruct (ran_step _ _ _ _ _ _ _ H X) as [Y|(-> & sv & o & a & rest & Ek & Er & Eo)].
    + destruct (A5 _ _ _ _ Y) as (sv & r & o & a & Ek & R & E). destruct (servers_keep _ _ _ _ _ _ H Ek) as (sv2 & Ek2 & Rq & _). exists sv2, r, o, a. rewrite Rq. auto.
    + destruct (servers_keep _ _ _ _ _ _ H Ek) as (sv2 & Ek2 & Rq & _). exists sv2.
      specialize (Fc i (q_slot (s_req sv))). cbn [chan_label] in Fc. rewrite Ek, Nat.eqb_refl, zlist_refl in Fc. cbn [andb optstep] in Fc.
      destruct (receive_effect _ _ _ _ Fc) as (r & o' & a' & Gw & Er' & Eh & _). rewrite (waiting_caller _ _ _ _ _ (Rm i (q_slot (s_req sv))) Gw), Er in Er'. injection Er' as <- <-.
      exists r, o, a. rewrite Rq. repeat split; auto. unfold deeds. rewrite Eh. apply in_or_app. right. now left.
  - (* locals *) intros i. rewrite (local_step _ _ _ _ H), A6, Fl, map_app. f_equal. destruct l; auto. destruct (i =? i0); reflexivity.
  - (* dead *) intros i f D. destruct (Fd _ D) as [D1 D2]. apply D2, A7, D1.
  - (* placed *) intros i n x X. rewrite Fl in X. destruct (Nat.lt_ge_cases n (length (locals s i))) as [L|L].
    + rewrite nth_error_app1 in X by auto. destruct (A8 _ _ _ X) as [[r R] Q]. split; [exists r; apply Keep, R|].
      destruct Q as [Q|(r' & o & a & Q)]; [|right; eauto 10]. specialize (Fc i (l_feature x)).
      destruct (chan_label code s l i (l_feature x)) as [cl|] eqn:El; cbn in Fc; [|left; now rewrite Fc].
      assert (D : cl = ChanModel.LReceive (local_id n) \/ cl <> ChanModel.LReceive (local_id n)).
      { destruct cl; try (right; discriminate). destruct (Nat.eq_dec g (local_id n)) as [->|]; auto. right. congruence. }
      destruct D as [->|D]; [|left; eapply busy_stays; eauto]. right. destruct (receive_effect _ _ _ _ Fc) as (r' & o' & a' & _ & _ & Eh & _).
      exists r', o', a'. unfold deeds. rewrite Eh. apply in_or_app. right. now left.
    + rewrite nth_error_app2 in X by auto. destruct l; try (destruct (n - length (locals s i)); discriminate).
      destruct (Nat.eqb_spec i i0) as [<-|]; [|destruct (n - length (locals s i)); discriminate].
      destruct (n - length (locals s i)) as [|[|?]] eqn:En; cbn in X; try discriminate. injection X as <-. cbn [l_feature l_method l_args].
      assert (n = length (locals s i)) as -> by lia.
      assert (El : chan_label code s (FLocal i f m args w) i f = Some (ChanModel.LCall (local_id (length (locals s i))) (local_id (length (locals s i))) (code m) args)) by (cbn [chan_label]; now rewrite Nat.eqb_refl, zlist_refl).
      split; [apply New, El|]. left. specialize (Fc i f). rewrite El in Fc. cbn [optstep] in Fc. destruct (call_effect _ _ _ _ _ _ _ Fc) as [_ E]. rewrite E, Nat.eqb_refl. discriminate.
Qed.
Lemma inv_init : inv finit.
Proof.
  split; red; cbn; intros; try discriminate; try contradiction; try (destruct k; discriminate); auto. destruct n; discriminate.
Qed.
Lemma inv_exec ls s : exec fstep finit ls = Some s -> inv s.
Proof.
  revert s. induction ls as [|l ls IH] using rev_ind; intros s H; [injection H as <-; apply inv_init|].
  apply exec_split in H as (m & H1 & H2). cbn in H2. destruct (fstep m l) as [s2|] eqn:E; [|discriminate]. injection H2 as <-.
  eapply inv_step; eauto. intros i f. eapply chan_runs; eauto.
Qed.
End Full.
