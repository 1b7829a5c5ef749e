(* C76: the run of packets behind an endless run, and that bytes under way arrive in it. *)
From Verif Require Import Lts GoInt GoVal Tables CodecSpec ProtoModel ProtoSpec ProtoProof RecvProof CallProof SysCodec DockModel DockSpec DockProof DockProof2 SysModel SysSpec SysProof.
From Verif Require Import WorldModel WorldSpec WorldProof LiveSpec ByteModel ByteSpec ByteProof ByteProof2 ByteProof3 FleetModel FleetSpec FleetProof FleetProof2 FleetLiveSpec FleetLiveProof FleetLiveProof2 FleetLiveProof3.
From Verif Require CallSpec HubModel ConnModel.
From Coq Require Import Arith Bool List ZArith Lia.
Import ListNotations.
Open Scope nat_scope.

Lemma marshal_some w p f : marshal w (pack p) = SOk f -> f <> [].
Proof. intros M. destruct (marshal_shape w _ _ M) as [body ->]. rewrite frame_header. discriminate. Qed.

Section Run.
Variables (carried : nat -> list (name * bool)) (black : list Z) (raddr : nat -> name) (wz : option nat -> wsize).
Variables (R : nat -> fleet) (FL : nat -> option flab).
Hypothesis En : fendless carried black raddr wz R FL.
Hypothesis Fa : ffair black raddr wz R FL.
Hypothesis Un : fundisturbed R.
Hypothesis Lg : flegitimate wz R.
Notation fstep := (fstep black raddr wz).
Notation fsim := (fsim wz whole).
Notation wstep := (wstep (fun _ _ : nat => whole) black raddr).
Notation run ls w := (exec wstep (winit carried) ls = Some w).

Lemma Wh l x : through l = Some x -> whole l = Some x.
Proof. unfold whole. intros ->. reflexivity. Qed.
Lemma step_at n l : FL n = Some l -> fstep (R n) l = Some (R (S n)).
Proof. intros H. pose proof (fe_step _ _ _ _ _ _ En n) as X. rewrite H in X. exact X. Qed.
Lemma still_at n : FL n = None -> R (S n) = R n.
Proof. intros H. pose proof (fe_step _ _ _ _ _ _ En n) as X. rewrite H in X. exact X. Qed.
Lemma num n : numbered (outline (R n)).
Proof.
  induction n as [|n IH]; [rewrite (fe_start _ _ _ _ _ _ En); apply (finit_numbered carried raddr)|].
  destruct (FL n) as [l|] eqn:E; [|rewrite (still_at _ E); exact IH]. apply (fstep_extends carried black raddr wz _ _ _ IH (step_at _ _ E)).
Qed.
Lemma ext n m : n <= m -> extends (fends (R m)) (fends (R n)).
Proof.
  induction 1 as [|m Hm IH]; [apply extends_refl|]. destruct (FL m) as [l|] eqn:E; [|rewrite (still_at _ E); exact IH].
  destruct (fstep_extends carried black raddr wz _ _ _ (num m) (step_at _ _ E)) as (_ & X & _). intros i p Z. rewrite X by (rewrite IH; auto). apply IH, Z.
Qed.
Lemma across_later n m e e' : n <= m -> across (R n) e = Some e' -> across (R m) e = Some e'.
Proof. intros H. apply other_more, ext, H. Qed.

(* the run of packets *)
Definition wlab_at n : option (wlab gval) := match FL n with Some l => hd_error (above wz (R n) l) | None => None end.
Fixpoint wrun n : world gval := match n with 0 => winit carried | S k => match wlab_at k with Some l => match wstep (wrun k) l with Some w => w | None => wrun k end | None => wrun k end end.
Lemma above_one n l : length (above wz n l) <= 1.
Proof.
  destruct l as [| |k| | | | |]; cbn; auto. destruct k; cbn; auto. rewrite map_length. unfold took. destruct (unmarshal _ _); cbn; auto. destruct e; cbn; auto. destruct (dock_packet _); cbn; auto.
Qed.
Lemma both n : (exists ls, run ls (wrun n)) /\ fsim (R n) (wrun n) /\ match wlab_at n with Some l => wstep (wrun n) l = Some (wrun (S n)) | None => wrun (S n) = wrun n end.
Proof.
  assert (St : forall n, (exists ls, run ls (wrun n)) -> fsim (R n) (wrun n) ->
    match wlab_at n with Some l => wstep (wrun n) l = Some (wrun (S n)) | None => wrun (S n) = wrun n end /\ (exists ls, run ls (wrun (S n))) /\ fsim (R (S n)) (wrun (S n))).
  { clear n. intros n [ls Rn] F. unfold wlab_at. cbn [wrun]. unfold wlab_at. destruct (FL n) as [l|] eqn:E.
    - destruct (fstep_sim carried black raddr wz whole Wh ls (R n) (wrun n) l (R (S n)) Rn F (step_at _ _ E) (Lg (S n))) as (ls' & w' & X & F' & _ & _ & _ & A).
      assert (Ab := A (proj1 (proj2 (Un n)))). pose proof (above_one (R n) l) as Le. rewrite <- Ab in *. destruct ls' as [|x [|y ls']]; cbn [hd_error length] in *; [|clear Le|lia].
      + injection X as <-. split; [reflexivity|]. split; [eauto|exact F'].
      + cbn [exec] in X. destruct (wstep (wrun n) x) as [w1|] eqn:Y; [|discriminate]. injection X as <-. split; [exact eq_refl|]. split; [|exact F'].
        exists (ls ++ [x]). rewrite exec_app, Rn. cbn [exec]. rewrite Y. reflexivity.
    - rewrite (still_at _ E). split; [reflexivity|]. split; [eauto|exact F]. }
  induction n as [|n IH].
  - assert (A : exists ls, run ls (wrun 0)) by (exists []; reflexivity).
    assert (B : fsim (R 0) (wrun 0)) by (rewrite (fe_start _ _ _ _ _ _ En); apply fsim_init).
    split; [exact A|]. split; [exact B|]. apply (St 0 A B).
  - destruct IH as (A & B & _). destruct (St n A B) as (_ & A' & B'). split; [exact A'|]. split; [exact B'|]. apply (St (S n) A' B').
Qed.
Lemma sim_at n : fsim (R n) (wrun n). Proof. apply both. Qed.
Lemma inv_at n : winv (wrun n).
Proof. destruct (both n) as ([ls X] & _). apply (run_sys _ _ _ _ _ _ X). Qed.
Lemma wired_at n : wired (fends (R n)) hub_end.
Proof. rewrite (fs_ends _ _ _ _ (sim_at n)). apply (wi_wired _ (inv_at n)). Qed.
Lemma gone_at n o : gone (fb (R n)) o = false. Proof. apply (Un n). Qed.
Lemma alive_at n i : state (bd (fb (R n)) i) = Alive. Proof. apply (h_alive _ (proj2 (proj2 (Un n))) i). Qed.
Lemma hub_at n : HubModel.halted (bh (fb (R n))) = false. Proof. apply (h_hub _ (proj2 (proj2 (Un n)))). Qed.

(* a goroutine that does not wait goes on *)
Lemma wait T (P G : nat -> Prop) : (forall m, P m -> P (S m) \/ G m) -> (forall m, P m -> fresting black raddr wz T (R m) -> G m) ->
  (forall m l, P m -> FL m = Some l -> of_ftask T l -> G m) -> forall n, P n -> exists m, n <= m /\ G m.
Proof.
  intros St Re Ta n Pn. destruct (Fa T n) as (m & Le & H).
  assert (X : forall k, (exists m, n <= m /\ G m) \/ P (n + k)).
  { induction k as [|k [IH|IH]]; [right; now rewrite Nat.add_0_r|now left|]. rewrite Nat.add_succ_r. destruct (St _ IH) as [Y|Y]; [now right|]. left. exists (n + k). split; [lia|exact Y]. }
  destruct (X (m - n)) as [Y|Y]; [exact Y|]. replace (n + (m - n)) with m in Y by lia. exists m. split; [exact Le|]. destruct H as [H|(l & H & O)]; [now apply Re|now apply (Ta m l)].
Qed.

(* connections made are accepted *)
Lemma there_step n l n' e : numbered (outline n) -> fstep n l = Some n' -> there n e = true -> there n' e = true.
Proof.
  intros N H. destruct e as [i p|h]; auto. cbn [there]. intros T.
  destruct (fstep_extends carried black raddr wz _ _ _ N H) as (_ & X & _). assert (Np : fends n i p <> Nowhere) by (intros Y; rewrite Y in T; discriminate).
  rewrite X by exact Np. assert (T' : existsb (Nat.eqb p) (fbacklog n i) = false) by (destruct (fends n i p); [congruence|..]; now apply negb_true_iff).
  assert (Z : existsb (Nat.eqb p) (fbacklog n' i) = false); [|rewrite Z; destruct (fends n i p); [congruence|reflexivity..]].
  assert (Fon : forall w1 o, fon w1 o = Some n' -> fbacklog n' = backlog w1) by (intros w1 [b'|] Y; [|discriminate]; injection Y as <-; reflexivity).
  assert (Same : forall w1 o, fon w1 o = Some n' -> backlog w1 = fbacklog n -> existsb (Nat.eqb p) (fbacklog n' i) = false) by (intros w1 o Y1 Y2; rewrite (Fon _ _ Y1), Y2; exact T').
  destruct l as [j l|l|l|j ok|j q ok|j q k m|j q|j q]; cbn [FleetModel.fstep] in H.
  - destruct l; try discriminate H; eapply Same; try exact H; reflexivity.
  - eapply Same; try exact H; reflexivity.
  - destruct (site l); [|discriminate]. destruct (there n e); [|discriminate]. eapply Same; try exact H; reflexivity.
  - eapply Same; try exact H; reflexivity.
  - destruct (handlers _ q); try discriminate. destruct (_ && _); [discriminate|]. eapply Same; try exact H. destruct ok; reflexivity.
  - destruct (handlers _ q); try discriminate. destruct (_ && _); [|discriminate]. rewrite (Fon _ _ H). cbn [join backlog]. pose proof (N i p Np) as Lt. cbn in Lt |- *.
    destruct (Nat.eq_dec i k) as [<-|Ne]; [|now rewrite updp_other]. rewrite updp_same, existsb_app, T'. cbn. rewrite orb_false_r. apply Nat.eqb_neq.
    destruct (Nat.eq_dec i j) as [<-|Nj]; [rewrite updp_same; lia|rewrite updp_other by auto; lia].
  - destruct (handlers _ q); try discriminate. eapply Same; try exact H; reflexivity.
  - destruct (existsb (Nat.eqb q) (fbacklog n j)); [|discriminate]. rewrite (Fon _ _ H). cbn.
    destruct (Nat.eq_dec i j) as [<-|Ne]; [|now rewrite updp_other]. rewrite updp_same. destruct (existsb (Nat.eqb p) (filter _ _)) eqn:Y; auto.
    apply existsb_exists in Y as (x & Y1 & Y2). apply filter_In in Y1 as [Y1 _]. assert (existsb (Nat.eqb p) (fbacklog n i) = true) by (apply existsb_exists; eauto). congruence.
Qed.
Lemma there_stays n m e : n <= m -> there (R n) e = true -> there (R m) e = true.
Proof. induction 1 as [|m Hm IH]; auto. intros T. destruct (FL m) as [l|] eqn:E; [|rewrite (still_at _ E); auto]. eapply there_step; [apply num|apply step_at, E|auto]. Qed.
Lemma there_later n e : across (R n) e <> None -> exists m, n <= m /\ there (R m) e = true.
Proof.
  intros A. destruct e as [i p|h]; [|exists n; auto].
  assert (Np : fends (R n) i p <> Nowhere) by (intros X; apply A; unfold across; cbn; now rewrite X).
  assert (Th : forall m, n <= m -> existsb (Nat.eqb p) (fbacklog (R m) i) = false -> there (R m) (DockEnd i p) = true).
  { intros m Le X. cbn. rewrite (ext n m Le) by exact Np. rewrite X. destruct (fends (R n) i p); [congruence|reflexivity..]. }
  destruct (Fa (FtAccept i p) n) as (m & Le & [H|(l & H & ->)]).
  - exists m. split; [exact Le|]. apply Th; [exact Le|]. apply (accept_rests black raddr wz _ _ _ _ (sim_at m) (alive_at m i) (gone_at m _)). apply H. reflexivity.
  - exists (S m). split; [lia|]. apply Th; [lia|]. apply step_at in H. cbn [FleetModel.fstep] in H. destruct (existsb (Nat.eqb p) (fbacklog (R m) i)); [|discriminate].
    destruct (bstep _ _ _ _ _ _ _ _); [|discriminate]. injection H as <-. cbn. rewrite updp_same. destruct (existsb _ _) eqn:Y; auto.
    apply existsb_exists in Y as (x & Y1 & Y2). apply filter_In in Y1 as [_ Y1]. apply Nat.eqb_eq in Y2 as ->. rewrite Nat.eqb_refl in Y1. discriminate.
Qed.

(* ---- one direction of a connection ---- *)
Section Channel.
Variables (n0 : nat) (e e' : endp).
Hypothesis O0 : across (R n0) e = Some e'.
Lemma acr m : n0 <= m -> across (R m) e = Some e'.
Proof. intros H. exact (across_later _ _ _ _ H O0). Qed.
Lemma acr' m : n0 <= m -> across (R m) e' = Some e.
Proof. intros H. exact (other_sym _ _ (wired_at m) _ _ (acr m H)). Qed.
Lemma send_at m : n0 <= m -> ended (out (fb (R m)) e') = false.
Proof. intros H. apply (proj2 (proj1 (Un m))). rewrite (acr' m H). discriminate. Qed.
Lemma read_at m : n0 <= m -> reading (inb (fb (R m)) e) = true.
Proof. intros H. apply (proj2 (proj1 (Un m))). rewrite (acr m H). discriminate. Qed.
Notation under m := (under wz e e' (fb (R m))).
Notation stream m := (stream e e' (fb (R m))).
Notation buf m := (buffer (inb (fb (R m)) e)).
Notation framed := (framed (wz (proc e')) (wz (proc e))).
Definition avail m : bool := there (R m) e && free e (fb (R m)).
(* the receive routine is not ready to receive, or takes a message *)
Definition caught m : Prop := avail m = false \/ FL m = Some (FRoutine (BTake e)).

Lemma under_at m : n0 <= m -> exists K, under m K /\ onwire (ws (wrun m)) e = flat_map (seen whole e) K.
Proof.
  intros H. destruct (sim_at m) as [M Ee _ _ _ _]. pose proof (acr m H) as O. unfold across in O. rewrite Ee in O.
  destruct (m_flow _ _ _ _ _ _ M e e' O) as (K & C & _ & W). exists K. split; [exact C|]. apply W, (Un m).
Qed.
Lemma take_dec m : FL m = Some (FRoutine (BTake e)) \/ FL m <> Some (FRoutine (BTake e)).
Proof.
  destruct (FL m) as [[| |[]| | | | |]|]; try (right; discriminate). destruct (end_eqb_spec e0 e) as [->|N]; [now left|right; congruence].
Qed.
Lemma send_dec m : FL m = Some (FRoutine (BPop e')) \/ FL m = Some (FRoutine (BWrite e')) \/ (FL m <> Some (FRoutine (BPop e')) /\ FL m <> Some (FRoutine (BWrite e'))).
Proof.
  destruct (FL m) as [[| |[]| | | | |]|]; try (right; right; split; discriminate);
    (destruct (end_eqb_spec e0 e') as [->|N]; [auto|right; right; split; congruence]).
Qed.
Lemma flows_at m : n0 <= m -> FL m <> Some (FRoutine (BTake e)) -> flows e e' (fb (R m)) (fb (R (S m))).
Proof.
  intros H N. destruct (FL m) as [l|] eqn:E; [|rewrite (still_at _ E); apply flows_refl].
  apply (fleet_flows black raddr wz _ _ _ _ _ (step_at _ _ E) (wired_at m) (acr m H)). congruence.
Qed.
Lemma more_at m : n0 <= m -> FL m <> Some (FRoutine (BTake e)) -> more wz e e' (fb (R m)) (fb (R (S m))).
Proof.
  intros H N. destruct (FL m) as [l|] eqn:E; [|rewrite (still_at _ E); apply more_refl].
  apply (fleet_more black raddr wz _ _ _ _ _ (step_at _ _ E) (wired_at m) (acr m H)); [|congruence].
  apply (legits_less wz (fends (R m)) (fends (R (S m)))); [apply ext; lia|exact (Lg (S m))].
Qed.
Lemma keeps_at m : n0 <= m -> FL m <> Some (FRoutine (BPop e')) -> FL m <> Some (FRoutine (BWrite e')) ->
  holding (out (fb (R (S m))) e') = holding (out (fb (R m)) e') /\ exists q, queue (out (fb (R (S m))) e') = queue (out (fb (R m)) e') ++ q.
Proof.
  intros H N1 N2. destruct (FL m) as [l|] eqn:E; [|rewrite (still_at _ E); split; [auto|exists []; now rewrite app_nil_r]].
  apply (fleet_keeps black raddr wz _ _ _ _ _ (step_at _ _ E) (acr m H)); [apply send_at; lia|congruence..].
Qed.
Lemma routine_at m k x : FL m = Some (FRoutine k) -> site k = Some x -> there (R m) x = true /\ bstep (fends (R m)) hub_end black raddr hostport wz (fb (R m)) k = Some (fb (R (S m))).
Proof.
  intros H S. apply step_at in H. cbn [FleetModel.fstep] in H. rewrite S in H. destruct (there (R m) x); [|discriminate]. split; auto.
  destruct (bstep _ _ _ _ _ _ _ k); [|discriminate]. injection H as <-. reflexivity.
Qed.
(* a frame that has left *)
Lemma frame_caught p f : framed p f -> forall k m, n0 <= m -> (exists s, stream m = f ++ s) -> length f - length (buf m) <= k -> exists m', m <= m' /\ caught m'.
Proof.
  intros Fp. destruct (framed_spec _ _ _ _ Fp) as (Sf & Nf & Sp & _).
  assert (Sl : forall m s, stream m = f ++ s -> (exists t, buf m = f ++ t) \/ (length (buf m) < length f /\ slice (wz (proc e)) (buf m) = 0%Z /\ exists z t, flight (out (fb (R m)) e') = z :: t)).
  { intros m s E. unfold FleetLiveProof2.stream in E. destruct (Nat.le_gt_cases (length f) (length (buf m))) as [Le|Gt].
    - left. exists (skipn (length f) (buf m)). rewrite <- (firstn_skipn (length f) (buf m)) at 1. f_equal.
      apply (f_equal (firstn (length f))) in E. rewrite !firstn_app, Nat.sub_diag, firstn_O, app_nil_r, firstn_all in E. replace (length f - length (buf m)) with 0 in E by lia.
      now rewrite firstn_O, app_nil_r in E.
    - right. split; [exact Gt|]. assert (X : f = buf m ++ skipn (length (buf m)) f).
      { rewrite <- (firstn_skipn (length (buf m)) f) at 1. f_equal. apply (f_equal (firstn (length (buf m)))) in E. rewrite !firstn_app, Nat.sub_diag, firstn_O, app_nil_r, firstn_all in E.
        replace (length (buf m) - length f) with 0 in E by lia. now rewrite firstn_O, app_nil_r in E. }
      split; [apply (Sp _ _ X); intros Y; apply (f_equal (@length Z)) in Y; rewrite skipn_length in Y; cbn in Y; lia|].
      destruct (flight (out (fb (R m)) e')) as [|z t] eqn:Ef; [|eauto]. exfalso. rewrite app_nil_r in E. apply (f_equal (@length Z)) in E. rewrite app_length in E. lia. }
  induction k as [k IH] using lt_wf_ind. intros m Hm Hs Hk.
  set (P := fun m => n0 <= m /\ (exists s, stream m = f ++ s) /\ length f - length (buf m) <= k).
  set (G := fun m => caught m \/ exists k', k' < k /\ (exists s, stream (S m) = f ++ s) /\ length f - length (buf (S m)) <= k').
  destruct (wait (FtReceive e) P G) with (n := m) as (m1 & Le & Gm).
  - intros x (A & (s & B) & C). destruct (take_dec x) as [T|T]; [right; left; now right|]. left. destruct (flows_at x A T) as (t & u & D & F).
    split; [lia|]. split; [exists (s ++ t); rewrite D, B; now rewrite app_assoc|]. rewrite F, app_length. lia.
  - intros x (A & (s & B) & C) Re. left. left. unfold avail. destruct (there (R x) e) eqn:Th; [|reflexivity]. destruct (free e (fb (R x))) eqn:Fr; [|reflexivity]. exfalso.
    assert (Q : forall l, site l = Some e -> of_ftask (FtReceive e) (FRoutine l) -> bstep (fends (R x)) hub_end black raddr hostport wz (fb (R x)) l = None).
    { intros l Hl Ol. specialize (Re _ Ol). cbn [FleetModel.fstep] in Re. rewrite Hl, Th in Re. destruct (bstep _ _ _ _ _ _ _ l); [discriminate|reflexivity]. }
    destruct (Sl x s B) as [(t & Bt)|(Lt & Z0 & z & t & Ft)].
    + assert (X := Q (BTake e) eq_refl (or_introl eq_refl)). cbn [bstep] in X. rewrite (gone_at x), (read_at x A), Fr in X. cbn [orb negb] in X.
      rewrite Bt, Sf in X. assert (0 < length f) by (destruct f; [congruence|cbn; lia]). destruct (Z.leb_spec (Z.of_nat (length f)) 0); [lia|].
      destruct (unmarshal _ _) as [mm| | |]; try discriminate.
      assert (Y : forall x', free x' (fb (R x)) = true -> match x' with DockEnd i p => match dock_packet (p_p mm) with Some k => dock_does i (LRecv p k) [] (with_inb e (mkInbox (skipn (Z.to_nat (Z.of_nat (length f))) (f ++ t)) true) (fb (R x)))
                            | None => Some (with_inb e (mkInbox (skipn (Z.to_nat (Z.of_nat (length f))) (f ++ t)) true) (fb (R x))) end
                            | HubEnd h => hub_does black raddr hostport (HubModel.LRecv h (hub_packet (p_p mm))) (with_inb e (mkInbox (skipn (Z.to_nat (Z.of_nat (length f))) (f ++ t)) true) (fb (R x))) end <> None).
      { intros [i q|h] Fx Y; cbn [free] in Fx.
        - destruct (dock_packet _) as [k1|]; [|discriminate]. destruct (handlers (bd (fb (R x)) i) q) eqn:Eh; try discriminate.
          destruct (recv_silent _ q k1 (alive_at x i) Eh) as (d' & es & E1 & Hh & Si). unfold dock_does in Y. cbn [with_inb bd] in Y. rewrite E1, Hh, new_app, events_silent in Y by exact Si. discriminate.
        - destruct (HubModel.handlers (bh (fb (R x))) h) eqn:Eh; try discriminate. unfold hub_does in Y. cbn [with_inb bh] in Y. unfold HubModel.hstep in Y. rewrite (hub_at x), Eh in Y. discriminate. }
      exact (Y e Fr X).
    + assert (X : bstep (fends (R x)) hub_end black raddr hostport wz (fb (R x)) (BRead e 1) = None) by (apply Q; [reflexivity|]; right; left; exists 1; auto).
      cbn [bstep] in X. assert (Oa := acr x A). unfold across in Oa. rewrite Oa, (gone_at x), (read_at x A), Fr, Z0, Ft in X. cbn in X. discriminate.
  - intros x l (A & (s & B) & C) Hl Ol. cbn [of_ftask] in Ol. destruct Ol as [->|[(j & Hj & ->)|Hh]].
    + left. now right.
    + right. destruct (routine_at x _ e Hl eq_refl) as (_ & X). cbn [bstep] in X. assert (Oa := acr x A). unfold across in Oa. rewrite Oa in X.
      destruct (_ || _) eqn:Gd; [discriminate|]. apply orb_false_iff in Gd as [Gd Gl]. apply orb_false_iff in Gd as [Gd _]. apply orb_false_iff in Gd as [_ Gs]. apply Z.ltb_ge in Gs. apply Nat.ltb_ge in Gl.
      destruct (Sl x s B) as [(t & Bt)|(Lt & Z0 & _)].
      { exfalso. rewrite Bt, Sf in Gs. assert (0 < length f) by (destruct f; [congruence|cbn; lia]). lia. }
      assert (T : FL x <> Some (FRoutine (BTake e))) by congruence. destruct (flows_at x A T) as (t & _ & D & _).
      exists (k - 1). split; [lia|]. split; [exists (s ++ t); rewrite D, B; now rewrite app_assoc|]. injection X as X. rewrite <- X. cbn [with_inb with_out inb out]. rewrite upde_same. cbn [buffer].
      rewrite app_length, firstn_length. lia.
    + left. left. unfold avail. rewrite (handling_busy black raddr wz _ _ _ _ (step_at _ _ Hl) Hh). apply andb_false_r.
  - split; [exact Hm|]. split; [exact Hs|exact Hk].
  - destruct Gm as [Gm|(k' & Lt & Gs & Gk)]; [exists m1; auto|]. destruct (IH k' Lt (S m1) ltac:(lia) Gs Gk) as (m2 & Le2 & X). exists m2. split; [lia|exact X].
Qed.
(* bytes that have left *)
Lemma bytes_caught m : n0 <= m -> stream m <> [] -> exists m', m <= m' /\ caught m'.
Proof.
  intros H Ne. destruct (under_at m H) as (K & (Kw & Kq & fr & pt & -> & F & C & _ & X & _) & _). destruct (X (send_at m H)) as [-> _]. rewrite app_nil_r in C.
  inversion F as [|p f Kw' fr' Fp F']; subst; [cbn in C; elim Ne; now symmetry|]. cbn [concat] in C. apply (frame_caught p f Fp (length f) m H); [exists (concat fr'); symmetry; exact C|lia].
Qed.
(* a message the send routine holds, or takes next *)
Variable n1 : nat.
Hypothesis Th : there (R n1) e' = true.
Lemma th m : n1 <= m -> there (R m) e' = true.
Proof. intros H. eapply there_stays; eauto. Qed.
Lemma held_caught p m : n0 <= m -> n1 <= m -> holding (out (fb (R m)) e') = Some p -> exists m', m <= m' /\ caught m'.
Proof.
  intros H H1 Hp. destruct (wait (FtSend e') (fun m => n0 <= m /\ n1 <= m /\ holding (out (fb (R m)) e') = Some p) (fun m => n0 <= m /\ holding (out (fb (R m)) e') = Some p /\ FL m = Some (FRoutine (BWrite e')))) with (n := m) as (m1 & Le & A & B & C); auto.
  - intros x (A & B & C). destruct (send_dec x) as [D|[D|[D1 D2]]]; auto.
    + exfalso. destruct (routine_at x _ e' D eq_refl) as (_ & X). cbn [bstep] in X. rewrite C in X. destruct (_ || _); discriminate.
    + left. destruct (keeps_at x A D1 D2) as [X _]. rewrite X. repeat split; auto; lia.
  - intros x (A & B & C) Re. exfalso. specialize (Re (FRoutine (BWrite e')) (or_intror eq_refl)). cbn [FleetModel.fstep site] in Re. rewrite (th x B) in Re. cbn [bstep] in Re. rewrite (gone_at x) in Re. unfold marshalled in Re. rewrite C in Re. destruct (marshal _ _); discriminate.
  - intros x l (A & B & C) Hl [->| ->]; auto. exfalso. destruct (routine_at x _ e' Hl eq_refl) as (_ & X). cbn [bstep] in X. rewrite C in X. destruct (_ || _); discriminate.
  - destruct (routine_at m1 _ e' C eq_refl) as (_ & X). cbn [bstep] in X. rewrite (gone_at m1) in X. unfold marshalled in X. rewrite B in X.
    destruct (bytes_caught (S m1)) as (m2 & Le2 & Y); [lia| |exists m2; split; [lia|exact Y]].
    assert (Up : forall o, gone (lose_process o (fb (R m1))) o = true) by (intros [o|]; cbn; rewrite ?Nat.eqb_refl; reflexivity).
    destruct (marshal (wz (proc e')) (pack p)) as [f| | |] eqn:Em; try (exfalso; injection X as X; pose proof (gone_at (S m1) (proc e')) as Y; rewrite <- X, Up in Y; discriminate).
    injection X as X. unfold FleetLiveProof2.stream. rewrite <- X. cbn [with_out out inb]. rewrite upde_same. cbn [flight]. intros Y. apply app_eq_nil in Y as [_ Y]. apply app_eq_nil in Y as [_ Y]. exact (marshal_some _ _ _ Em Y).
Qed.
Lemma queued_caught m : n0 <= m -> n1 <= m -> holding (out (fb (R m)) e') = None -> queue (out (fb (R m)) e') <> [] -> exists m', m <= m' /\ caught m'.
Proof.
  intros H H1 Hn Hq. destruct (wait (FtSend e') (fun m => n0 <= m /\ n1 <= m /\ holding (out (fb (R m)) e') = None /\ queue (out (fb (R m)) e') <> []) (fun m => n0 <= m /\ n1 <= m /\ FL m = Some (FRoutine (BPop e')))) with (n := m) as (m1 & Le & A & B & C); auto.
  - intros x (A & B & C & D). destruct (send_dec x) as [X|[X|[X1 X2]]]; auto.
    + exfalso. destruct (routine_at x _ e' X eq_refl) as (_ & Y). cbn [bstep] in Y. unfold marshalled in Y. rewrite C in Y. destruct (gone _ _); discriminate.
    + left. destruct (keeps_at x A X1 X2) as [X [q Y]]. rewrite X, Y. repeat split; auto; try lia. intros Z. apply app_eq_nil in Z as [Z _]. auto.
  - intros x (A & B & C & D) Re. exfalso. specialize (Re (FRoutine (BPop e')) (or_introl eq_refl)). cbn [FleetModel.fstep site] in Re. rewrite (th x B) in Re. cbn [bstep] in Re. rewrite (gone_at x), (send_at x A), C in Re. cbn [orb] in Re.
    destruct (queue (out (fb (R x)) e')); [congruence|discriminate].
  - intros x l (A & B & C & D) Hl [->| ->]; auto. exfalso. destruct (routine_at x _ e' Hl eq_refl) as (_ & Y). cbn [bstep] in Y. unfold marshalled in Y. rewrite C in Y. destruct (gone _ _); discriminate.
  - destruct (routine_at m1 _ e' C eq_refl) as (_ & X). cbn [bstep] in X. destruct (_ || _); [discriminate|]. destruct (holding (out (fb (R m1)) e')) eqn:Eh; [discriminate|].
    destruct (queue (out (fb (R m1)) e')) as [|p q]; [discriminate|]. injection X as X.
    destruct (held_caught p (S m1)) as (m2 & Le2 & Y); [lia|lia| |exists m2; split; [lia|exact Y]]. rewrite <- X. cbn [with_out out]. rewrite upde_same. reflexivity.
Qed.
Lemma some_caught m p K : n0 <= m -> n1 <= m -> under m (p :: K) -> exists m', m <= m' /\ caught m'.
Proof.
  intros H H1 (Kw & Kq & fr & pt & EK & F & C & _ & X & _). destruct (X (send_at m H)) as [-> Hq]. rewrite app_nil_r in C.
  inversion F as [|p0 f Kw' fr' Fp F']; subst.
  - cbn [app] in EK. unfold held in EK. destruct (holding (out (fb (R m)) e')) as [y|] eqn:Eh; [exact (held_caught y m H H1 Eh)|]. apply queued_caught; auto. rewrite <- EK. discriminate.
  - cbn [concat] in C. apply (frame_caught p0 f Fp (length f) m H); [exists (concat fr'); symmetry; exact C|lia].
Qed.

Lemma stays K m : n0 <= m -> under m K -> forall d, (exists m' x, m <= m' /\ m' < m + d /\ FL m' = Some (FRoutine (BTake e)) /\ under m' (K ++ x)) \/ exists x, under (m + d) (K ++ x).
Proof.
  intros H U. induction d as [|d [(m' & x & A & B & C)|(x & IH)]].
  - right. exists []. rewrite Nat.add_0_r, app_nil_r. exact U.
  - left. exists m', x. repeat split; try apply C; lia.
  - destruct (take_dec (m + d)) as [T|T]; [left; exists (m + d), x; repeat split; auto; lia|]. right.
    destruct (more_at (m + d) ltac:(lia) T _ IH) as [y Y]. exists (x ++ y). rewrite Nat.add_succ_r, app_assoc. exact Y.
Qed.
Lemma next_caught m p K : n0 <= m -> under m (p :: K) -> exists m' x, m <= m' /\ under m' (p :: K ++ x) /\ caught m'.
Proof.
  intros H U. destruct (stays _ m H U (n1 - m)) as [(m' & x & A & _ & B & C)|(x & X)]; [exists m', x; split; [exact A|]; split; [exact C|now right]|].
  destruct (some_caught (m + (n1 - m)) p (K ++ x) ltac:(lia) ltac:(lia) X) as (m2 & Le & C).
  destruct (stays _ m H U (m2 - m)) as [(m' & y & A & _ & B & D)|(y & Y)]; [exists m', y; split; [exact A|]; split; [exact D|now right]|].
  replace (m + (m2 - m)) with m2 in Y by lia. exists m2, y. split; [lia|]. split; [exact Y|exact C].
Qed.
Lemma seen_caught h post : seen whole e h <> [] -> forall pre m, n0 <= m -> under m (pre ++ h :: post) ->
  exists m', m <= m' /\ (avail m' = false \/ exists y, wlab_at m' = Some (wl y) /\ taking e y /\ match y with SDeliver i p => e = DockEnd i p | SHubDeliver h => e = HubEnd h | _ => False end).
Proof.
  intros Sh pre. revert post. assert (Gen : forall k pre post m, length pre <= k -> n0 <= m -> under m (pre ++ h :: post) ->
    exists m', m <= m' /\ (avail m' = false \/ exists y, wlab_at m' = Some (wl y) /\ taking e y /\ match y with SDeliver i p => e = DockEnd i p | SHubDeliver h => e = HubEnd h | _ => False end)).
  2:{ intros post m H U. exact (Gen (length pre) pre post m (le_n _) H U). }
  clear pre. induction k as [|k IH]; intros pre post m Lk H U.
  - assert (pre = []) as -> by (destruct pre; [reflexivity|cbn in Lk; lia]). cbn [app] in U. destruct (next_caught m _ _ H U) as (m1 & x & Le & U1 & [C|C]); [exists m1; auto|].
    destruct (routine_at m1 _ e C eq_refl) as (_ & X).
    assert (L : legits (fends (R m1)) hub_end wz (fb (R (S m1)))) by (apply (legits_less wz (fends (R m1)) (fends (R (S m1)))); [apply ext; lia|exact (Lg (S m1))]).
    destruct (step_taken _ black raddr wz e e' (acr m1 ltac:(lia)) _ _ _ X L (gone_at _ _) U1) as (p & K' & z & EK & _ & V). injection EK as <- _.
    destruct (V Sh) as (y & Ty & Ta & My). exists m1. split; [exact Le|]. right. exists y. split; [|auto]. unfold wlab_at. rewrite C. cbn [above]. rewrite Ty. reflexivity.
  - destruct pre as [|q pre]; [apply (IH [] post m); auto; cbn; lia|]. cbn [app] in U. destruct (next_caught m _ _ H U) as (m1 & x & Le & U1 & [C|C]); [exists m1; auto|].
    destruct (routine_at m1 _ e C eq_refl) as (_ & X).
    assert (L : legits (fends (R m1)) hub_end wz (fb (R (S m1)))) by (apply (legits_less wz (fends (R m1)) (fends (R (S m1)))); [apply ext; lia|exact (Lg (S m1))]).
    destruct (step_taken _ black raddr wz e e' (acr m1 ltac:(lia)) _ _ _ X L (gone_at _ _) U1) as (p & K' & z & EK & U2 & _). injection EK as _ <-.
    rewrite <- !app_assoc in U2. cbn [app] in U2. destruct (IH pre (post ++ x ++ z) (S m1)) as (m2 & Le2 & Y); [cbn in Lk; lia|lia|exact U2|]. exists m2. split; [lia|exact Y].
Qed.
End Channel.
Lemma seen_split e K : flat_map (seen whole e) K <> [] -> exists pre h post, K = pre ++ h :: post /\ seen whole e h <> [].
Proof.
  induction K as [|p K IH]; [intros X; elim X; reflexivity|]. cbn. intros H. destruct (seen whole e p) as [|a l] eqn:E; [|exists [], p, K; split; [reflexivity|congruence]].
  destruct (IH H) as (pre & h & post & -> & S). exists (p :: pre), h, post. auto.
Qed.
(* a packet under way is delivered, or its receiver is busy *)
Lemma delivered n e : across (R n) e <> None -> onwire (ws (wrun n)) e <> [] ->
  exists m, n <= m /\ (avail e m = false \/ exists y, wlab_at m = Some (wl y) /\ taking e y /\ match y with SDeliver i p => e = DockEnd i p | SHubDeliver h => e = HubEnd h | _ => False end).
Proof.
  intros A W. destruct (across (R n) e) as [e'|] eqn:O; [|congruence]. destruct (under_at n e e' O n (le_n _)) as (K & U & E). rewrite E in W.
  destruct (seen_split e K W) as (pre & h & post & -> & Sh).
  destruct (there_later n e') as (n1 & _ & Th); [rewrite (acr' n e e' O n (le_n _)); discriminate|].
  exact (seen_caught n e e' O n1 Th h post Sh pre n (le_n _) U).
Qed.

(* ---- the run of packets is fair ---- *)
Notation resting := (resting (fun _ _ : nat => whole) black raddr).
Lemma wrun_endless : endless carried (fun _ _ : nat => whole) black raddr wrun wlab_at.
Proof. split; [reflexivity|]. intros n. apply both. Qed.
Lemma deliver_rests n i p : avail (DockEnd i p) n = false -> fends (R n) i p <> Nowhere -> wstep (wrun n) (WDeliver i p) = None.
Proof.
  intros A N. destruct (sim_at n) as [M Ee _ Eb _ _]. cbn. rewrite <- Eb. unfold avail in A. cbn [there free] in A.
  destruct (existsb (Nat.eqb p) (fbacklog (R n) i)); [reflexivity|]. destruct (wire (ws (wrun n)) i p); [reflexivity|]. unfold dock_step. cbn [set_wire sd]. rewrite (m_docks _ _ _ _ _ _ M).
  assert (X : (match handlers (bd (fb (R n)) i) p with HIdle => true | _ => false end) = false) by (destruct (fends (R n) i p); [congruence|exact A..]).
  unfold dstep. rewrite (alive_at n i). destruct (handlers (bd (fb (R n)) i) p); try discriminate; reflexivity.
Qed.
Lemma hub_deliver_rests n h : avail (HubEnd h) n = false -> wstep (wrun n) (WHubDeliver h) = None.
Proof.
  intros A. destruct (sim_at n) as [M _ _ _ _ _]. cbn. destruct (hwire (ws (wrun n)) h); [reflexivity|]. unfold hub_step. cbn [set_hwire sh]. rewrite (m_hub _ _ _ _ _ _ M).
  unfold avail in A. cbn in A. unfold HubModel.hstep. rewrite (hub_at n). destruct (HubModel.handlers (bh (fb (R n))) h); try discriminate; reflexivity.
Qed.
Lemma lab_at n l : FL n = Some l -> (forall k, l <> FRoutine k) -> wlab_at n = hd_error (above wz (R n) l).
Proof. intros H _. unfold wlab_at. now rewrite H. Qed.
(* tasks of a dock that are no tasks of its peers *)
Lemma dock_task n i T T' : (forall l, of_task T l -> exists k, l = WDock i k /\ due l /\ of_ftask T' (FDock i k)) -> (forall l, of_ftask T' l -> exists k, l = FDock i k /\ of_task T (WDock i k)) ->
  exists m, n <= m /\ (resting T (wrun m) \/ exists l, wlab_at m = Some l /\ of_task T l).
Proof.
  intros A B. destruct (Fa T' n) as (m & Le & [H|(l & H & O)]); exists m; (split; [exact Le|]).
  - left. intros l O. destruct (A l O) as (k & -> & D & O'). apply (dock_rests black raddr wz _ (R m) _ i k (fs_sim _ _ _ _ (sim_at m)) D).
    apply (task_dock black raddr wz (R m) i T (gone_at m _)); auto. intros l Ol. destruct (A _ Ol) as (k' & E & _ & Ok). injection E as <-. apply H, Ok.
  - right. destruct (B l O) as (k & -> & Ok). exists (WDock i k). split; [|exact Ok]. unfold wlab_at. rewrite H. reflexivity.
Qed.
Lemma wrun_fair : fair (fun _ _ : nat => whole) black raddr wrun wlab_at.
Proof.
  intros T n. destruct T as [i p|j q|i p|i j|i c|i k|i b|h|h|t].
  - destruct (wire (ws (wrun n)) i p) as [|x q] eqn:Ew.
    + exists n. split; [lia|]. left. intros l ->. cbn. rewrite Ew. destruct (existsb _ _); reflexivity.
    + assert (Nw : ends (wrun n) i p <> Nowhere) by (apply (proj2 (wi_open _ (inv_at n))); congruence). rewrite <- (fs_ends _ _ _ _ (sim_at n)) in Nw.
      destruct (delivered n (DockEnd i p)) as (m & Le & [H|(y & Y & Ta & My)]).
      * unfold across. cbn. destruct (fends (R n) i p); congruence.
      * cbn. rewrite Ew. discriminate.
      * exists m. split; [exact Le|]. left. intros l ->. apply deliver_rests; [exact H|]. rewrite (ext n m Le); auto.
      * exists m. split; [exact Le|]. right. exists (wl y). split; [exact Y|]. destruct y; try (exfalso; exact My); cbn in My |- *; congruence.
  - destruct (Fa (FtAccept j q) n) as (m & Le & [H|(l & H & ->)]); exists m; (split; [exact Le|]).
    + left. intros l ->. apply (accept_rests black raddr wz _ _ _ _ (sim_at m) (alive_at m j) (gone_at m _)). apply H. reflexivity.
    + right. exists (WAccept j q). split; [|reflexivity]. unfold wlab_at. rewrite H. reflexivity.
  - assert (Idle : forall m, handlers (bd (fb (R m)) i) p = HIdle -> resting (THandler i p) (wrun m)) by (intros m Hi; exact (idle_rests black raddr wz _ _ _ _ (sim_at m) Hi)).
    destruct (Fa (FtReceive (DockEnd i p)) n) as (m & Le & [H|(l & H & O)]); exists m; (split; [exact Le|]).
    + left. apply Idle. apply (idle_waits black raddr wz (R m) i p (alive_at m i) (gone_at m _)). intros l O. apply H. right. now right.
    + cbn [of_ftask] in O. assert (Fr : l = FRoutine (BTake (DockEnd i p)) \/ (exists k, l = FRoutine (BRead (DockEnd i p) k)) -> resting (THandler i p) (wrun m)).
      { intros X. apply Idle. pose proof (receive_free black raddr wz _ _ _ _ (step_at _ _ H) X) as Y. cbn in Y. destruct (handlers (bd (fb (R m)) i) p); [reflexivity|discriminate..]. }
      destruct O as [O|[(k & _ & O)|O]]; [left; apply Fr; auto|left; apply Fr; eauto|right].
      unfold wlab_at. rewrite H. cbn [handling] in O. destruct l as [i' l|l|l|i' ok|i' p' ok|i' p' j m'|i' p'|j q]; try (exfalso; exact O); (eexists; split; [reflexivity|]); cbn; exact O.
  - apply (dock_task n i (TAnnounce i j) (FtAnnounce i j)).
    + intros l (ns & acc & ->). eexists. split; [reflexivity|]. split; [exact I|]. exists ns, acc. reflexivity.
    + intros l (ns & acc & ->). eexists. split; [reflexivity|]. exists ns, acc. reflexivity.
  - apply (dock_task n i (TCall i c) (FtCall i c)).
    + intros l (acc & ->). eexists. split; [reflexivity|]. split; [exact I|]. exists acc. reflexivity.
    + intros l (acc & ->). eexists. split; [reflexivity|]. exists acc. reflexivity.
  - apply (dock_task n i (TServe i k) (FtServe i k)).
    + intros l [(res & err & ->)|(acc & ->)]; (eexists; split; [reflexivity|]; split; [exact I|]); [left; exists res, err; reflexivity|right; exists acc; reflexivity].
    + intros l [(res & err & ->)|(acc & ->)]; (eexists; split; [reflexivity|]); [left; exists res, err; reflexivity|right; exists acc; reflexivity].
  - apply (dock_task n i (TBack i b) (FtBack i b)).
    + intros l ->. eexists. split; [reflexivity|]. split; [exact I|]. reflexivity.
    + intros l ->. eexists. split; [reflexivity|]. reflexivity.
  - destruct (hwire (ws (wrun n)) h) as [|x q] eqn:Ew.
    + exists n. split; [lia|]. left. intros l ->. cbn. rewrite Ew. reflexivity.
    + destruct (delivered n (HubEnd h)) as (m & Le & [H|(y & Y & Ta & My)]).
      * unfold across. cbn. discriminate.
      * cbn. rewrite Ew. discriminate.
      * exists m. split; [exact Le|]. left. intros l ->. apply hub_deliver_rests; exact H.
      * exists m. split; [exact Le|]. right. exists (wl y). split; [exact Y|]. destruct y; try (exfalso; exact My); cbn in My |- *; congruence.
  - assert (Idle : forall m, HubModel.handlers (bh (fb (R m))) h = HubModel.HIdle -> resting (THub h) (wrun m)).
    { intros m Hi l ->. destruct (sim_at m) as [M _ _ _ _ _]. cbn. unfold hub_step. rewrite (m_hub _ _ _ _ _ _ M). unfold HubModel.hstep. rewrite (hub_at m), Hi. reflexivity. }
    destruct (Fa (FtReceive (HubEnd h)) n) as (m & Le & [H|(l & H & O)]); exists m; (split; [exact Le|]).
    + left. intros l ->. apply (hub_rests black raddr wz _ _ _ (sim_at m) (gone_at m _)); [exact I|]. apply H. right. right. reflexivity.
    + cbn [of_ftask] in O. assert (Fr : l = FRoutine (BTake (HubEnd h)) \/ (exists k, l = FRoutine (BRead (HubEnd h) k)) -> resting (THub h) (wrun m)).
      { intros X. apply Idle. pose proof (receive_free black raddr wz _ _ _ _ (step_at _ _ H) X) as Y. cbn in Y. destruct (HubModel.handlers (bh (fb (R m))) h); [reflexivity|discriminate..]. }
      destruct O as [O|[(k & _ & O)|O]]; [left; apply Fr; auto|left; apply Fr; eauto|right].
      cbn [handling] in O. subst l. exists (WHub (HubModel.HStep h)). split; [|reflexivity]. unfold wlab_at. rewrite H. reflexivity.
  - destruct (Fa (FtQuery t) n) as (m & Le & [H|(l & H & ->)]); exists m; (split; [exact Le|]).
    + left. intros l ->. apply (hub_rests black raddr wz _ _ _ (sim_at m) (gone_at m _)); [exact I|]. apply H. reflexivity.
    + right. exists (WHub (HubModel.QStep t)). split; [|reflexivity]. unfold wlab_at. rewrite H. reflexivity.
Qed.
Lemma wrun_undisturbed : undisturbed wrun wlab_at.
Proof.
  split.
  - intros n. unfold wlab_at. destruct (FL n) as [l|]; [|exact I]. destruct l as [| |k| | | | |]; cbn; auto. destruct k; cbn; auto. unfold took. destruct (unmarshal _ _); cbn; auto. destruct e; cbn; auto. destruct (dock_packet _); cbn; auto.
  - intros n. apply (healthy_sim wz whole (R n) (wrun n) (sim_at n)). apply (Un n).
Qed.
Lemma wrun_ranges : franges_end R -> ranges_end wrun.
Proof. intros H i p n. destruct (H i p n) as (m & Le & X). exists m. split; [exact Le|]. rewrite (m_docks _ _ _ _ _ _ (fs_sim _ _ _ _ (sim_at m))). exact X. Qed.
End Run.
