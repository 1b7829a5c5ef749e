(* C82: a connection between two docks whose processes run on, whatever becomes of the others:
   what is sent on it arrives. *)
From Verif Require Import Lts GoInt GoVal Tables CodecSpec ProtoModel ProtoSpec ProtoProof RecvProof CallProof SysCodec DockModel DockSpec DockProof DockProof2 DockProof3 DockProof4 DockProof7 DockProof8 DockProof9 DockProof10 SysModel SysSpec SysProof SysProof2 SysProof3 SysProof4.
From Verif Require Import WorldModel WorldSpec WorldProof LiveSpec LiveProof LiveProof4 LiveProof5 ByteModel ByteSpec ByteProof ByteProof2 ByteProof3 FleetModel FleetSpec FleetProof FleetProof2 FleetLiveSpec FleetLiveProof FleetLiveProof2 FleetLiveProof3 FleetLiveProof4.
From Verif Require Import IsleSpec.
From Verif Require CallSpec HubModel ConnModel HarborProof.
From Coq Require Import Arith Bool List ZArith Lia.
Import ListNotations.
Open Scope nat_scope.

(* the steps of the network at a dock *)
Definition netted (l : label gval) : Prop := match l with LRecv _ _ | LConnected _ | LDial _ | HNet _ _ => True | _ => False end.
(* the moment a call is made *)
Lemma new_tr (d : dock gval) l d' c q : tr gval d l d' -> In (ENew c q) (hist d') -> In (ENew c q) (hist d) \/ exists r, ~ netted l /\ nth_error (calls d') c = Some r /\ c_pc r = CPut.
Proof.
  intros T. destruct T; proj; auto; rewrite <- ?app_assoc, ?in_app_iff; cbn [In app]; try (intuition congruence); intros [H1|[H1|[]]]; auto; try discriminate H1.
  right. injection H1 as <- <-. eexists. split; [intros []|]. rewrite nth_error_app2, Nat.sub_diag by lia. split; reflexivity.
Qed.
(* and the moment it reads where its feature is *)
Lemma set_tr (d : dock gval) c acc d' r p : tr gval d (CStep c acc) d' -> state d' = Alive -> nth_error (calls d) c = Some r -> c_pc r = CSet ->
  (forall q, c_req r = Some q -> remote d (q_slot q) = Some p) -> In (ECommit c p acc) (hist d') /\ exists q, In (ESend p (KRequest q) acc) (hist d').
Proof.
  intros T A E P Rm. inversion T; subst; repeat match goal with X : nth_error (calls d) c = Some ?r' |- _ => tryif constr_eq r' r then fail else (assert (r' = r) by congruence; subst r') end; try congruence; try discriminate A.
  all: match goal with X : c_req _ = Some ?q |- _ => specialize (Rm _ X) end; try congruence.
  assert (k = p) as -> by congruence. proj. split; [|exists q]; apply in_or_app; right; cbn; auto.
Qed.

Section Run.
Variables (carried : nat -> list (name * bool)) (black : list Z) (raddr : nat -> name) (wz : option nat -> wsize).
Variables (R : nat -> fleet) (FL : nat -> option flab).
Variable mine : nat -> Prop.
Hypothesis En : fendless carried black raddr wz R FL.
Hypothesis Fa : forall t i n, owner t = Some i -> mine i -> exists m, n <= m /\ (fresting black raddr wz t (R m) \/ exists l, FL m = Some l /\ of_ftask t l).
Hypothesis Al : forall i n, mine i -> state (bd (fb (R n)) i) = Alive.
Hypothesis Gn : forall i n, mine i -> gone (fb (R n)) (Some i) = false.
Hypothesis Lg : flegitimate wz R.
Notation fstep := (fstep black raddr wz).
Notation fsim := (fsim wz whole).
Notation dk n i := (bd (fb (R n)) i).

Notation step_at := (FleetLiveProof4.step_at carried black raddr wz R FL En).
Notation still_at := (FleetLiveProof4.still_at carried black raddr wz R FL En).
Notation num := (FleetLiveProof4.num carried black raddr wz R FL En).
Notation ext := (FleetLiveProof4.ext carried black raddr wz R FL En).
Notation across_later := (FleetLiveProof4.across_later carried black raddr wz R FL En).
Notation there_stays := (FleetLiveProof4.there_stays carried black raddr wz R FL En).
Lemma reached n : exists ls, exec fstep (finit carried) ls = Some (R n).
Proof.
  induction n as [|n (ls & IH)]; [exists []; cbn; now rewrite (fe_start _ _ _ _ _ _ En)|]. destruct (FL n) as [l|] eqn:E.
  - exists (ls ++ [l]). rewrite exec_app, IH. cbn [exec]. now rewrite (step_at _ _ E).
  - exists ls. now rewrite (still_at _ E).
Qed.
Lemma sim_at n : exists ls w, exec (wstep (fun _ _ : nat => whole) black raddr) (winit carried) ls = Some w /\ fsim (R n) w.
Proof. destruct (reached n) as (ls & E). destruct (fleet_sim carried black raddr wz whole (fun l x H => Wh l x H) _ _ E (Lg n)) as (ls' & w & A & B & _). eauto. Qed.
Lemma wired_at n : wired (fends (R n)) hub_end.
Proof. destruct (sim_at n) as (ls & w & A & B). rewrite (fs_ends _ _ _ _ B). apply wi_wired. apply (run_sys _ _ _ _ _ _ A). Qed.

(* a goroutine that does not wait goes on *)
Lemma wait t i (P G : nat -> Prop) : owner t = Some i -> mine i -> (forall m, P m -> P (S m) \/ G m) -> (forall m, P m -> fresting black raddr wz t (R m) -> G m) ->
  (forall m l, P m -> FL m = Some l -> of_ftask t l -> G m) -> forall n, P n -> exists m, n <= m /\ G m.
Proof.
  intros Ow Mi St Re Ta n Pn. destruct (Fa t i n Ow Mi) as (m & Le & H).
  assert (X : forall k, (exists m, n <= m /\ G m) \/ P (n + k)).
  { induction k as [|k [IH|IH]]; [right; now rewrite Nat.add_0_r|now left|]. rewrite Nat.add_succ_r. destruct (St _ IH) as [Y|Y]; [now right|]. left. exists (n + k). split; [lia|exact Y]. }
  destruct (X (m - n)) as [Y|Y]; [exact Y|]. replace (n + (m - n)) with m in Y by lia. exists m. split; [exact Le|]. destruct H as [H|(l & H & O)]; [now apply Re|now apply (Ta m l)].
Qed.


Lemma there_later n i p : mine i -> fends (R n) i p <> Nowhere -> exists m, n <= m /\ there (R m) (DockEnd i p) = true.
Proof.
  intros Mi Np.
  assert (Th : forall m, n <= m -> existsb (Nat.eqb p) (fbacklog (R m) i) = false -> there (R m) (DockEnd i p) = true).
  { intros m Le X. cbn. rewrite (ext n m Le) by exact Np. rewrite X. destruct (fends (R n) i p); [congruence|reflexivity..]. }
  destruct (Fa (FtAccept i p) i n eq_refl Mi) as (m & Le & [H|(l & H & ->)]).
  - exists m. split; [exact Le|]. apply Th; [exact Le|]. destruct (sim_at m) as (ls & w & _ & F). apply (accept_rests black raddr wz _ _ _ _ F (Al i m Mi) (Gn i m Mi)). apply H. reflexivity.
  - exists (S m). split; [lia|]. apply Th; [lia|]. apply step_at in H. cbn [FleetModel.fstep] in H. destruct (existsb (Nat.eqb p) (fbacklog (R m) i)); [|discriminate].
    destruct (bstep _ _ _ _ _ _ _ _); [|discriminate]. injection H as <-. cbn. rewrite updp_same. destruct (existsb _ _) eqn:Y; auto.
    apply existsb_exists in Y as (x & Y1 & Y2). apply filter_In in Y1 as [_ Y1]. apply Nat.eqb_eq in Y2 as ->. rewrite Nat.eqb_refl in Y1. discriminate.
Qed.

(* ---- the receive routine of a peer comes back from handling a packet ---- *)
(* the steps of dock i behind a step of the network *)
Definition shows (i : nat) (l : flab) (dl : label gval) : Prop :=
  match l with
  | FDock j d => j = i /\ dl = d
  | FRoutine (BTake (DockEnd j p)) => j = i /\ exists k, dl = LRecv p k
  | FDial j ok => j = i /\ (dl = LDial ok \/ dl = LConnected 0)
  | FListen j p ok => j = i /\ dl = HNet p ok
  | FConnect j p _ _ => j = i /\ (dl = HNet p true \/ exists q, dl = LConnected q)
  | FFail j p => j = i /\ dl = HNet p false
  | FAccept j q => j = i /\ dl = LConnected q
  | _ => False
  end.
Lemma bytes_shows E b l b' (i : nat) : bstep E hub_end black raddr hostport wz b l = Some b' ->
  match l with
  | BDock j dl _ => exists d, dstep (bd b j) dl = Some d /\ bd b' = updp (bd b) j d
  | BTake (DockEnd j p) => bd b' = bd b \/ exists k d, dstep (bd b j) (LRecv p k) = Some d /\ bd b' = updp (bd b) j d
  | _ => bd b' = bd b
  end.
Proof.
  intros H. destruct l as [j l ps|l|x|x|x n|x|x n|x|x]; cbn [bstep] in H.
  - assert (X : dock_does j l ps b = Some b') by (destruct l; try discriminate H; (destruct (gone b (Some j)); [discriminate H|exact H])). eapply HarborProof.does_dock; eauto.
  - assert (X : hub_does black raddr hostport l b = Some b') by (destruct l; try discriminate H; (destruct (gone b None); [discriminate H|exact H])). eapply HarborProof.does_hub; eauto.
  - destruct (_ || _); [discriminate|]. destruct (holding _); [discriminate|]. destruct (queue _); [discriminate|]. injection H as <-. reflexivity.
  - destruct (gone _ _); [discriminate|]. unfold marshalled in H. destruct (holding _); [|discriminate]. destruct (marshal _ _); injection H as <-; auto; destruct (proc x); reflexivity.
  - destruct (gone _ _); [discriminate|]. unfold marshalled in H. destruct (holding _); [|discriminate]. destruct (marshal _ _); injection H as <-; auto; destruct (proc x); reflexivity.
  - destruct (holding _); [discriminate|]. injection H as <-. reflexivity.
  - destruct (other _ _ x); [|discriminate]. destruct (_ || _); [discriminate|]. injection H as <-. reflexivity.
  - destruct (_ || _); [discriminate|]. destruct (unmarshal _ _) as [m| | |]; try (injection H as <-; destruct x; [left|]; destruct (proc _); reflexivity).
    destruct x as [j p|h]; [|apply HarborProof.does_hub in H; exact H]. destruct (dock_packet _) as [k|]; [|injection H as <-; left; reflexivity]. right. exists k. apply HarborProof.does_dock in H. exact H.
  - injection H as <-. reflexivity.
Qed.
Lemma fleet_shows n l n' i : fstep n l = Some n' -> exists dls, exec dstep (bd (fb n) i) dls = Some (bd (fb n') i) /\ Forall (shows i l) dls /\ (forall dl, l = FDock i dl -> dls = [dl]) /\ (forall p, handling (DockEnd i p) l -> exists dl, In dl dls /\ own p dl).
Proof.
  assert (One : forall w (o : option bsys) n', fon w o = Some n' -> exists b, o = Some b /\ fb n' = b) by (intros w [b|] x E; [injection E as <-; exists b; auto|discriminate]).
  assert (Dk : forall b j dl d b' l0, dstep (bd b j) dl = Some d -> bd b' = updp (bd b) j d -> (j = i -> shows i l0 dl) -> exists dls, exec dstep (bd b i) dls = Some (bd b' i) /\ Forall (shows i l0) dls /\ (j = i -> dls = [dl])).
  { intros b j dl d b' l0 D -> S. destruct (Nat.eq_dec j i) as [->|N].
    - exists [dl]. cbn [exec]. rewrite D, updp_same. repeat split; auto.
    - exists []. cbn [exec]. rewrite updp_other by auto. repeat split; auto. congruence. }
  intros H. destruct l as [j l|l|k|j ok|j p ok|j p j' m|j p|j q]; cbn [FleetModel.fstep] in H.
  - assert (X : fon (outline n) (bstep (fends n) hub_end black raddr hostport wz (fb n) (BDock j l (query_peers (outline n) j))) = Some n') by (destruct l; try discriminate H; exact H).
    apply One in X as (b & X & ->). destruct (bytes_shows _ _ _ _ i X) as (d & D & U). destruct (Dk _ _ _ _ _ (FDock j l) D U) as (dls & A & B & C); [intros ->; cbn; auto|]. exists dls. repeat split; auto; [intros dl [= <- <-]; auto|]. intros p Hh. exists l. cbn [handling] in Hh. destruct l; try destruct Hh; subst; rewrite C by auto; split; cbn; auto.
  - apply One in H as (b & X & ->). pose proof (bytes_shows _ _ _ _ i X) as Y. cbn in Y. exists []. rewrite Y. repeat split; auto; [discriminate|intros p []].
  - destruct (site k) as [x|] eqn:Si; [|discriminate]. destruct (there n x); [|discriminate]. apply One in H as (b & X & ->). pose proof (bytes_shows _ _ _ _ i X) as Y.
    assert (Z : bd b = bd (fb n) -> exists dls, exec dstep (bd (fb n) i) dls = Some (bd b i) /\ Forall (shows i (FRoutine k)) dls /\ (forall dl, FRoutine k = FDock i dl -> dls = [dl]) /\ (forall p, handling (DockEnd i p) (FRoutine k) -> exists dl, In dl dls /\ own p dl)) by (intros ->; exists []; repeat split; auto; [discriminate|intros p []]).
    destruct k as [j l ps|l|y|y|y y'|y|y y'|y|y]; auto; try discriminate Si. destruct y as [j p|h]; auto. destruct Y as [Y|(kk & d & D & U)]; auto.
    destruct (Dk _ _ _ _ _ (FRoutine (BTake (DockEnd j p))) D U) as (dls & A & B & C); [intros ->; cbn; eauto|]. exists dls. repeat split; auto; [discriminate|intros q []].
  - apply One in H as (b & X & ->). cbn [exec] in X. destruct (bstep _ _ _ _ _ _ _ _) as [b1|] eqn:E1; [|discriminate]. destruct (bytes_shows _ _ _ _ i E1) as (d & D & U).
    destruct (Dk _ _ _ _ _ (FDial j ok) D U) as (dls & A & B & C); [intros ->; cbn; auto|]. destruct ok.
    + cbn [exec] in X. destruct (bstep _ _ _ _ _ _ b1 _) as [b2|] eqn:E2; [|discriminate]. injection X as <-. destruct (bytes_shows _ _ _ _ i E2) as (d2 & D2 & U2).
      destruct (Dk _ _ _ _ _ (FDial j true) D2 U2) as (dls2 & A2 & B2 & C2); [intros ->; cbn; auto|]. exists (dls ++ dls2). rewrite exec_app, A. repeat split; auto; [apply Forall_app; auto|discriminate|intros p []].
    + injection X as <-. exists dls. repeat split; auto; [discriminate|intros p []].
  - destruct (handlers _ _); try discriminate. destruct (_ && _); [discriminate|]. apply One in H as (b & X & ->). destruct (bytes_shows _ _ _ _ i X) as (d & D & U).
    destruct (Dk _ _ _ _ _ (FListen j p ok) D U) as (dls & A & B & C); [intros ->; cbn; auto|]. exists dls. repeat split; auto; [discriminate|]. intros p0 [-> ->]. eexists. rewrite C by auto. split; [now left|reflexivity].
  - destruct (handlers _ _); try discriminate. destruct (_ && _); [|discriminate]. apply One in H as (b & X & ->). cbn [exec] in X.
    destruct (bstep _ _ _ _ _ _ (fb n) _) as [b1|] eqn:E1; [|discriminate]. destruct (bstep _ _ _ _ _ _ b1 _) as [b2|] eqn:E2; [|discriminate]. injection X as <-.
    destruct (bytes_shows _ _ _ _ i E1) as (d & D & U). destruct (Dk _ _ _ _ _ (FConnect j p j' m) D U) as (dls & A & B & C); [intros ->; cbn; auto|].
    destruct (bytes_shows _ _ _ _ i E2) as (d2 & D2 & U2). destruct (Dk _ _ _ _ _ (FConnect j p j' m) D2 U2) as (dls2 & A2 & B2 & C2); [intros ->; cbn; eauto|].
    exists (dls ++ dls2). rewrite exec_app, A. repeat split; auto; [apply Forall_app; auto|discriminate|]. intros p0 [-> ->]. eexists. rewrite C by auto. split; [now left|reflexivity].
  - destruct (handlers _ _); try discriminate. apply One in H as (b & X & ->). destruct (bytes_shows _ _ _ _ i X) as (d & D & U).
    destruct (Dk _ _ _ _ _ (FFail j p) D U) as (dls & A & B & C); [intros ->; cbn; auto|]. exists dls. repeat split; auto; [discriminate|]. intros p0 [-> ->]. eexists. rewrite C by auto. split; [now left|reflexivity].
  - destruct (existsb _ _); [|discriminate]. apply One in H as (b & X & ->). destruct (bytes_shows _ _ _ _ i X) as (d & D & U).
    destruct (Dk _ _ _ _ _ (FAccept j q) D U) as (dls & A & B & C); [intros ->; cbn; auto|]. exists dls. repeat split; auto; [discriminate|intros p []].
Qed.
(* what a dock does from one moment to the next *)
Lemma dock_next n i : exists dls, exec dstep (dk n i) dls = Some (dk (S n) i) /\ (forall dl, In dl dls -> exists l, FL n = Some l /\ shows i l dl) /\ (forall dl, FL n = Some (FDock i dl) -> dls = [dl]) /\
  forall l p, FL n = Some l -> handling (DockEnd i p) l -> exists dl, In dl dls /\ own p dl.
Proof.
  destruct (FL n) as [l|] eqn:E.
  - destruct (fleet_shows _ _ _ i (step_at _ _ E)) as (dls & A & B & C & D). exists dls. split; auto. split; [|split; [intros dl [= ->]; auto|intros l' p [= <-]; auto]]. rewrite Forall_forall in B. intros dl H. exists l. auto.
  - rewrite (still_at _ E). exists []. split; [reflexivity|]. split; [intros dl []|split; discriminate].
Qed.
Lemma alive_before ls : forall (d d' : dock gval), exec dstep d ls = Some d' -> state d' = Alive -> state d = Alive.
Proof.
  intros d d' H A. destruct ls as [|l ls]; [injection H as <-; exact A|]. cbn [exec] in H. unfold dstep in H. destruct (state d); auto; discriminate.
Qed.
(* Step by step: what holds of a dock holds on, or the goal is reached for good. *)
Lemma along (A : label gval -> Prop) (P Q : dock gval -> Prop) :
  (forall d l d', dstep d l = Some d' -> state d' = Alive -> A l -> P d -> P d' \/ Q d') -> (forall d l d', dstep d l = Some d' -> state d' = Alive -> Q d -> Q d') ->
  forall dls d d', exec dstep d dls = Some d' -> state d' = Alive -> (forall l, In l dls -> A l) -> P d -> P d' \/ Q d'.
Proof.
  intros HP HQ. assert (Qs : forall dls d d', exec dstep d dls = Some d' -> state d' = Alive -> Q d -> Q d').
  { induction dls as [|l dls IH]; intros d d' E Ad X; [injection E as <-; auto|]. cbn [exec] in E. destruct (dstep d l) as [d1|] eqn:E1; [|discriminate].
    eapply IH; eauto. eapply HQ; eauto. eapply alive_before; eauto. }
  induction dls as [|l dls IH]; intros d d' E Ad F X; [injection E as <-; auto|]. cbn [exec] in E. destruct (dstep d l) as [d1|] eqn:E1; [|discriminate].
  destruct (HP _ _ _ E1 (alive_before _ _ _ E Ad) (F _ (or_introl eq_refl)) X) as [Y|Y]; [apply (IH d1); auto; intros y Hy; apply F; now right|right; eauto].
Qed.
(* ---- handlers ---- *)
Lemma idle_tr (d : dock gval) l d' p : tr gval d l d' -> state d' = Alive -> handlers d p = HIdle -> (forall k, l <> LRecv p k) -> handlers d' p = HIdle.
Proof.
  intros T A H N. destruct T; proj; auto; try discriminate;
    try (destruct (Nat.eq_dec p0 p) as [->|Np]; [exfalso; first [congruence|eapply N; reflexivity]|rewrite ?updp_other by auto; exact H]).
Qed.
Lemma idle_exec p dls : forall d d' : dock gval, exec dstep d dls = Some d' -> state d' = Alive -> handlers d p = HIdle -> (forall k, ~ In (LRecv p k) dls) -> handlers d' p = HIdle.
Proof.
  induction dls as [|l dls IH]; intros d d' E A H N; [injection E as <-; exact H|]. cbn [exec] in E. destruct (dstep d l) as [d1|] eqn:E1; [|discriminate].
  eapply IH; eauto. 2:{ intros k Hk. apply (N k). now right. }
  apply dstep_tr in E1 as [_ E1]. eapply idle_tr; eauto; [eapply alive_before; eauto|]. intros k ->. apply (N k). now left.
Qed.
Lemma busy_exec p dls : forall d d' : dock gval, exec dstep d dls = Some d' -> state d' = Alive -> handlers d p <> HIdle -> (forall k, ~ In (LRecv p k) dls) ->
  (handlers d' p = handlers d p /\ forall l, In l dls -> ~ own p l) \/ mu (handlers d' p) < mu (handlers d p) \/ (ranging (handlers d p) /\ ranging (handlers d' p) /\ mu (handlers d' p) = mu (handlers d p)).
Proof.
  induction dls as [|l dls IH]; intros d d' E A H N; [injection E as <-; left; split; [reflexivity|intros l []]|]. cbn [exec] in E. destruct (dstep d l) as [d1|] eqn:E1; [|discriminate].
  assert (A1 : state d1 = Alive) by (eapply alive_before; eauto). assert (N1 : forall k, ~ In (LRecv p k) dls) by (intros k Hk; apply (N k); now right).
  apply dstep_tr in E1 as [_ E1].
  assert (Dec : handlers d1 p = HIdle \/ handlers d1 p <> HIdle) by (destruct (handlers d1 p); auto; right; discriminate).
  destruct (handler_step _ _ _ _ E1 A1 H) as [[Hs No]|[Ow M]].
  - destruct (IH d1 d' E A ltac:(rewrite Hs; exact H) N1) as [[X Y]|[X|X]]; rewrite Hs in *; auto. left. split; [exact X|]. intros y [<-|Hy]; auto.
  - right. assert (M0 : mu (handlers d p) <> 0) by (intros Z; apply H, mu_idle, Z). destruct Dec as [I|I].
    + rewrite (idle_exec p dls d1 d' E A I N1). rewrite I in M. left. cbn [mu]. lia.
    + destruct (IH d1 d' E A I N1) as [[X Y]|[X|(R1 & R2 & X)]].
      * rewrite X. destruct M as [M|(M1 & M2 & M3)]; auto.
      * left. destruct M as [M|(M1 & M2 & M3)]; lia.
      * destruct M as [M|(M1 & M2 & M3)]; [left; lia|right; repeat split; auto; lia].
Qed.
Lemma handler_next n i p : mine i -> handlers (dk n i) p <> HIdle ->
  (handlers (dk (S n) i) p = handlers (dk n i) p /\ forall l, FL n = Some l -> ~ of_ftask (FtReceive (DockEnd i p)) l) \/
  mu (handlers (dk (S n) i) p) < mu (handlers (dk n i) p) \/
  (ranging (handlers (dk n i) p) /\ ranging (handlers (dk (S n) i) p) /\ mu (handlers (dk (S n) i) p) = mu (handlers (dk n i) p)).
Proof.
  intros Mi H. destruct (dock_next n i) as (dls & E & Sh & Sg & Ha).
  assert (Nf : free (DockEnd i p) (fb (R n)) = false) by (cbn; destruct (handlers (dk n i) p); congruence).
  assert (Nt : FL n <> Some (FRoutine (BTake (DockEnd i p)))).
  { intros X. apply step_at in X. cbn [FleetModel.fstep site] in X. destruct (there _ _); [|discriminate]. cbn [bstep] in X. rewrite Nf in X. cbn [negb] in X. rewrite !orb_true_r in X. discriminate. }
  assert (N : forall k, ~ In (LRecv p k) dls).
  { intros k Hk. destruct (Sh _ Hk) as (l & Hl & S). destruct l as [j l|l|kk|j ok|j q ok|j q j' m|j q|j q]; cbn in S; try (destruct S as [_ S]); try discriminate; try tauto.
    - subst l. apply step_at in Hl. cbn [FleetModel.fstep] in Hl. discriminate.
    - destruct kk as [| | | | | | |x|]; try destruct S. destruct x as [j q|h]; [|destruct S]. destruct S as (-> & k' & S). injection S as <- _. congruence.
    - destruct S; discriminate.
    - destruct S as [S|(? & S)]; discriminate. }
  destruct (busy_exec p dls _ _ E (Al i (S n) Mi) H N) as [[X Y]|X]; [|now right].
  left. split; [exact X|]. intros l Hl [->|[(k & Hk & ->)|Hh]]; [congruence| |].
  - apply step_at in Hl. cbn [FleetModel.fstep site] in Hl. destruct (there _ _); [|discriminate]. cbn [bstep] in Hl. rewrite Nf in Hl. destruct (other _ _ _); [|discriminate]. cbn [negb] in Hl. rewrite !orb_true_r in Hl. discriminate.
  - destruct (Ha _ _ Hl Hh) as (dl & I1 & I2). exact (Y _ I1 I2).
Qed.
(* something else than waiting *)
Section Handler.
Variables b v : nat.
Hypothesis Mb : mine b.
Hypothesis Rg : forall n, exists m, n <= m /\ ~ ranging (handlers (dk m b) v).
Lemma handler_goes n : handlers (dk n b) v <> HIdle -> exists m, n <= m /\ mu (handlers (dk m b) v) < mu (handlers (dk n b) v).
Proof.
  intros N. set (h0 := handlers (dk n b) v) in *.
  assert (Dr : ranging h0 \/ ~ ranging h0) by (unfold ranging; destruct h0; auto).
  destruct Dr as [Rn|Rn].
  - assert (G : forall d, (ranging (handlers (dk (n + d) b) v) /\ mu (handlers (dk (n + d) b) v) = mu h0) \/ exists m, n <= m /\ mu (handlers (dk m b) v) < mu h0).
    { induction d as [|d [[Rk Mk]|IH]]; [left; rewrite Nat.add_0_r; auto| |auto]. assert (Nk : handlers (dk (n + d) b) v <> HIdle) by (intros E; rewrite E in Rk; destruct Rk).
      rewrite Nat.add_succ_r. destruct (handler_next (n + d) b v Mb Nk) as [[E _]|[X|(_ & R' & M')]]; [left; rewrite E; auto|right; exists (S (n + d)); split; lia|left; split; auto; lia]. }
    destruct (Rg n) as (m & Le & Nr). destruct (G (m - n)) as [[X _]|X]; [|exact X]. replace (n + (m - n)) with m in X by lia. contradiction.
  - destruct (wait (FtReceive (DockEnd b v)) b (fun k => n <= k /\ handlers (dk k b) v = h0) (fun k => n <= k /\ mu (handlers (dk (S k) b) v) < mu h0)) with (n := n) as (m & Le & A & X); auto.
    + intros k (Lk & Ek). destruct (handler_next k b v Mb) as [[E _]|[X|(Rk & _)]]; rewrite Ek in *; auto. contradiction.
    + intros k (Lk & Ek) Re. exfalso. apply N. rewrite <- Ek. apply (idle_waits black raddr wz _ _ _ (Al b k Mb) (Gn b k Mb)). intros l Hl. apply Re. right. now right.
    + intros k l (Lk & Ek) Hl Ol. destruct (handler_next k b v Mb) as [[E Nt]|[X|(Rk & _)]]; rewrite Ek in *; auto; [|contradiction]. destruct (Nt _ Hl Ol).
    + exists (S m). split; [lia|exact X].
Qed.
Lemma handler_idles n : exists m, n <= m /\ handlers (dk m b) v = HIdle.
Proof.
  remember (mu (handlers (dk n b) v)) as u eqn:Eu. revert n Eu. induction u as [u IH] using lt_wf_ind. intros n Eu.
  destruct u; [exists n; split; auto; apply mu_idle; auto|].
  destruct (handler_goes n) as (m & L & M); [intros E; rewrite E in Eu; discriminate|].
  destruct (IH _ ltac:(rewrite Eu; exact M) m eq_refl) as (k & Lk & K). exists k. split; [lia|auto].
Qed.
End Handler.
Lemma idle_next n i p : mine i -> handlers (dk n i) p = HIdle -> FL n <> Some (FRoutine (BTake (DockEnd i p))) -> handlers (dk (S n) i) p = HIdle.
Proof.
  intros Mi H Nt. destruct (dock_next n i) as (dls & E & Sh & _). eapply idle_exec; eauto.
  intros k Hk. destruct (Sh _ Hk) as (l & Hl & X). destruct l as [j l|l|kk|j ok|j q ok|j q j' m|j q|j q]; cbn in X; try (destruct X as [_ X]); try discriminate; try tauto.
  - subst l. apply step_at in Hl. cbn [FleetModel.fstep] in Hl. discriminate.
  - destruct kk as [| | | | | | |x|]; try destruct X. destruct x as [j q|h]; [|destruct X]. destruct X as (-> & k' & X). injection X as <- _. congruence.
  - destruct X; discriminate.
  - destruct X as [X|(? & X)]; discriminate.
Qed.

(* ---- one direction of a connection, to peer pb of dock ib from peer pa of dock ia ---- *)
Section Channel.
Variables (n0 ia ib pa pb : nat) (e e' : endp).
Hypothesis He : e = DockEnd ib pb.
Hypothesis He' : e' = DockEnd ia pa.
Hypothesis Ma : mine ia.
Hypothesis Mb : mine ib.
Hypothesis O0 : across (R n0) e = Some e'.
Hypothesis send_at : forall m, n0 <= m -> ended (out (fb (R m)) e') = false.
Hypothesis read_at : forall m, n0 <= m -> reading (inb (fb (R m)) e) = true.
Hypothesis Rg : forall n, exists m, n <= m /\ ~ ranging (handlers (dk m ib) pb).
Lemma gone_e m : gone (fb (R m)) (proc e) = false.
Proof. rewrite He. apply Gn, Mb. Qed.
Lemma gone_e' m : gone (fb (R m)) (proc e') = false.
Proof. rewrite He'. apply Gn, Ma. Qed.
Lemma acr m : n0 <= m -> across (R m) e = Some e'.
Proof. intros H. exact (across_later _ _ _ _ H O0). Qed.
Lemma acr' m : n0 <= m -> across (R m) e' = Some e.
Proof. intros H. exact (other_sym _ _ (wired_at m) _ _ (acr m H)). Qed.
Notation under m := (under wz e e' (fb (R m))).
Notation stream m := (stream e e' (fb (R m))).
Notation buf m := (buffer (inb (fb (R m)) e)).
Notation framed := (framed (wz (proc e')) (wz (proc e))).
Let avail m : bool := there (R m) e && free e (fb (R m)).
(* the receive routine is not ready to receive, or takes a message *)
Let caught m : Prop := avail m = false \/ FL m = Some (FRoutine (BTake e)).

Lemma under_at m : n0 <= m -> exists K, under m K.
Proof.
  intros H. destruct (sim_at m) as (ls & w & _ & [M Ee _ _ _ _]). pose proof (acr m H) as O. unfold across in O. rewrite Ee in O.
  destruct (m_flow _ _ _ _ _ _ M e e' O) as (K & C & _). exists K. exact C.
Qed.
Lemma take_dec m : FL m = Some (FRoutine (BTake e)) \/ FL m <> Some (FRoutine (BTake e)).
Proof.
  destruct (FL m) as [[| |[]| | | | |]|]; try (right; discriminate). destruct (end_eqb_spec e0 e) as [->|N]; [now left|right; congruence].
Qed.
Lemma send_dec m : FL m = Some (FRoutine (BPop e')) \/ FL m = Some (FRoutine (BWrite e')) \/ (FL m <> Some (FRoutine (BPop e')) /\ FL m <> Some (FRoutine (BWrite e'))).
Proof.
  destruct (FL m) as [[| |[]| | | | |]|]; try (right; right; split; discriminate);
    (destruct (end_eqb_spec e0 e') as [->|N]; [auto|right; right; split; congruence]).
Qed.
Lemma flows_at m : n0 <= m -> FL m <> Some (FRoutine (BTake e)) -> flows e e' (fb (R m)) (fb (R (S m))).
Proof.
  intros H N. destruct (FL m) as [l|] eqn:E; [|rewrite (still_at _ E); apply flows_refl].
  apply (fleet_flows black raddr wz _ _ _ _ _ (step_at _ _ E) (wired_at m) (acr m H)). congruence.
Qed.
Lemma more_at m : n0 <= m -> FL m <> Some (FRoutine (BTake e)) -> more wz e e' (fb (R m)) (fb (R (S m))).
Proof.
  intros H N. destruct (FL m) as [l|] eqn:E; [|rewrite (still_at _ E); apply more_refl].
  apply (fleet_more black raddr wz _ _ _ _ _ (step_at _ _ E) (wired_at m) (acr m H)); [|congruence].
  apply (legits_less wz (fends (R m)) (fends (R (S m)))); [apply ext; lia|exact (Lg (S m))].
Qed.
Lemma keeps_at m : n0 <= m -> FL m <> Some (FRoutine (BPop e')) -> FL m <> Some (FRoutine (BWrite e')) ->
  holding (out (fb (R (S m))) e') = holding (out (fb (R m)) e') /\ exists q, queue (out (fb (R (S m))) e') = queue (out (fb (R m)) e') ++ q.
Proof.
  intros H N1 N2. destruct (FL m) as [l|] eqn:E; [|rewrite (still_at _ E); split; [auto|exists []; now rewrite app_nil_r]].
  apply (fleet_keeps black raddr wz _ _ _ _ _ (step_at _ _ E) (acr m H)); [apply send_at; lia|congruence..].
Qed.
Lemma routine_at m k x : FL m = Some (FRoutine k) -> site k = Some x -> there (R m) x = true /\ bstep (fends (R m)) hub_end black raddr hostport wz (fb (R m)) k = Some (fb (R (S m))).
Proof.
  intros H S. apply step_at in H. cbn [FleetModel.fstep] in H. rewrite S in H. destruct (there (R m) x); [|discriminate]. split; auto.
  destruct (bstep _ _ _ _ _ _ _ k); [|discriminate]. injection H as <-. reflexivity.
Qed.
(* a frame that has left *)
Lemma frame_caught p f : framed p f -> forall k m, n0 <= m -> (exists s, stream m = f ++ s) -> length f - length (buf m) <= k -> exists m', m <= m' /\ caught m'.
Proof.
  intros Fp. destruct (framed_spec _ _ _ _ Fp) as (Sf & Nf & Sp & _).
  assert (Sl : forall m s, stream m = f ++ s -> (exists t, buf m = f ++ t) \/ (length (buf m) < length f /\ slice (wz (proc e)) (buf m) = 0%Z /\ exists z t, flight (out (fb (R m)) e') = z :: t)).
  { intros m s E. unfold FleetLiveProof2.stream in E. destruct (Nat.le_gt_cases (length f) (length (buf m))) as [Le|Gt].
    - left. exists (skipn (length f) (buf m)). rewrite <- (firstn_skipn (length f) (buf m)) at 1. f_equal.
      apply (f_equal (firstn (length f))) in E. rewrite !firstn_app, Nat.sub_diag, firstn_O, app_nil_r, firstn_all in E. replace (length f - length (buf m)) with 0 in E by lia.
      now rewrite firstn_O, app_nil_r in E.
    - right. split; [exact Gt|]. assert (X : f = buf m ++ skipn (length (buf m)) f).
      { rewrite <- (firstn_skipn (length (buf m)) f) at 1. f_equal. apply (f_equal (firstn (length (buf m)))) in E. rewrite !firstn_app, Nat.sub_diag, firstn_O, app_nil_r, firstn_all in E.
        replace (length (buf m) - length f) with 0 in E by lia. now rewrite firstn_O, app_nil_r in E. }
      split; [apply (Sp _ _ X); intros Y; apply (f_equal (@length Z)) in Y; rewrite skipn_length in Y; cbn in Y; lia|].
      destruct (flight (out (fb (R m)) e')) as [|z t] eqn:Ef; [|eauto]. exfalso. rewrite app_nil_r in E. apply (f_equal (@length Z)) in E. rewrite app_length in E. lia. }
  induction k as [k IH] using lt_wf_ind. intros m Hm Hs Hk.
  set (P := fun m => n0 <= m /\ (exists s, stream m = f ++ s) /\ length f - length (buf m) <= k).
  set (G := fun m => caught m \/ exists k', k' < k /\ (exists s, stream (S m) = f ++ s) /\ length f - length (buf (S m)) <= k').
  destruct (wait (FtReceive e) ib P G) with (n := m) as (m1 & Le & Gm); [rewrite He; reflexivity|exact Mb|..].
  - intros x (A & (s & B) & C). destruct (take_dec x) as [T|T]; [right; left; now right|]. left. destruct (flows_at x A T) as (t & u & D & F).
    split; [lia|]. split; [exists (s ++ t); rewrite D, B; now rewrite app_assoc|]. rewrite F, app_length. lia.
  - intros x (A & (s & B) & C) Re. left. left. unfold avail. destruct (there (R x) e) eqn:Th; [|reflexivity]. destruct (free e (fb (R x))) eqn:Fr; [|reflexivity]. exfalso.
    assert (Q : forall l, site l = Some e -> of_ftask (FtReceive e) (FRoutine l) -> bstep (fends (R x)) hub_end black raddr hostport wz (fb (R x)) l = None).
    { intros l Hl Ol. specialize (Re _ Ol). cbn [FleetModel.fstep] in Re. rewrite Hl, Th in Re. destruct (bstep _ _ _ _ _ _ _ l); [discriminate|reflexivity]. }
    destruct (Sl x s B) as [(t & Bt)|(Lt & Z0 & z & t & Ft)].
    + assert (X := Q (BTake e) eq_refl (or_introl eq_refl)). cbn [bstep] in X. rewrite (gone_e x), (read_at x A), Fr in X. cbn [orb negb] in X.
      rewrite Bt, Sf in X. assert (0 < length f) by (destruct f; [congruence|cbn; lia]). destruct (Z.leb_spec (Z.of_nat (length f)) 0); [lia|].
      destruct (unmarshal _ _) as [mm| | |]; try discriminate.
      rewrite He in Fr, X. cbn [free] in Fr. destruct (dock_packet _) as [k1|]; [|discriminate]. destruct (handlers (bd (fb (R x)) ib) pb) eqn:Eh; try discriminate.
      destruct (recv_silent _ pb k1 (Al ib x Mb) Eh) as (d' & es & E1 & Hh & Si). unfold dock_does in X. cbn [with_inb bd] in X. rewrite E1, Hh, new_app, events_silent in X by exact Si. discriminate.
    + assert (X : bstep (fends (R x)) hub_end black raddr hostport wz (fb (R x)) (BRead e 1) = None) by (apply Q; [reflexivity|]; right; left; exists 1; auto).
      cbn [bstep] in X. assert (Oa := acr x A). unfold across in Oa. rewrite Oa, (gone_e x), (read_at x A), Fr, Z0, Ft in X. cbn in X. discriminate.
  - intros x l (A & (s & B) & C) Hl Ol. cbn [of_ftask] in Ol. destruct Ol as [->|[(j & Hj & ->)|Hh]].
    + left. now right.
    + right. destruct (routine_at x _ e Hl eq_refl) as (_ & X). cbn [bstep] in X. assert (Oa := acr x A). unfold across in Oa. rewrite Oa in X.
      destruct (_ || _) eqn:Gd; [discriminate|]. apply orb_false_iff in Gd as [Gd Gl]. apply orb_false_iff in Gd as [Gd _]. apply orb_false_iff in Gd as [_ Gs]. apply Z.ltb_ge in Gs. apply Nat.ltb_ge in Gl.
      destruct (Sl x s B) as [(t & Bt)|(Lt & Z0 & _)].
      { exfalso. rewrite Bt, Sf in Gs. assert (0 < length f) by (destruct f; [congruence|cbn; lia]). lia. }
      assert (T : FL x <> Some (FRoutine (BTake e))) by congruence. destruct (flows_at x A T) as (t & _ & D & _).
      exists (k - 1). split; [lia|]. split; [exists (s ++ t); rewrite D, B; now rewrite app_assoc|]. injection X as X. rewrite <- X. cbn [with_inb with_out inb out]. rewrite upde_same. cbn [buffer].
      rewrite app_length, firstn_length. lia.
    + left. left. unfold avail. rewrite (handling_busy black raddr wz _ _ _ _ (step_at _ _ Hl) Hh). apply andb_false_r.
  - split; [exact Hm|]. split; [exact Hs|exact Hk].
  - destruct Gm as [Gm|(k' & Lt & Gs & Gk)]; [exists m1; auto|]. destruct (IH k' Lt (S m1) ltac:(lia) Gs Gk) as (m2 & Le2 & X). exists m2. split; [lia|exact X].
Qed.
(* bytes that have left *)
Lemma bytes_caught m : n0 <= m -> stream m <> [] -> exists m', m <= m' /\ caught m'.
Proof.
  intros H Ne. destruct (under_at m H) as (K & (Kw & Kq & fr & pt & -> & F & C & _ & X & _)). destruct (X (send_at m H)) as [-> _]. rewrite app_nil_r in C.
  destruct F as [|p f Kw' fr' Fp F']; [cbn in C; elim Ne; now symmetry|]. cbn [concat] in C. apply (frame_caught p f Fp (length f) m H); [exists (concat fr'); symmetry; exact C|lia].
Qed.
(* a message the send routine holds, or takes next *)
Variable n1 : nat.
Hypothesis Th : there (R n1) e' = true.
Lemma th m : n1 <= m -> there (R m) e' = true.
Proof. intros H. eapply there_stays; eauto. Qed.
Lemma held_caught p m : n0 <= m -> n1 <= m -> holding (out (fb (R m)) e') = Some p -> exists m', m <= m' /\ caught m'.
Proof.
  intros H H1 Hp. destruct (wait (FtSend e') ia (fun m => n0 <= m /\ n1 <= m /\ holding (out (fb (R m)) e') = Some p) (fun m => n0 <= m /\ holding (out (fb (R m)) e') = Some p /\ FL m = Some (FRoutine (BWrite e')))) with (n := m) as (m1 & Le & A & B & C); [rewrite He'; reflexivity|exact Ma|..]; auto.
  - intros x (A & B & C). destruct (send_dec x) as [D|[D|[D1 D2]]]; auto.
    + exfalso. destruct (routine_at x _ e' D eq_refl) as (_ & X). cbn [bstep] in X. rewrite C in X. destruct (_ || _); discriminate.
    + left. destruct (keeps_at x A D1 D2) as [X _]. rewrite X. repeat split; auto; lia.
  - intros x (A & B & C) Re. exfalso. specialize (Re (FRoutine (BWrite e')) (or_intror eq_refl)). cbn [FleetModel.fstep site] in Re. rewrite (th x B) in Re. cbn [bstep] in Re. rewrite (gone_e' x) in Re. unfold marshalled in Re. rewrite C in Re. destruct (marshal _ _); discriminate.
  - intros x l (A & B & C) Hl [->| ->]; auto. exfalso. destruct (routine_at x _ e' Hl eq_refl) as (_ & X). cbn [bstep] in X. rewrite C in X. destruct (_ || _); discriminate.
  - destruct (routine_at m1 _ e' C eq_refl) as (_ & X). cbn [bstep] in X. rewrite (gone_e' m1) in X. unfold marshalled in X. rewrite B in X.
    destruct (bytes_caught (S m1)) as (m2 & Le2 & Y); [lia| |exists m2; split; [lia|exact Y]].
    assert (Up : forall o, gone (lose_process o (fb (R m1))) o = true) by (intros [o|]; cbn; rewrite ?Nat.eqb_refl; reflexivity).
    destruct (marshal (wz (proc e')) (pack p)) as [f| | |] eqn:Em; try (exfalso; injection X as X; pose proof (gone_e' (S m1)) as Y; rewrite <- X, Up in Y; discriminate).
    injection X as X. unfold FleetLiveProof2.stream. rewrite <- X. cbn [with_out out inb]. rewrite upde_same. cbn [flight]. intros Y. apply app_eq_nil in Y as [_ Y]. apply app_eq_nil in Y as [_ Y]. exact (marshal_some _ _ _ Em Y).
Qed.
Lemma queued_caught m : n0 <= m -> n1 <= m -> holding (out (fb (R m)) e') = None -> queue (out (fb (R m)) e') <> [] -> exists m', m <= m' /\ caught m'.
Proof.
  intros H H1 Hn Hq. destruct (wait (FtSend e') ia (fun m => n0 <= m /\ n1 <= m /\ holding (out (fb (R m)) e') = None /\ queue (out (fb (R m)) e') <> []) (fun m => n0 <= m /\ n1 <= m /\ FL m = Some (FRoutine (BPop e')))) with (n := m) as (m1 & Le & A & B & C); [rewrite He'; reflexivity|exact Ma|..]; auto.
  - intros x (A & B & C & D). destruct (send_dec x) as [X|[X|[X1 X2]]]; auto.
    + exfalso. destruct (routine_at x _ e' X eq_refl) as (_ & Y). cbn [bstep] in Y. unfold marshalled in Y. rewrite C in Y. destruct (gone _ _); discriminate.
    + left. destruct (keeps_at x A X1 X2) as [X [q Y]]. rewrite X, Y. repeat split; auto; try lia. intros Z. apply app_eq_nil in Z as [Z _]. auto.
  - intros x (A & B & C & D) Re. exfalso. specialize (Re (FRoutine (BPop e')) (or_introl eq_refl)). cbn [FleetModel.fstep site] in Re. rewrite (th x B) in Re. cbn [bstep] in Re. rewrite (gone_e' x), (send_at x A), C in Re. cbn [orb] in Re.
    destruct (queue (out (fb (R x)) e')); [congruence|discriminate].
  - intros x l (A & B & C & D) Hl [->| ->]; auto. exfalso. destruct (routine_at x _ e' Hl eq_refl) as (_ & Y). cbn [bstep] in Y. unfold marshalled in Y. rewrite C in Y. destruct (gone _ _); discriminate.
  - destruct (routine_at m1 _ e' C eq_refl) as (_ & X). cbn [bstep] in X. destruct (_ || _); [discriminate|]. destruct (holding (out (fb (R m1)) e')) eqn:Eh; [discriminate|].
    destruct (queue (out (fb (R m1)) e')) as [|p q]; [discriminate|]. injection X as X.
    destruct (held_caught p (S m1)) as (m2 & Le2 & Y); [lia|lia| |exists m2; split; [lia|exact Y]]. rewrite <- X. cbn [with_out out]. rewrite upde_same. reflexivity.
Qed.
Lemma some_caught m p K : n0 <= m -> n1 <= m -> under m (p :: K) -> exists m', m <= m' /\ caught m'.
Proof.
  intros H H1 (Kw & Kq & fr & pt & EK & F & C & _ & X & _). destruct (X (send_at m H)) as [-> Hq]. rewrite app_nil_r in C.
  destruct F as [|p0 f Kw' fr' Fp F'].
  - cbn [app] in EK. rewrite Hq in EK. unfold held in EK. destruct (holding (out (fb (R m)) e')) as [y|] eqn:Eh; [exact (held_caught y m H H1 Eh)|]. apply queued_caught; auto. rewrite <- EK. discriminate.
  - cbn [concat] in C. apply (frame_caught p0 f Fp (length f) m H); [exists (concat fr'); symmetry; exact C|lia].
Qed.

Lemma stays K m : n0 <= m -> under m K -> forall d, (exists m' x, m <= m' /\ m' < m + d /\ FL m' = Some (FRoutine (BTake e)) /\ under m' (K ++ x)) \/ exists x, under (m + d) (K ++ x) /\ forall t, m <= t -> t < m + d -> FL t <> Some (FRoutine (BTake e)).
Proof.
  intros H U. induction d as [|d [(m' & x & A & B & C)|(x & IH & No)]].
  - right. exists []. rewrite Nat.add_0_r, app_nil_r. split; [exact U|lia].
  - left. exists m', x. repeat split; try apply C; lia.
  - destruct (take_dec (m + d)) as [T|T]; [left; exists (m + d), x; repeat split; auto; lia|]. right.
    destruct (more_at (m + d) ltac:(lia) T _ IH) as [y Y]. exists (x ++ y). rewrite Nat.add_succ_r, app_assoc. split; [exact Y|]. intros t L1 L2. destruct (Nat.eq_dec t (m + d)) as [->|Nt]; [exact T|apply No; lia].
Qed.
Lemma next_caught m p K : n0 <= m -> under m (p :: K) -> exists m' x, m <= m' /\ under m' (p :: K ++ x) /\ caught m'.
Proof.
  intros H U. destruct (stays _ m H U (n1 - m)) as [(m' & x & A & _ & B & C)|(x & X & _)]; [exists m', x; split; [exact A|]; split; [exact C|now right]|].
  destruct (some_caught (m + (n1 - m)) p (K ++ x) ltac:(lia) ltac:(lia) X) as (m2 & Le & C).
  destruct (stays _ m H U (m2 - m)) as [(m' & y & A & _ & B & D)|(y & Y & _)]; [exists m', y; split; [exact A|]; split; [exact D|now right]|].
  replace (m + (m2 - m)) with m2 in Y by lia. exists m2, y. split; [lia|]. split; [exact Y|exact C].
Qed.
Lemma no_take m d : handlers (dk m ib) pb = HIdle -> (forall t, m <= t -> t < m + d -> FL t <> Some (FRoutine (BTake e))) -> handlers (dk (m + d) ib) pb = HIdle.
Proof.
  intros H. induction d as [|d IH]; intros N; [now rewrite Nat.add_0_r|]. rewrite Nat.add_succ_r. apply idle_next; auto; [apply IH; intros t A B; apply N; lia|]. rewrite <- He. apply N; lia.
Qed.
Variable n2 : nat.
Hypothesis Th2 : there (R n2) e = true.
Lemma some_take m p K : n0 <= m -> under m (p :: K) -> exists m' x, m <= m' /\ FL m' = Some (FRoutine (BTake e)) /\ under m' (p :: K ++ x).
Proof.
  intros H U. destruct (handler_idles ib pb Mb Rg (m + n2)) as (m2 & Le2 & I2).
  destruct (stays _ m H U (m2 - m)) as [(m' & x & A & _ & B & C)|(x & X & _)]; [exists m', x; auto|]. replace (m + (m2 - m)) with m2 in X by lia.
  destruct (next_caught m2 p (K ++ x) ltac:(lia) X) as (m3 & y & Le3 & U3 & C3). rewrite <- app_assoc in U3. destruct C3 as [C3|C3]; [|exists m3, (x ++ y); repeat split; auto; lia].
  destruct (stays _ m2 ltac:(lia) X (m3 - m2)) as [(m' & z & A & _ & B & C)|(z & Z & No)]; [exists m', (x ++ z); repeat split; auto; [lia|cbn [app] in C; rewrite <- app_assoc in C; exact C]|].
  exfalso. pose proof (no_take m2 (m3 - m2) I2 No) as I3. replace (m2 + (m3 - m2)) with m3 in I3 by lia. unfold avail in C3. rewrite (there_stays n2 m3) in C3 by (auto; lia). rewrite He in C3. cbn [free andb] in C3. rewrite I3 in C3. discriminate.
Qed.
Lemma taken_as m p K : n0 <= m -> FL m = Some (FRoutine (BTake e)) -> under m (p :: K) ->
  (exists x, under (S m) (K ++ x)) /\ exists p', image p = Some p' /\ forall k, dock_packet p' = Some k -> dstep (dk m ib) (LRecv pb k) = Some (dk (S m) ib).
Proof.
  intros H T U. destruct (routine_at m _ e T eq_refl) as (_ & X).
  assert (Lgs : legits (fends (R m)) hub_end wz (fb (R (S m)))) by (apply (legits_less wz (fends (R m)) (fends (R (S m)))); [apply ext; lia|exact (Lg (S m))]).
  destruct (step_taken _ black raddr wz e e' (acr m H) _ _ _ X Lgs (gone_e (S m)) U) as (p1 & K' & x & EK & U2 & _). injection EK as <- <-. split; [eauto|].
  cbn [bstep] in X. destruct (_ || _) eqn:Gd; [discriminate|]. apply orb_false_iff in Gd as [_ Gd]. apply Z.leb_gt in Gd.
  destruct (chan_take _ _ _ _ _ U Gd) as (p2 & K2 & f & EK & Fp & Ef & _). injection EK as <- <-. rewrite Ef in X. destruct (framed_spec _ _ _ _ Fp) as (_ & _ & _ & Um).
  assert (Up : forall o, gone (lose_process o (fb (R m))) o = true) by (intros [o|]; cbn; rewrite ?Nat.eqb_refl; reflexivity).
  destruct (image p) as [p'|].
  2:{ exfalso. pose proof (gone_e (S m)) as G. destruct (unmarshal (wz (proc e)) f) eqn:Eu; [exact (Um _ eq_refl)|..]; injection X as X; rewrite <- X, Up in G; discriminate. }
  exists p'. split; [reflexivity|]. intros k Hk. rewrite Um in X. cbn [p_p pack] in X. rewrite He in X. rewrite Hk in X.
  destruct (HarborProof.does_dock _ _ _ _ _ X) as (d & Ed & ->). cbn [with_inb bd] in Ed. rewrite updp_same. exact Ed.
Qed.
Lemma arrive h post : forall pre m, n0 <= m -> under m (pre ++ h :: post) ->
  exists m' h', m <= m' /\ image h = Some h' /\ forall k, dock_packet h' = Some k -> dstep (dk m' ib) (LRecv pb k) = Some (dk (S m') ib).
Proof.
  intros pre. revert post. induction pre as [|p pre IH]; intros post m H U; cbn [app] in U; destruct (some_take _ _ _ H U) as (m1 & x & Le & T & U1);
    destruct (taken_as m1 _ _ ltac:(lia) T U1) as ((y & U2) & h' & Ih & Rk).
  - exists m1, h'. auto.
  - rewrite <- !app_assoc in U2. cbn [app] in U2. destruct (IH (post ++ x ++ y) (S m1) ltac:(lia) U2) as (m2 & h2 & Le2 & X). exists m2, h2. split; [lia|exact X].
Qed.
End Channel.
(* ---- what a dock hands to Send arrives ---- *)
Lemma hist_next n i : exists es, hist (dk (S n) i) = hist (dk n i) ++ es.
Proof.
  destruct (dock_next n i) as (dls & E & _). revert E. generalize (dk n i). generalize (dk (S n) i). intros d' d. revert d. induction dls as [|l dls IH]; intros d E.
  - injection E as ->. exists []. now rewrite app_nil_r.
  - cbn [exec] in E. destruct (dstep d l) as [d1|] eqn:E1; [|discriminate]. destruct (IH _ E) as (es & ->). destruct (dstep_grows _ _ _ E1) as (es1 & ->). exists (es1 ++ es). now rewrite app_assoc.
Qed.
Lemma hist_le n m i : n <= m -> exists es, hist (dk m i) = hist (dk n i) ++ es.
Proof.
  induction 1 as [|m L (es & IH)]; [exists []; now rewrite app_nil_r|]. destruct (hist_next m i) as (es1 & ->). rewrite IH. exists (es ++ es1). now rewrite app_assoc.
Qed.
Lemma event_stays n m i x : n <= m -> In x (hist (dk n i)) -> In x (hist (dk m i)).
Proof. intros L H. destruct (hist_le n m i L) as (es & ->). apply in_or_app. now left. Qed.
Lemma event_from n i x : In x (hist (dk n i)) -> exists t es, t < n /\ hist (dk (S t) i) = hist (dk t i) ++ es /\ In x es.
Proof.
  induction n as [|n IH]; intros H.
  - exfalso. rewrite (fe_start _ _ _ _ _ _ En) in H. exact H.
  - destruct (hist_next n i) as (es & E). rewrite E in H. apply in_app_or in H as [H|H]; [destruct (IH H) as (t & es' & L & X); exists t, es'; split; [lia|exact X]|exists n, es; auto].
Qed.
Lemma net_silent (d : dock gval) l d' es : tr gval d l d' -> netted l -> hist d' = hist d ++ es -> forall p k acc, ~ In (ESend p k acc) es.
Proof.
  intros T N G p0 k0 acc0 I. destruct T; cbn in N; try destruct N; proj; rewrite <- ?app_assoc in G;
    first [apply app_inv_head in G; subst|match type of G with ?h = ?h ++ _ => rewrite <- (app_nil_r h) in G at 1; apply app_inv_head in G; subst end];
    repeat (destruct I as [I|I]; [discriminate|]); destruct I.
Qed.
Lemma net_exec dls : forall (d d' : dock gval) es, exec dstep d dls = Some d' -> (forall l, In l dls -> netted l) -> hist d' = hist d ++ es -> forall p k acc, ~ In (ESend p k acc) es.
Proof.
  induction dls as [|l dls IH]; intros d d' es E N G p k acc I.
  - injection E as <-. rewrite <- (app_nil_r (hist d)) in G at 1. apply app_inv_head in G. subst. destruct I.
  - cbn [exec] in E. destruct (dstep d l) as [d1|] eqn:E1; [|discriminate]. destruct (dstep_grows _ _ _ E1) as (e1 & G1).
    assert (exists e2, hist d' = hist d1 ++ e2) as (e2 & G2).
    { clear - E. revert d1 E. induction dls as [|y dls IH]; intros d1 E; [injection E as <-; exists []; now rewrite app_nil_r|]. cbn [exec] in E. destruct (dstep d1 y) as [d2|] eqn:E1; [|discriminate].
      destruct (IH _ E) as (e2 & ->). destruct (dstep_grows _ _ _ E1) as (e1 & ->). exists (e1 ++ e2). now rewrite app_assoc. }
    rewrite G2, G1, <- app_assoc in G. apply app_inv_head in G. subst es. apply in_app_or in I as [I|I].
    + apply dstep_tr in E1 as [_ E1]. eapply net_silent; [exact E1|apply N; now left|exact G1|exact I].
    + eapply IH; [exact E|intros y Hy; apply N; now right|exact G2|exact I].
Qed.
(* a new event of sending comes of a step of the dock itself *)
Lemma sent_by n i es p k acc : hist (dk (S n) i) = hist (dk n i) ++ es -> In (ESend p k acc) es ->
  exists dl, FL n = Some (FDock i dl) /\ dstep (dk n i) dl = Some (dk (S n) i) /\ dock_does i dl (query_peers (outline (R n)) i) (fb (R n)) = Some (fb (R (S n))) /\ fends (R (S n)) = fends (R n) /\ fends (R n) i p <> Nowhere.
Proof.
  intros G I. destruct (dock_next n i) as (dls & E & Sh & Sg & _). destruct (FL n) as [l|] eqn:El.
  2:{ exfalso. eapply net_exec; [exact E| |exact G|exact I]. intros y Hy. destruct (Sh _ Hy) as (l & X & _). discriminate. }
  assert (Dc : (exists dl, l = FDock i dl) \/ forall y, In y dls -> netted y).
  { destruct l as [j l|l|kk|j ok|j q ok|j q j' m|j q|j q]; try (right; intros y Hy; destruct (Sh _ Hy) as (z & [= <-] & X); cbn in X; try (destruct X as [_ X]);
      try (destruct X as [X|X]); try (destruct X as (? & X)); try subst y; try exact Logic.I; tauto).
    - destruct (Nat.eq_dec j i) as [->|Nj]; [left; eauto|]. right. intros y Hy. destruct (Sh _ Hy) as (z & [= <-] & X & _). contradiction.
    - right. intros y Hy. destruct (Sh _ Hy) as (z & [= <-] & X). cbn in X. destruct kk as [| | | | | | |x|]; try destruct X. destruct x; [|destruct X]. destruct X as (_ & k' & ->). exact Logic.I. }
  destruct Dc as [[dl ->]|Dc]; [|exfalso; eapply net_exec; [exact E|exact Dc|exact G|exact I]].
  exists dl. rewrite (Sg _ eq_refl) in E. cbn [exec] in E. destruct (dstep (dk n i) dl) as [d1|] eqn:E1; [|discriminate]. injection E as E. subst d1.
  split; [reflexivity|]. split; [reflexivity|]. assert (St := step_at _ _ El). cbn [FleetModel.fstep] in St.
  assert (X : fon (outline (R n)) (bstep (fends (R n)) hub_end black raddr hostport wz (fb (R n)) (BDock i dl (query_peers (outline (R n)) i))) = Some (R (S n)) /\ ~ netted dl).
  { destruct dl; try discriminate St; (split; [exact St|intros []]). }
  destruct X as [X Nn]. destruct (bstep _ _ _ _ _ _ _ _) as [b'|] eqn:Eb; [|discriminate]. injection X as X. rewrite <- X at 1 2. cbn [fb].
  assert (Y : dock_does i dl (query_peers (outline (R n)) i) (fb (R n)) = Some b') by (cbn [bstep] in Eb; destruct dl; try discriminate Eb; (destruct (gone _ _); [discriminate Eb|exact Eb])).
  split; [exact Y|]. split; [reflexivity|].
  destruct (sim_at n) as (ls & w & Rn & F). destruct (run_sys _ _ _ _ _ _ Rn) as (Wi & _). assert (Kn := knows_dock _ _ _ _ _ i (wi_open _ Wi) (fs_sim _ _ _ _ F)).
  apply dstep_tr in E1 as [_ T]. destruct (knows_step _ _ _ _ Kn T) as (_ & es' & He & Hs); [intros ? ? ->; destruct (Nn Logic.I)|intros ? ->; destruct (Nn Logic.I)|].
  rewrite He in G. apply app_inv_head in G. subst es'. rewrite (fs_ends _ _ _ _ F). eapply Hs; eauto.
Qed.
Lemma pushed i p k ps es (e : endp) E : other E hub_end e = Some (DockEnd i p) -> forall b b' K, fold_left (dock_event i ps) es (Some b) = Some b' -> legits E hub_end wz b' -> In (ESend p k true) es ->
  FleetLiveProof2.under wz e (DockEnd i p) b K -> exists x, FleetLiveProof2.under wz e (DockEnd i p) b' (K ++ x) /\ In (proto_of k) x.
Proof.
  intros O. induction es as [|ev es IH]; intros b b' K H Ls I U; [destruct I|]. cbn [fold_left] in H.
  destruct (dock_event i ps (Some b) ev) as [b1|] eqn:X; [|rewrite fold_none in H; [discriminate|reflexivity]].
  assert (L1 : legits E hub_end wz b1) by (eapply (legits_grows E hub_end black hostport); [eapply events_grow; eauto|exact Ls]).
  destruct I as [->|I].
  - cbn [dock_event] in X. destruct (room (DockEnd i p) b); [|discriminate]. assert (Y : b1 = push (DockEnd i p) (proto_of k) b) by congruence. subst b1.
    assert (U1 : FleetLiveProof2.under wz e (DockEnd i p) (push (DockEnd i p) (proto_of k) b) (K ++ [proto_of k])).
    { unfold legits in L1. cbn in L1. apply Forall_app in L1 as [_ L1]. inversion L1 as [|? ? [T Lx] _]; subst. unfold FleetLiveProof2.under in *. cbn [push out inb]. rewrite upde_same.
      apply chan_push; auto. destruct (Lx e O). split; [exact T|]. now split. }
    destruct (events_more E black wz e (DockEnd i p) O i ps es _ _ H Ls _ U1) as (x & Ux). exists (proto_of k :: x). rewrite <- app_assoc in Ux. split; [exact Ux|now left].
  - assert (M : FleetLiveProof2.more wz e (DockEnd i p) b b1) by (eapply (events_more E black wz e (DockEnd i p) O i ps [ev]); [cbn [fold_left]; exact X|exact L1]).
    destruct (M _ U) as (y & Uy). destruct (IH _ _ _ H Ls I Uy) as (x & Ux & Ix). exists (y ++ x). rewrite app_assoc. split; [exact Ux|apply in_or_app; now right].
Qed.
Lemma wired_back n i p j q : fends (R n) i p = ToDock j q -> fends (R n) j q = ToDock i p.
Proof. intros H. pose proof (other_sym _ _ (wired_at n) (DockEnd i p) (DockEnd j q)) as X. cbn in X. rewrite H in X. specialize (X eq_refl). destruct (fends (R n) j q); congruence. Qed.
Lemma sent_arrives i p j q k n : mine i -> mine j -> fends (R n) i p = ToDock j q -> (forall m, ended (out (fb (R m)) (DockEnd i p)) = false) -> (forall m, reading (inb (fb (R m)) (DockEnd j q)) = true) ->
  (forall n, exists m, n <= m /\ ~ ranging (handlers (dk m j) q)) -> In (ESend p k true) (hist (dk n i)) ->
  exists m h', image (proto_of k) = Some h' /\ forall k', dock_packet h' = Some k' -> dstep (dk m j) (LRecv q k') = Some (dk (S m) j).
Proof.
  intros Mi Mj Lk Oe Rd Rg I. destruct (event_from _ _ _ I) as (t & es & Lt & G & It). destruct (sent_by _ _ _ _ _ _ G It) as (dl & _ & Ed & Dd & Ef & Np).
  assert (Lt0 : fends (R t) i p = ToDock j q) by (rewrite <- Lk; symmetry; apply ext; [lia|exact Np]). assert (Lb := wired_back _ _ _ _ _ Lt0).
  assert (O0 : across (R t) (DockEnd j q) = Some (DockEnd i p)) by (unfold across; cbn; now rewrite Lb).
  destruct (there_later t i p Mi Np) as (n1 & _ & Th1). destruct (there_later t j q Mj ltac:(congruence)) as (n2 & _ & Th2).
  destruct (under_at t (DockEnd j q) (DockEnd i p) O0 t (le_n t)) as (K & U).
  assert (Ls : legits (fends (R t)) hub_end wz (fb (R (S t)))) by (rewrite <- Ef; exact (Lg (S t))).
  unfold dock_does in Dd. rewrite Ed, G, new_app in Dd.
  destruct (pushed i p k _ es (DockEnd j q) (fends (R t)) O0 _ _ K Dd Ls It) as (x & Ux & Ix); [exact U|].
  destruct (in_split _ _ Ix) as (x1 & x2 & ->). rewrite app_assoc in Ux.
  destruct (arrive t i j p q _ _ eq_refl eq_refl Mi Mj O0 (fun m _ => Oe m) (fun m _ => Rd m) Rg n1 Th1 n2 Th2 _ x2 (K ++ x1) (S t) ltac:(lia) Ux) as (m & h' & _ & X & Y). exists m, h'. auto.
Qed.

(* ---- the goroutines of a dock ---- *)
Lemma dock_moves n i : (exists dl, FL n = Some (FDock i dl) /\ ~ netted dl /\ tr gval (dk n i) dl (dk (S n) i)) \/
  ((forall dl, FL n <> Some (FDock i dl)) /\ exists dls, exec dstep (dk n i) dls = Some (dk (S n) i) /\ forall l, In l dls -> netted l).
Proof.
  destruct (dock_next n i) as (dls & E & Sh & Sg & _).
  assert (Dc : (exists dl, FL n = Some (FDock i dl)) \/ ((forall dl, FL n <> Some (FDock i dl)) /\ forall y, In y dls -> netted y)).
  { destruct (FL n) as [l|] eqn:El; [|right; split; [discriminate|intros y Hy; destruct (Sh _ Hy) as (l & X & _); discriminate]].
    destruct l as [j l|l|kk|j ok|j q ok|j q j' m|j q|j q]; try (right; split; [discriminate|]; intros y Hy; destruct (Sh _ Hy) as (z & [= <-] & X); cbn in X; try (destruct X as [_ X]);
      try (destruct X as [X|X]); try (destruct X as (? & X)); try subst y; try exact Logic.I; tauto).
    - destruct (Nat.eq_dec j i) as [->|Nj]; [left; eauto|]. right. split; [congruence|]. intros y Hy. destruct (Sh _ Hy) as (z & [= <-] & X & _). contradiction.
    - right. split; [discriminate|]. intros y Hy. destruct (Sh _ Hy) as (z & [= <-] & X). cbn in X. destruct kk as [| | | | | | |x|]; try destruct X. destruct x; [|destruct X]. destruct X as (_ & k' & ->). exact Logic.I. }
  destruct Dc as [[dl El]|[N Dc]]; [|right; split; [exact N|eauto]]. left. exists dl. split; [exact El|]. rewrite (Sg _ El) in E. cbn [exec] in E. destruct (dstep (dk n i) dl) as [d1|] eqn:E1; [|discriminate]. injection E as E. subst d1.
  apply dstep_tr in E1 as [_ T]. split; [|exact T]. apply step_at in El. cbn [FleetModel.fstep] in El. destruct dl; try discriminate El; intros [].
Qed.
Lemma net_keeps (P : dock gval -> Prop) : (forall d l d', tr gval d l d' -> netted l -> state d' = Alive -> P d -> P d') ->
  forall dls d d', exec dstep d dls = Some d' -> (forall l, In l dls -> netted l) -> state d' = Alive -> P d -> P d'.
Proof.
  intros H. induction dls as [|l dls IH]; intros d d' E N A X; [injection E as <-; exact X|]. cbn [exec] in E. destruct (dstep d l) as [d1|] eqn:E1; [|discriminate].
  eapply IH; [exact E|intros y Hy; apply N; now right|exact A|]. apply dstep_tr in E1 as [_ T]. eapply H; [exact T|apply N; now left|eapply alive_before; eauto|exact X].
Qed.
Lemma sys_at n : exists ls s, exec (sstep (fends (R n)) hub_end (fun _ _ => whole) black raddr hostport) (sinit carried) ls = Some s /\ forall i, sd s i = dk n i.
Proof.
  destruct (sim_at n) as (ls & w & Rn & F). destruct (run_system _ _ _ _ _ _ _ Rn) as (_ & ls' & Rs & _). exists ls', (ws w). rewrite (fs_ends _ _ _ _ F). split; [exact Rs|].
  intros i. apply (m_docks _ _ _ _ _ _ (fs_sim _ _ _ _ F)).
Qed.
Lemma drun n i : exists ls, exec dstep (new_dock (carried i)) ls = Some (dk n i).
Proof.
  destruct (sys_at n) as (ls & s & E & D). rewrite <- D. apply (docks_run _ _ _ _ _ _ _ _ (reach_ok _ _ _ _ _ _ _ (wired_at n) _ _ E)).
Qed.
Section Call.
Variables i c : nat.
Hypothesis Mi : mine i.
Lemma call_next n r : nth_error (calls (dk n i)) c = Some r ->
  (exists acc, FL n = Some (FDock i (CStep c acc)) /\ tr gval (dk n i) (CStep c acc) (dk (S n) i)) \/
  ((forall acc, FL n <> Some (FDock i (CStep c acc))) /\ exists r', nth_error (calls (dk (S n) i)) c = Some r' /\ c_pc r' = c_pc r /\ (c_buf r' = c_buf r \/ c_buf r' <> None)).
Proof.
  intros H. destruct (dock_moves n i) as [(dl & El & _ & T)|(N & dls & E & Nt)].
  - destruct (cstep_dec c dl) as [[acc ->]|Nl]; [left; eauto|]. right. split; [intros acc X; rewrite El in X; injection X as ->; eapply Nl; reflexivity|eapply call_tr; eauto].
  - right. split; [intros acc; apply N|].
    apply (net_keeps (fun d => exists r', nth_error (calls d) c = Some r' /\ c_pc r' = c_pc r /\ (c_buf r' = c_buf r \/ c_buf r' <> None))) in E; auto; [|eauto].
    intros d l d' T Nl _ (r1 & H1 & P1 & B1). assert (Nc : forall acc, l <> CStep c acc) by (intros acc ->; destruct Nl). destruct (call_tr _ _ _ c r1 T Nc H1) as (r2 & H2 & P2 & B2).
    exists r2. split; [exact H2|]. split; [congruence|]. destruct B2 as [->|B2]; auto.
Qed.
Lemma call_goes n r0 : nth_error (calls (dk n i)) c = Some r0 -> (c_pc r0 = CWait -> c_buf r0 <> None) -> (forall x, c_pc r0 <> CDone x) ->
  exists m acc r1, n <= m /\ tr gval (dk m i) (CStep c acc) (dk (S m) i) /\ nth_error (calls (dk m i)) c = Some r1 /\ c_pc r1 = c_pc r0.
Proof.
  intros H0 B0 Nd.
  destruct (wait (FtCall i c) i (fun k => n <= k /\ exists r1, nth_error (calls (dk k i)) c = Some r1 /\ c_pc r1 = c_pc r0 /\ (c_pc r0 = CWait -> c_buf r1 <> None))
    (fun _ => exists m acc r1, n <= m /\ tr gval (dk m i) (CStep c acc) (dk (S m) i) /\ nth_error (calls (dk m i)) c = Some r1 /\ c_pc r1 = c_pc r0)) with (n := n) as (_ & _ & X); auto.
  - intros k (Lk & r1 & H1 & P1 & B1). destruct (call_next _ _ H1) as [(acc & _ & T)|(_ & r2 & H2 & P2 & B2)]; [right; exists k, acc, r1; auto|].
    left. split; [lia|]. exists r2. split; [exact H2|]. split; [congruence|]. intros Y. destruct B2 as [->|B2]; auto.
  - intros k (Lk & r1 & H1 & P1 & B1) Re. exfalso.
    assert (X : dstep (dk k i) (CStep c true) = None) by (eapply (task_dock black raddr wz (R k) i (TCall i c)); [apply Gn, Mi| |eexists; reflexivity|exact Logic.I]; intros l [acc [= ->]]; apply Re; exists acc; reflexivity).
    unfold dstep in X. rewrite (Al i k Mi), H1, P1 in X. destruct (c_pc r0) as [| | |x|x]; try discriminate; [destruct (c_buf r1); [discriminate|apply B1; auto]|destruct (Nd x eq_refl)].
  - intros k l (Lk & r1 & H1 & P1 & B1) Hl [acc ->]. destruct (call_next _ _ H1) as [(acc' & _ & T)|(N & _)]; [exists k, acc', r1; auto|destruct (N _ Hl)].
  - split; [lia|]. exists r0. auto.
Qed.
Definition fin n := exists m, n <= m /\ returns c (hist (dk m i)) <> [].
Lemma fin_from n m : n <= m -> fin m -> fin n.
Proof. intros L (k & Lk & X). exists k. split; [lia|auto]. Qed.
Lemma call_steps n r0 : nth_error (calls (dk n i)) c = Some r0 -> (c_pc r0 = CWait -> c_buf r0 <> None) -> (forall x, c_pc r0 <> CDone x) ->
  exists m r', n <= m /\ nth_error (calls (dk m i)) c = Some r' /\
    match c_pc r0 with CPut => c_pc r' = CSet | CSet => c_pc r' = CWait | CWait => exists x, c_pc r' = CGot x | CGot x => In (EReturn c x) (hist (dk m i)) | CDone _ => False end.
Proof.
  intros H B N. destruct (call_goes _ _ H B N) as (m & acc & r1 & L & T & H1 & P1).
  destruct (own_call _ _ _ _ _ T (Al i (S m) Mi) H1) as (r' & H' & P'). exists (S m), r'. split; [lia|]. split; [exact H'|]. rewrite P1 in P'. exact P'.
Qed.
Lemma got_fin n r0 x : nth_error (calls (dk n i)) c = Some r0 -> c_pc r0 = CGot x -> fin n.
Proof.
  intros H P. destruct (call_steps _ _ H) as (m & r' & L & _ & X); [congruence|congruence|]. rewrite P in X. exists m. split; auto. intros E.
  assert (Y : In x (returns c (hist (dk m i)))); [|rewrite E in Y; destruct Y]. unfold returns. apply in_flat_map. eexists. split; [exact X|]. cbn. rewrite Nat.eqb_refl. now left.
Qed.
Lemma buf_fin n r0 : nth_error (calls (dk n i)) c = Some r0 -> c_pc r0 = CWait -> c_buf r0 <> None -> fin n.
Proof.
  intros H P B. destruct (call_steps _ _ H) as (m & r' & L & H' & X); [auto|congruence|]. rewrite P in X. destruct X as [x X].
  apply (fin_from n m); auto. eapply got_fin; eauto.
Qed.
Lemma callback_next n b cb r : nth_error (callbacks (dk n i)) b = Some cb -> b_pc cb = BPut -> b_call cb = c -> nth_error (calls (dk n i)) c = Some r -> c_pc r = CWait -> c_buf r = None ->
  (FL n <> Some (FDock i (BStep b)) /\ nth_error (callbacks (dk (S n) i)) b = Some cb /\ exists r', nth_error (calls (dk (S n) i)) c = Some r' /\ c_pc r' = CWait /\ c_buf r' = None) \/
  exists r', nth_error (calls (dk (S n) i)) c = Some r' /\ c_pc r' = CWait /\ c_buf r' <> None.
Proof.
  intros Hb Pb Hc H P B. assert (A := Al i (S n) Mi).
  destruct (call_next _ _ H) as [(acc & _ & T)|(_ & r2 & H2 & P2 & B2)].
  { exfalso. inversion T; subst; congruence. }
  destruct (c_buf r2) as [y|] eqn:E2; [right; exists r2; repeat split; auto; congruence|].
  destruct (dock_moves n i) as [(dl & El & _ & T)|(N & dls & E & Nt)].
  - destruct (callback_tr _ _ _ _ _ T A Hb Pb) as [[Nl H3]|(r3 & r4 & H3 & H4 & P4 & B4)].
    + left. split; [congruence|]. split; [exact H3|]. exists r2. repeat split; auto; congruence.
    + right. rewrite Hc in H3, H4. exists r4. repeat split; auto; congruence.
  - left. split; [apply N|]. split; [|exists r2; repeat split; auto; congruence].
    apply (net_keeps (fun d => nth_error (callbacks d) b = Some cb)) in E; auto. intros d l d' T Nl Ad X.
    destruct T; cbn in Nl; try destruct Nl; proj; auto; apply nth_app; auto.
Qed.
Lemma cb_fin n : cb_of c (dk n i) -> past (dk n i) c -> fin n.
Proof.
  intros (b & cb & Hb & Hc) (r0 & H0 & Np). destruct (drun n i) as [li Li].
  assert (Dn : forall x, c_pc r0 = CDone x -> fin n).
  { intros x P. exists n. split; auto. destruct (inv_inv _ _ _ Li) as (_ & _ & _ & _ & _ & [I6 _]). rewrite (I6 _ _ H0), P. discriminate. }
  destruct (c_pc r0) as [| | |x|x] eqn:P; [destruct Np; congruence|destruct Np; congruence| |eapply got_fin; eauto|eauto].
  destruct (c_buf r0) as [y|] eqn:B; [eapply buf_fin; eauto; congruence|].
  destruct (b_pc cb) eqn:Pb; [|destruct (given_inv _ _ _ Li _ _ Hb) as (r' & X1 & X2); [congruence|]; rewrite Hc, H0 in X1; injection X1 as <-; destruct X2 as [X2|(x & [X2|X2])]; congruence..].
  destruct (wait (FtBack i b) i (fun k => nth_error (callbacks (dk k i)) b = Some cb /\ exists r1, nth_error (calls (dk k i)) c = Some r1 /\ c_pc r1 = CWait /\ c_buf r1 = None)
    (fun k => exists r1, nth_error (calls (dk (S k) i)) c = Some r1 /\ c_pc r1 = CWait /\ c_buf r1 <> None)) with (n := n) as (m & L & r1 & H1 & P1 & B1); auto.
  - intros k [Hk (r1 & H1 & P1 & B1)]. destruct (callback_next _ _ _ _ Hk Pb Hc H1 P1 B1) as [(_ & X)|X]; auto.
  - intros k [Hk (r1 & H1 & P1 & B1)] Re. exfalso.
    assert (X : dstep (dk k i) (BStep b) = None) by (eapply (task_dock black raddr wz (R k) i (TBack i b)); [apply Gn, Mi| |reflexivity|exact Logic.I]; intros l [= ->]; apply Re; reflexivity).
    unfold dstep in X. rewrite (Al i k Mi), Hk, Pb, Hc, H1, B1 in X. destruct (c_closed r1); discriminate.
  - intros k l [Hk (r1 & H1 & P1 & B1)] Hl Ol. cbn in Ol. subst l. destruct (callback_next _ _ _ _ Hk Pb Hc H1 P1 B1) as [(N & _)|X]; [destruct (N Hl)|exact X].
  - split; auto. exists r0. auto.
  - apply (fin_from n (S m)); [lia|]. eapply buf_fin; eauto.
Qed.
Lemma past_stays n m : n <= m -> past (dk n i) c -> past (dk m i) c.
Proof.
  induction 1 as [|m L IH]; auto. intros P. specialize (IH P). destruct (dock_moves m i) as [(dl & _ & _ & T)|(_ & dls & E & Nt)]; [apply (past_tr _ _ _ _ T IH)|].
  assert (A := Al i (S m) Mi). apply (net_keeps (fun d => past d c)) in E; auto. intros d l d' T _ _ X. apply (past_tr _ _ _ _ T X).
Qed.
Lemma call_past n q : In (ENew c q) (hist (dk n i)) -> exists m, n <= m /\ past (dk m i) c.
Proof.
  intros Nq. destruct (drun n i) as [li Li]. destruct (inv_inv _ _ _ Li) as ([I1 I2] & _). assert (Hq := I2 _ _ Nq).
  assert (exists r0, nth_error (calls (dk n i)) c = Some r0) as (r0 & H0).
  { rewrite <- I1, nth_error_map in Hq. destruct (nth_error (calls (dk n i)) c) as [r0|]; [eauto|discriminate]. }
  assert (Set_ : forall n r0, nth_error (calls (dk n i)) c = Some r0 -> c_pc r0 = CSet -> exists m, n <= m /\ past (dk m i) c).
  { intros n1 r1 H1 P1. destruct (call_steps _ _ H1) as (m & r' & L & H' & X); [congruence|congruence|]. rewrite P1 in X. exists m. split; auto. exists r'. rewrite X. split; auto. split; discriminate. }
  assert (Pd : forall n r0, nth_error (calls (dk n i)) c = Some r0 -> c_pc r0 <> CPut -> c_pc r0 <> CSet -> past (dk n i) c) by (intros n1 r1 H1 A B; exists r1; auto).
  destruct (c_pc r0) as [| | |x|x] eqn:P; [|eauto|exists n; split; auto; eapply Pd; eauto; congruence..].
  destruct (call_steps _ _ H0) as (m & r' & L & H' & X); [congruence|congruence|]. rewrite P in X. destruct (Set_ _ _ H' X) as (m' & L' & X'). exists m'. split; [lia|auto].
Qed.
End Call.
(* requests are served *)
Lemma server_replies j n k sv : mine j -> nth_error (servers (dk n j)) k = Some sv -> exists m acc, n <= m /\ In (EReplied k acc) (hist (dk m j)).
Proof.
  intros Mj.
  assert (Nx : forall m sv, nth_error (servers (dk m j)) k = Some sv ->
    (nth_error (servers (dk (S m) j)) k = Some sv /\ (forall res err, FL m <> Some (FDock j (SExec k res err))) /\ forall acc, FL m <> Some (FDock j (SSend k acc))) \/
    (s_pc sv = SRun /\ exists res err, nth_error (servers (dk (S m) j)) k = Some (mkServer (s_peer sv) (s_req sv) (SReply res err))) \/ exists acc, In (EReplied k acc) (hist (dk (S m) j))).
  { clear n sv. intros m sv H. destruct (dock_moves m j) as [(dl & El & _ & T)|(N & dls & E & Nt)].
    - destruct (tr_hist _ _ _ T) as (es & G). destruct (server_tr _ _ _ _ _ _ T G H) as [(H' & N1 & N2)|[X|(acc & I)]].
      + left. split; [exact H'|]. rewrite El. split; intros; congruence.
      + right. now left.
      + right. right. exists acc. rewrite G. apply in_or_app. now right.
    - left. split; [|split; intros; apply N]. assert (A := Al j (S m) Mj). apply (net_keeps (fun d => nth_error (servers d) k = Some sv)) in E; auto.
      intros d l d' T Nl _ X. destruct T; cbn in Nl; try destruct Nl; proj; auto; apply nth_app; auto. }
  assert (Go : forall n sv, nth_error (servers (dk n j)) k = Some sv -> s_pc sv <> SDone ->
    exists m, n <= m /\ ((s_pc sv = SRun /\ exists res err, nth_error (servers (dk m j)) k = Some (mkServer (s_peer sv) (s_req sv) (SReply res err))) \/ exists acc, In (EReplied k acc) (hist (dk m j)))).
  { clear n sv. intros n sv H Np. destruct (wait (FtServe j k) j (fun m => nth_error (servers (dk m j)) k = Some sv)
      (fun m => (s_pc sv = SRun /\ exists res err, nth_error (servers (dk (S m) j)) k = Some (mkServer (s_peer sv) (s_req sv) (SReply res err))) \/ exists acc, In (EReplied k acc) (hist (dk (S m) j)))) with (n := n) as (m & L & X); auto.
    - intros m Hm. destruct (Nx _ _ Hm) as [(X & _)|X]; auto.
    - intros m Hm Re. exfalso.
      assert (X : forall l, of_task (TServe j k) (WDock j l) -> due (WDock j l) -> dstep (dk m j) l = None).
      { apply (task_dock black raddr wz (R m) j (TServe j k)); [apply Gn, Mj|]. intros l Hl. apply Re. destruct Hl as [(res & err & [= ->])|(acc & [= ->])]; [left|right]; eauto. }
      destruct (s_pc sv) as [|res err|] eqn:P; [| |congruence].
      + specialize (X (SExec k [] None)). unfold dstep in X. rewrite (Al j m Mj), Hm, P in X. discriminate X; [left; eauto|exact Logic.I].
      + specialize (X (SSend k true)). unfold dstep in X. rewrite (Al j m Mj), Hm, P in X. discriminate X; [right; eauto|exact Logic.I].
    - intros m l Hm Hl Ol. destruct (Nx _ _ Hm) as [(_ & N1 & N2)|X]; auto. exfalso. destruct Ol as [(res & err & ->)|(acc & ->)]; [eapply N1|eapply N2]; eauto.
    - exists (S m). split; [lia|exact X]. }
  assert (Rep : forall n sv res err, nth_error (servers (dk n j)) k = Some sv -> s_pc sv = SReply res err -> exists m acc, n <= m /\ In (EReplied k acc) (hist (dk m j))).
  { intros n1 sv1 res err H P. destruct (Go _ _ H) as (m & L & [[X _]|(acc & X)]); [congruence|congruence|eauto]. }
  intros H. destruct (s_pc sv) as [|res err|] eqn:P; [| eapply Rep; eauto|].
  - destruct (Go _ _ H) as (m & L & [(_ & res & err & X)|(acc & X)]); [congruence| |eauto]. destruct (Rep _ _ res err X eq_refl) as (m' & acc & L' & X'). exists m', acc. split; [lia|auto].
  - destruct (drun n j) as [lj Lj]. destruct (working_inv _ _ _ Lj) as [Wk _]. specialize (Wk _ _ H). unfold servok in Wk. rewrite P in Wk. destruct Wk as [_ Wk].
    unfold replies in Wk. destruct (filter _ _) as [|e l] eqn:E; [discriminate|]. assert (X : In e (e :: l)) by now left. rewrite <- E in X. apply filter_In in X as [X Y]. destruct e; try discriminate.
    apply Nat.eqb_eq in Y. subst. eauto.
Qed.
Lemma recv_event (d : dock gval) p k d' : dstep d (LRecv p k) = Some d' -> In (ERecv p k) (hist d').
Proof.
  intros H. apply dstep_tr in H as [_ T]. inversion T; subst; proj; rewrite <- ?app_assoc; apply in_or_app; right; now left.
Qed.
(* A call committed to a peer of a dock that runs on returns. *)
Theorem committed_call i p j q c n : mine i -> mine j -> fends (R n) i p = ToDock j q ->
  (forall m, ended (out (fb (R m)) (DockEnd i p)) = false /\ ended (out (fb (R m)) (DockEnd j q)) = false /\ reading (inb (fb (R m)) (DockEnd i p)) = true /\ reading (inb (fb (R m)) (DockEnd j q)) = true) ->
  (forall n, exists m, n <= m /\ ~ ranging (handlers (dk m i) p)) -> (forall n, exists m, n <= m /\ ~ ranging (handlers (dk m j) q)) ->
  (forall m, ~ cleared (hist (dk m j))) -> (forall m, NoDup (map q_index (requests (hist (dk m i))))) -> (forall m k, ~ In (ESend q k false) (hist (dk m j))) ->
  In (ECommit c p true) (hist (dk n i)) -> exists m, n <= m /\ returns c (hist (dk m i)) <> [].
Proof.
  intros Mi Mj Lk Co Rgi Rgj Cl Nd Nr Hc.
  assert (Lb := wired_back _ _ _ _ _ Lk). destruct (drun n i) as [li Li].
  destruct (in_split _ _ Hc) as (u & v & Ex). destruct (commit_spec _ _ _ _ _ _ _ _ Li Ex) as (r & v' & N1 & -> & _).
  assert (Nq : In (ENew c r) (hist (dk n i))) by (rewrite Ex; apply in_or_app; auto).
  assert (Hs : In (ESend p (KRequest r) true) (hist (dk n i))) by (rewrite Ex; apply in_or_app; right; right; now left).
  (* the request arrives *)
  destruct (sent_arrives i p j q _ n Mi Mj Lk (fun m => proj1 (Co m)) (fun m => proj2 (proj2 (proj2 (Co m)))) Rgj Hs) as (m0 & h & Im & Rc). cbn [proto_of image] in Im.
  destruct (through (q_args r)) as [a'|]; [|discriminate]. injection Im as <-. specialize (Rc _ eq_refl). apply recv_event in Rc. set (r' := mkReq _ _ _ _ _) in Rc.
  set (m1 := n + S m0). assert (Hk : In (ERecv q (KRequest r')) (hist (dk m1 j))) by (apply (event_stays (S m0)); [unfold m1; lia|exact Rc]).
  (* it is served *)
  destruct (drun m1 j) as [lj Lj]. destruct (serving_inv _ _ _ Lj) as [Sv _].
  destruct (sys_at m1) as (ls1 & s1 & E1 & D1). assert (O1 := reach_ok _ _ _ _ _ _ _ (wired_at m1) _ _ E1).
  destruct (request_source _ _ _ _ _ _ _ (wired_at m1) s1 j q r' O1) as (i' & p1 & c' & q0 & _ & _ & _ & _ & _ & A2 & sl' & Hsl & Hin); [rewrite D1; exact Hk|]. rewrite D1 in Hsl.
  assert (Cr : carries (carried j) (q_slot r) true).
  { assert (Hin' : In (q_slot r) sl') by (inversion A2; subst; [exact Hin|other]).
    destruct (in_split _ _ Hsl) as (y & z & Ez). destruct (announce_event _ _ _ _ _ _ sl' _ _ Lj Ez (or_introl eq_refl)) as [An1 An2].
    apply An1; auto. intros X. apply An2 in X as ->. destruct Hin'. }
  assert (Acc : In (q, r') (accepted (map fst (carried j)) (hist (dk m1 j)))).
  { apply accepted_in; auto. cbn. destruct Cr as (x & y & -> & _). rewrite map_app. apply in_or_app. right. now left. }
  apply In_nth_error in Acc as [k Acc]. assert (Acc' := Acc). rewrite <- Sv, nth_error_map in Acc'. destruct (nth_error (servers (dk m1 j)) k) as [sv|] eqn:Es; [|discriminate].
  destruct (server_replies _ _ _ _ Mj Es) as (m2 & acc & L2 & Hr).
  (* the answer arrives *)
  destruct (in_split _ _ Hr) as (u2 & v2 & Ej). destruct (drun m2 j) as [lj2 Lj2].
  destruct (reply_spec _ _ _ _ _ _ _ Lj2 Ej) as (p2 & q2 & res & err & r2 & b2 & Acc2 & _ & -> & Ans).
  assert (Acc3 : nth_error (accepted (map fst (carried j)) (hist (dk m2 j))) k = Some (p2, q2)).
  { rewrite Ej, accepted_app. rewrite nth_error_app1; auto. apply nth_error_Some. congruence. }
  destruct (hist_le m1 m2 j L2) as (es & Eh). rewrite Eh, accepted_app, nth_error_app1, Acc in Acc3 by (apply nth_error_Some; congruence). injection Acc3 as <- <-.
  assert (Hs2 : In (ESend q (KResponse r2) acc) (hist (dk m2 j))) by (rewrite Ej; apply in_or_app; right; right; now left).
  destruct acc; [|destruct (Nr _ _ Hs2)].
  assert (Lb2 : fends (R m2) j q = ToDock i p) by (rewrite <- Lb; apply ext; [unfold m1 in L2; lia|congruence]).
  destruct (sent_arrives j q i p _ m2 Mj Mi Lb2 (fun m => proj1 (proj2 (Co m))) (fun m => proj1 (proj2 (proj2 (Co m)))) Rgi Hs2) as (m3 & h & Im & Rc2). cbn [proto_of image] in Im.
  destruct (through (p_result r2)) as [a2|]; [|discriminate]. injection Im as <-. specialize (Rc2 _ eq_refl). apply recv_event in Rc2. set (rs := mkResp _ _ _ _ _) in Rc2.
  (* and the call returns *)
  destruct (call_past i c Mi n r Nq) as (m4 & L4 & Pa). set (m5 := n + S m3 + m4).
  assert (Hk3 : In (ERecv p (KResponse rs)) (hist (dk m5 i))) by (apply (event_stays (S m3)); [unfold m5; lia|exact Rc2]).
  assert (Nq5 : In (ENew c r) (hist (dk m5 i))) by (apply (event_stays n); [unfold m5; lia|exact Nq]).
  apply (fin_from i c n m5); [unfold m5; lia|]. apply cb_fin; auto; [|apply (past_stays i c Mi m4); [unfold m5; lia|exact Pa]].
  destruct (sys_at m5) as (ls5 & s5 & E5 & D5). rewrite <- D5.
  eapply (response_cb carried (fends (R m5)) hub_end (fun _ _ => whole) black raddr hostport (wired_at m5)); [exact E5|rewrite D5; apply Nd|rewrite D5; exact Nq5| |rewrite D5; exact Hk3|].
  - rewrite <- Lk. apply ext; [unfold m5; lia|congruence].
  - cbn. destruct Ans as (I1 & _). exact I1.
Qed.
(* A call made once its feature is remembered at a peer, and at no other, goes there. *)
Lemma made n0 n i c q : mine i -> ~ In (ENew c q) (hist (dk n0 i)) -> In (ENew c q) (hist (dk n i)) ->
  exists m r, n0 <= m /\ nth_error (calls (dk m i)) c = Some r /\ c_pc r = CPut.
Proof.
  intros Mi No Hn. destruct (Nat.le_gt_cases n0 n) as [L|L]; [|exfalso; apply No, (event_stays n); [lia|exact Hn]]. induction L as [|n L IH]; [contradiction|].
  destruct (dock_moves n i) as [(dl & _ & _ & T)|(_ & dls & E & Nt)].
  - destruct (new_tr _ _ _ _ _ T Hn) as [X|(r & _ & X)]; [auto|]. exists (S n), r. split; [lia|exact X].
  - apply IH. revert Hn. refine (net_keeps (fun d => In (ENew c q) (hist d) -> In (ENew c q) (hist (dk n i))) _ _ _ _ E Nt (Al i (S n) Mi) (fun H => H)).
    intros d l d' T Nl _ Hd X. destruct (new_tr _ _ _ _ _ T X) as [Y|(r & Y & _)]; [auto|contradiction].
Qed.
Lemma known_commits i p c q n0 n : mine i -> In (ECached (q_slot q) p) (hist (dk n0 i)) -> (forall m p', In (ECached (q_slot q) p') (hist (dk m i)) -> p' = p) ->
  ~ In (ENew c q) (hist (dk n0 i)) -> In (ENew c q) (hist (dk n i)) -> exists m acc, n <= m /\ In (ECommit c p acc) (hist (dk m i)) /\ exists q', In (ESend p (KRequest q') acc) (hist (dk m i)).
Proof.
  intros Mi Ch On No Hn. destruct (made n0 n i c q Mi No Hn) as (m0 & r0 & L0 & H0 & P0).
  destruct (call_steps i c Mi m0 r0 H0) as (m1 & r1 & L1 & H1 & P1); [congruence|congruence|]. rewrite P0 in P1.
  destruct (call_goes i c Mi m1 r1 H1) as (m2 & acc & r2 & L2 & T & H2 & P2); [congruence|congruence|]. rewrite P1 in P2.
  destruct (drun m2 i) as [li Li].
  destruct (set_tr _ _ _ _ _ p T (Al i (S m2) Mi) H2 P2) as (X & q' & Y).
  - intros q' Eq. assert (q' = q) as ->.
    { destruct (inv_inv _ _ _ Li) as ([I1 I2] & _).
      assert (Or : q' = c_orig r2) by (destruct (committing_inv _ _ _ Li) as [Cm _]; destruct (Cm _ _ H2) as ([Z|Z] & _); congruence). subst q'.
      assert (X : In (ENew c q) (hist (dk (n + S m2) i))) by (apply (event_stays n); [lia|exact Hn]). destruct (drun (n + S m2) i) as [l2 Li2]. destruct (inv_inv _ _ _ Li2) as ([_ J2] & _). apply J2 in X.
      assert (Z : nth_error (requests (hist (dk m2 i))) c = Some (c_orig r2)) by (rewrite <- I1; apply map_nth_error, H2).
      destruct (hist_le m2 (n + S m2) i) as (es & Eh); [lia|]. rewrite Eh in X. unfold requests in X, Z. rewrite flat_map_app, nth_error_app1 in X by (apply nth_error_Some; rewrite Z; discriminate). rewrite Z in X. congruence. }
    assert (Ch2 : In (ECached (q_slot q) p) (hist (dk m2 i))) by (apply (event_stays n0); [lia|exact Ch]). pose proof (cache_inv _ _ _ Li (q_slot q)) as Ci.
    destruct (remote (dk m2 i) (q_slot q)) as [p'|]; [|destruct (Ci p Ch2)]. destruct Ci as (h1 & h2 & Eh & _). f_equal. apply (On m2). rewrite Eh. apply in_or_app. right. now left.
  - exists (n + S m2), acc. split; [lia|]. split; [|exists q']; (apply (event_stays (S m2)); [lia|assumption]).
Qed.
End Run.
