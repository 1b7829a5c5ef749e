(* Packets are handled in full; answered calls return. *)
From Verif Require Import Lts GoVal Tables DockModel DockSpec DockProof DockProof2 DockProof3 DockProof4 DockProof5 DockProof7 DockProof8.
From Coq Require Import Arith Bool List ZArith Lia Permutation.
Import ListNotations.
Open Scope nat_scope.

Section P.
Context {V : Type}.
Notation dock := (DockModel.dock V).
Notation tr := (tr V).
Implicit Types d : dock.
Implicit Types h e b : list (event V).

Lemma cachedby_app p h e : cachedby p (h ++ e) = cachedby p h ++ cachedby p e.
Proof. apply flat_map_app. Qed.
Lemma readies_app p h e : readies p (h ++ e) = readies p h + readies p e.
Proof. unfold readies. rewrite filter_app, app_length. reflexivity. Qed.

(* the last packet of p and what came after it *)
Definition note p (s : option (packet V * list (event V))) (ev : event V) :=
  match ev with
  | ERecv p' k => if p' =? p then Some (k, []) else option_map (fun x => (fst x, snd x ++ [ev])) s
  | _ => option_map (fun x => (fst x, snd x ++ [ev])) s
  end.
Definition lastof p h := fold_left (note p) h None.
Definition calm p (ev : event V) := match ev with ERecv p' _ => p' <> p | ESend p' (KReady _) _ => p' <> p | ECached _ p' => p' <> p | _ => True end.
Lemma fold_deaf p e s : Forall (fun ev => match ev with ERecv p' _ => p' <> p | _ => True end) e ->
  fold_left (note p) e s = option_map (fun x => (fst x, snd x ++ e)) s.
Proof.
  intros H. revert s. induction H as [|ev e Q H IH]; intros s; cbn; [destruct s as [[]|]; cbn; rewrite ?app_nil_r; reflexivity|].
  rewrite IH. destruct ev; cbn; try (destruct s as [[]|]; cbn; rewrite <- ?app_assoc; reflexivity).
  destruct (Nat.eqb_spec p0 p); [contradiction|]. destruct s as [[]|]; cbn; rewrite <- ?app_assoc; reflexivity.
Qed.
Lemma lastof_app p h e : lastof p (h ++ e) = fold_left (note p) e (lastof p h).
Proof. apply fold_left_app. Qed.
Lemma calm_deaf p e : Forall (calm p) e -> Forall (fun ev => match ev with ERecv p' _ => p' <> p | _ => True end) e.
Proof. apply Forall_impl. intros []; cbn; auto. Qed.
Lemma lastof_split p a k b : ~ hears p b -> lastof p (a ++ ERecv p k :: b) = Some (k, b).
Proof.
  intros H. rewrite lastof_app. cbn. rewrite Nat.eqb_refl. rewrite fold_deaf; [reflexivity|]. apply Forall_forall. intros ev X. destruct ev; auto. intros ->. apply H. eexists; exact X.
Qed.
Lemma calm_none p e : Forall (calm p) e -> readies p e = 0 /\ cachedby p e = [].
Proof.
  induction 1 as [|ev e Q H [A B]]; [auto|]. unfold readies in *. destruct ev; cbn in *; auto.
  - destruct k; auto. destruct (Nat.eqb_spec p0 p); [contradiction|]. auto.
  - destruct (Nat.eqb_spec p0 p); [contradiction|]. auto.
Qed.

Definition owes p (k : packet V) b (x : hpc) : Prop :=
  match x with
  | HIdle => handled p k b
  | RNext _ | RIter _ _ _ | RTested _ _ _ _ | RCommit _ _ _ _ => (exists sl, k = KReady sl) /\ readies p b = 0 /\ cachedby p b = []
  | GSend sl => k = KRegister sl /\ readies p b = 0 /\ cachedby p b = []
  | GPut sl => readies p b = 1 /\ k = KRegister (cachedby p b ++ sl)
  | BListen n | BAppend n => k = KRegistered n /\ readies p b = 0 /\ cachedby p b = []
  | BSend => (exists n, k = KRegistered n /\ In (ESocket (SListen n)) b) /\ readies p b = 0 /\ cachedby p b = []
  | BGo => (exists n, k = KRegistered n /\ In (ESocket (SListen n)) b) /\ readies p b = 1 /\ cachedby p b = []
  | ADial a | AAppend a => k = KAddress a /\ readies p b = 0 /\ cachedby p b = []
  end.
Definition dutiful (hs : nat -> hpc) h := forall p, match lastof p h with None => hs p = HIdle | Some (k, b) => owes p k b (hs p) end.

Lemma owes_frame p k b e x : Forall (calm p) e -> owes p k b x -> owes p k (b ++ e) x.
Proof.
  intros C H. destruct (calm_none _ _ C) as [R1 R2].
  assert (A1 : readies p (b ++ e) = readies p b) by (rewrite readies_app; lia).
  assert (A2 : cachedby p (b ++ e) = cachedby p b) by (rewrite cachedby_app, R2; apply app_nil_r).
  destruct x; cbn in *; rewrite ?A1, ?A2; try exact H.
  - destruct k; cbn in *; rewrite ?A1, ?A2; try exact H; rewrite in_app_iff; tauto.
  - destruct H as [(n & X & Y) Z]. split; [exists n; rewrite in_app_iff; auto|exact Z].
  - destruct H as [(n & X & Y) Z]. split; [exists n; rewrite in_app_iff; auto|exact Z].
Qed.
Lemma dutiful_frame hs h e : dutiful hs h -> (forall p, Forall (calm p) e) -> dutiful hs (h ++ e).
Proof.
  intros H C p. specialize (H p). rewrite lastof_app, fold_deaf by (apply calm_deaf, C). destruct (lastof p h) as [[k b]|]; cbn; [|exact H].
  apply owes_frame; auto.
Qed.
(* only peer p is concerned *)
Lemma dutiful_upd hs h e p x : dutiful hs h -> (forall p', p' <> p -> Forall (calm p') e) ->
  match lastof p (h ++ e) with None => x = HIdle | Some (k, b) => owes p k b x end -> dutiful (updp hs p x) (h ++ e).
Proof.
  intros H C X q. unfold updp. destruct (Nat.eqb_spec q p) as [->|N]; [exact X|]. specialize (H q). rewrite lastof_app, fold_deaf by (apply calm_deaf, C, N).
  destruct (lastof q h) as [[k b]|]; cbn; [|exact H]. apply owes_frame; auto.
Qed.
Lemma dutiful_upd0 hs h p x : dutiful hs h -> match lastof p h with None => x = HIdle | Some (k, b) => owes p k b x end -> dutiful (updp hs p x) h.
Proof. intros H X. rewrite <- (app_nil_r h). apply dutiful_upd; [exact H|constructor|]. rewrite app_nil_r. exact X. Qed.
Lemma dutiful_recv hs h p k x e : dutiful hs h -> (forall p', Forall (calm p') e) -> owes p k e x -> dutiful (updp hs p x) (h ++ ERecv p k :: e).
Proof.
  intros H C X. apply dutiful_upd; [exact H|intros q N; constructor; cbn; auto|]. rewrite lastof_split; [exact X|]. intros [k' Y]. pose proof (C p) as C'. rewrite Forall_forall in C'. specialize (C' _ Y). apply C'. reflexivity.
Qed.
Lemma dutiful_recv0 hs h p k e : dutiful hs h -> hs p = HIdle -> (forall p', Forall (calm p') e) -> owes p k e HIdle -> dutiful hs (h ++ ERecv p k :: e).
Proof.
  intros H A C X q. destruct (Nat.eq_dec q p) as [->|N].
  - rewrite lastof_split, A; [exact X|]. intros [k' Y]. pose proof (C p) as C'. rewrite Forall_forall in C'. specialize (C' _ Y). apply C'. reflexivity.
  - specialize (H q). rewrite lastof_app, fold_deaf by (apply calm_deaf; constructor; cbn; auto). destruct (lastof q h) as [[k' b']|]; cbn; [|exact H]. apply owes_frame; [constructor; cbn; auto|exact H].
Qed.
Ltac calm := intros; repeat (apply Forall_cons; [cbn; auto; fail|]); apply Forall_nil.
Lemma dutiful_step d l d' : dutiful (handlers d) (hist d) -> tr d l d' -> dutiful (handlers d') (hist d').
Proof.
  intros I T. destruct T; proj; rewrite <- ?app_assoc; cbn [app]; try exact I; try (apply dutiful_frame; [exact I|calm; fail]);
    try (apply dutiful_recv; [exact I|calm|cbn; eauto; fail]); try (apply dutiful_recv0; [exact I|assumption|calm|cbn; auto; fail]);
    try match goal with X : handlers d ?q = _ |- _ => pose proof (I q) as J; rewrite X in J;
      first [apply dutiful_upd0; [exact I|] | apply dutiful_upd; [exact I|calm|rewrite lastof_app; cbn [fold_left note]]];
      destruct (lastof q (hist d)) as [[k0 b0]|]; cbn [owes option_map fst snd] in J |- *; try discriminate J end;
    rewrite ?readies_app, ?cachedby_app; try unfold readies at 2; cbn; rewrite ?Nat.eqb_refl; cbn; rewrite ?app_nil_r, ?Nat.add_0_r; try solve [intuition eauto].
  - destruct k; try contradiction; (apply dutiful_recv0; [exact I|exact H|calm|cbn; auto]).
  - destruct J as ((sl & ->) & J). exact J.
  - destruct J as (-> & J1 & J2). rewrite J1, J2. auto.
  - destruct J as (J1 & ->). rewrite app_nil_r. cbn. auto.
  - destruct J as (J1 & ->). rewrite <- app_assoc. auto.
  - destruct J as (-> & J). split; [|exact J]. exists n. rewrite in_app_iff. cbn. auto.
  - destruct J as ((n & -> & J0) & J1 & J2). rewrite J1. split; [|auto]. exists n. rewrite in_app_iff. auto.
  - destruct J as ((n & -> & J0) & J1 & J2). cbn. auto.
  - destruct J as (-> & J1 & J2). cbn [handled]. rewrite readies_app, cachedby_app, J1, J2, in_app_iff. cbn. auto.
Qed.
Lemma dutiful_inv carried ls d : exec dstep (new_dock carried) ls = Some d -> dutiful (handlers d) (hist d).
Proof. apply (reach (fun d => dutiful (handlers d) (hist d))); [intros p; reflexivity|]. intros s l s' I _ T. eapply dutiful_step; eauto. Qed.
Lemma handled_idle carried ls d a p k b : exec dstep (new_dock carried) ls = Some d -> hist d = a ++ ERecv p k :: b -> ~ hears p b -> handlers d p = HIdle -> handled p k b.
Proof. intros E H N A. pose proof (dutiful_inv _ _ _ E p) as I. rewrite H, (lastof_split _ _ _ _ N), A in I. exact I. Qed.
Lemma handled_next carried ls d a p k b k' c : exec dstep (new_dock carried) ls = Some d -> hist d = a ++ ERecv p k :: b ++ ERecv p k' :: c -> ~ hears p b -> handled p k b.
Proof.
  intros E H N. rewrite app_comm_cons, app_assoc in H. destruct (behind _ _ _ _ _ _ E H) as (ls1 & l & ls2 & d1 & d2 & es1 & es2 & _ & E1 & T & _ & F & G).
  assert (X : es1 = [] /\ handlers d1 p = HIdle) by (event T G; auto; discriminate). destruct X as [-> X].
  rewrite app_nil_r in F. eapply handled_idle; eauto.
Qed.

(* a busy receive routine can always run to its end *)
Lemma commit_fate c acc d : state d = Alive -> state (commit c acc d) <> Exited.
Proof. intros A. unfold commit, at_call. destruct (nth_error (calls d) c) as [r|]; [|congruence]. destruct (c_req r) as [q|]; [|discriminate]. destruct (remote d (q_slot q)); [proj; congruence|]. destruct (sockets d); proj; congruence. Qed.
Lemma alive_or_crashed d : state d <> Exited -> state d = Alive \/ exists w, state d = Crashed w.
Proof. destruct (state d); eauto. congruence. Qed.
Lemma reorders_refl (l : list name) : reorders l l = true.
Proof. apply reorders_perm, Permutation_refl. Qed.
(* calls known to the table exist *)
Lemma iter_finish todo : forall d p f sl, state d = Alive -> handlers d p = RIter f sl todo -> (forall i c, zget (rpcs d) i = Some c -> nth_error (calls d) c <> None) ->
  exists ls d', exec dstep d ls = Some d' /\ Forall (own_step p) ls /\ ((exists w, state d' = Crashed w) \/ (state d' = Alive /\ handlers d' p = RNext sl)).
Proof.
  intros d. remember (length todo) as n eqn:En. revert d todo En. induction n as [n IH] using lt_wf_ind. intros d todo En p f sl A H W.
  destruct todo as [|i todo].
  - exists [HGo p]. cbn [exec]. unfold dstep. rewrite A, H. eexists. split; [reflexivity|]. split; [repeat constructor|]. right. proj. rewrite updp_same. auto.
  - set (todo' := filter (fun k => negb (k =? i)%Z) todo).
    assert (Et : filter (fun k => negb (k =? i)%Z) (i :: todo) = todo') by (cbn; rewrite Z.eqb_refl; reflexivity).
    assert (L : length todo' < n) by (subst n; cbn; unfold todo'; clear; induction todo; cbn; [lia|destruct (negb _); cbn; lia]).
    assert (K : forall d1, state d1 = Alive -> handlers d1 p = RIter f sl todo' -> rpcs d1 = rpcs d -> length (calls d1) = length (calls d) ->
      forall pre, exec dstep d pre = Some d1 -> Forall (own_step p) pre ->
      exists ls d', exec dstep d ls = Some d' /\ Forall (own_step p) ls /\ ((exists w, state d' = Crashed w) \/ (state d' = Alive /\ handlers d' p = RNext sl))).
    { intros d1 A1 H1 R1 C1 pre Ep Op. destruct (IH (length todo') L d1 todo' eq_refl p f sl A1 H1) as (ls & d' & X & Y & Z).
      - intros j c. rewrite R1. intros X. specialize (W _ _ X). intros Y. apply nth_error_None in Y. apply W, nth_error_None. lia.
      - exists (pre ++ ls), d'. rewrite exec_app, Ep. split; [exact X|]. split; [apply Forall_app; auto|exact Z]. }
    destruct (zget (rpcs d) i) as [c|] eqn:Ez.
    + destruct (nth_error (calls d) c) as [r|] eqn:Ec; [|exfalso; eapply W; eauto]. destruct (c_req r) as [q|] eqn:Eq.
      * (* unsent: test, then maybe commit *)
        set (d1 := with_handler p (RTested f sl todo' c) d). assert (S1 : dstep d (HPick p i) = Some d1) by (unfold dstep; rewrite A, H, Ez, Et; unfold at_call; rewrite Ec, Eq; reflexivity).
        assert (H1 : handlers d1 p = RTested f sl todo' c) by (unfold d1; proj; apply updp_same).
        destruct (zlist_eqb (q_slot q) f) eqn:Ef.
        -- set (d2 := with_handler p (RCommit f sl todo' c) d1). assert (S2 : dstep d1 (HGo p) = Some d2).
           { unfold dstep. rewrite H1. unfold d1 at 1. proj. rewrite A. unfold at_call, d1 at 1. proj. rewrite Ec, Eq, Ef. reflexivity. }
           assert (H2 : handlers d2 p = RCommit f sl todo' c) by (unfold d2; proj; apply updp_same).
           set (d3 := with_handler p (RIter f sl todo') (commit c true d2)). assert (S3 : dstep d2 (HCommit p true) = Some d3).
           { unfold dstep. rewrite H2. unfold d2 at 1, d1 at 1. proj. rewrite A. reflexivity. }
           assert (Hs : handlers d3 p = RIter f sl todo') by (unfold d3; proj; apply updp_same).
           destruct (alive_or_crashed (commit c true d2)) as [A3|A3]; [apply commit_fate; exact A| |exists [HPick p i; HGo p; HCommit p true], d3; cbn [exec]; rewrite S1, S2, S3; split; [reflexivity|split; [repeat constructor|left; exact A3]]].
           apply (K d3 A3 Hs) with (pre := [HPick p i; HGo p; HCommit p true]); [| |cbn [exec]; rewrite S1, S2, S3; reflexivity|repeat constructor];
             unfold d3, commit, at_call, d2, d1; proj; rewrite Ec, Eq; destruct (remote d (q_slot q)); proj; try (destruct (sockets d); proj); rewrite ?set_nth_length; reflexivity.
        -- set (d2 := with_handler p (RIter f sl todo') d1). assert (S2 : dstep d1 (HGo p) = Some d2).
           { unfold dstep. rewrite H1. unfold d1 at 1. proj. rewrite A. unfold at_call, d1 at 1. proj. rewrite Ec, Eq, Ef. reflexivity. }
           apply (K d2) with (pre := [HPick p i; HGo p]); [exact A|unfold d2; proj; apply updp_same|reflexivity|reflexivity|cbn [exec]; rewrite S1, S2; reflexivity|repeat constructor].
      * apply (K (with_handler p (RIter f sl todo') d)) with (pre := [HPick p i]); [exact A|proj; apply updp_same|reflexivity|reflexivity| |repeat constructor].
        cbn [exec]. unfold dstep. rewrite A, H, Ez, Et. unfold at_call. rewrite Ec, Eq. reflexivity.
    + apply (K (with_handler p (RIter f sl todo') d)) with (pre := [HPick p i]); [exact A|proj; apply updp_same|reflexivity|reflexivity| |repeat constructor].
      cbn [exec]. unfold dstep. rewrite A, H, Ez, Et. cbn. rewrite Z.eqb_refl. reflexivity.
Qed.
Lemma rpcs_calls carried ls d i c : exec dstep (new_dock carried) ls = Some d -> zget (rpcs d) i = Some c -> nth_error (calls d) c <> None.
Proof.
  intros E H. destruct (inv_inv _ _ _ E) as (I & _ & R & _). destruct (R _ _ H) as (q & X & _). destruct I as [I1 I2]. apply nth_lt in X.
  rewrite <- I1, map_length in X. intros Y. apply nth_error_None in Y. lia.
Qed.
Definition reachable carried d := exists ls, exec dstep (new_dock carried) ls = Some d.
Lemma reachable_exec carried d ls d' : reachable carried d -> exec dstep d ls = Some d' -> reachable carried d'.
Proof. intros [l E] H. exists (l ++ ls). rewrite exec_app, E. exact H. Qed.
Definition finishes p d := exists ls d', exec dstep d ls = Some d' /\ Forall (own_step p) ls /\ ((exists w, state d' = Crashed w) \/ (state d' = Alive /\ handlers d' p = HIdle)).
Lemma finishes_after p d pre d1 : exec dstep d pre = Some d1 -> Forall (own_step p) pre -> finishes p d1 -> finishes p d.
Proof. intros E F (ls & d' & A & B & C). exists (pre ++ ls), d'. rewrite exec_app, E. split; [exact A|]. split; [apply Forall_app; auto|exact C]. Qed.
Lemma finishes_dead p d : (exists w, state d = Crashed w) -> finishes p d.
Proof. intros H. exists [], d. cbn. auto. Qed.
Lemma finishes_idle p d : state d = Alive -> handlers d p = HIdle -> finishes p d.
Proof. intros A H. exists [], d. cbn. auto. Qed.
Lemma step1 p d l d1 : dstep d l = Some d1 -> own_step p l -> finishes p d1 -> finishes p d.
Proof. intros E F H. apply (finishes_after p d [l] d1); [cbn [exec]; rewrite E; reflexivity|repeat constructor; exact F|exact H]. Qed.
Lemma next_finish carried sl : forall d p, reachable carried d -> state d = Alive -> handlers d p = RNext sl -> finishes p d.
Proof.
  induction sl as [|f sl IH]; intros d p R A H.
  - eapply (step1 p d (HGo p)); [unfold dstep; rewrite A, H; reflexivity|reflexivity|]. apply finishes_idle; [assumption|proj; apply updp_same].
  - assert (S : dstep d (HGo p) = Some (with_handler p (RIter f sl (map fst (rpcs d))) d)) by (unfold dstep; rewrite A, H; reflexivity).
    eapply (step1 p d (HGo p)); [exact S|reflexivity|]. set (d1 := with_handler p (RIter f sl (map fst (rpcs d))) d) in *.
    assert (R1 : reachable carried d1) by (eapply reachable_exec with (ls := [HGo p]); [exact R|cbn [exec]; rewrite S; reflexivity]).
    destruct (iter_finish (map fst (rpcs d)) d1 p f sl) as (ls & d2 & X & Y & Z); [exact A|unfold d1; proj; apply updp_same|destruct R1 as [l0 R1]; intros i c; apply (rpcs_calls _ _ _ _ _ R1)|].
    eapply finishes_after; [exact X|exact Y|]. destruct Z as [Z|[Z1 Z2]]; [apply finishes_dead, Z|]. apply IH; auto. eapply reachable_exec; eauto.
Qed.
Lemma iter_finish' carried d p f sl todo : reachable carried d -> state d = Alive -> handlers d p = RIter f sl todo -> finishes p d.
Proof.
  intros R A H. destruct (iter_finish todo d p f sl A H) as (ls & d2 & X & Y & Z); [destruct R as [l0 R]; intros i c; apply (rpcs_calls _ _ _ _ _ R)|].
  eapply finishes_after; [exact X|exact Y|]. destruct Z as [Z|[Z1 Z2]]; [apply finishes_dead, Z|]. eapply next_finish; eauto. eapply reachable_exec; eauto.
Qed.
Lemma put_finish sl : forall d p, state d = Alive -> handlers d p = GPut sl -> finishes p d.
Proof.
  induction sl as [|f sl IH]; intros d p A H.
  - eapply (step1 p d (HGo p)); [unfold dstep; rewrite A, H; reflexivity|reflexivity|]. apply finishes_idle; [assumption|proj; apply updp_same].
  - eapply (step1 p d (HGo p)); [unfold dstep; rewrite A, H; reflexivity|reflexivity|]. apply IH; [exact A|]. proj. apply updp_same.
Qed.
Lemma bsend_finish d p : state d = Alive -> handlers d p = BSend -> finishes p d.
Proof.
  intros A H. eapply (step1 p d (HSend p (collected d) true)); [unfold dstep; rewrite A, H, reorders_refl; reflexivity|reflexivity|].
  eapply (step1 p _ (HGo p)); [unfold dstep; proj; rewrite A, updp_same; reflexivity|reflexivity|]. apply finishes_idle; [assumption|proj; apply updp_same].
Qed.
Lemma append_finish d p n : state d = Alive -> handlers d p = BAppend n -> finishes p d.
Proof.
  intros A H. eapply (step1 p d (HGo p)); [unfold dstep; rewrite A, H; reflexivity|reflexivity|]. apply bsend_finish; [exact A|proj; apply updp_same].
Qed.
(* a handler past its test names an existing call *)
Lemma window_call carried ls d p c : exec dstep (new_dock carried) ls = Some d -> window c (handlers d p) -> c < length (calls d).
Proof.
  intros E. assert (X : (forall p c, window c (handlers d p) -> c < length (calls d)) /\ rpcs_ok (rpcs d) (hist d) /\ ids d); [|apply X]. revert E.
  apply (reach (fun d => (forall p c, window c (handlers d p) -> c < length (calls d)) /\ rpcs_ok (rpcs d) (hist d) /\ ids d)).
  - split; [intros q x []|]. split; [intros i x H; discriminate H|]. split; [reflexivity|intros x q []].
  - clear. intros d l d' (I & J & K) _ T. split; [|split; [eapply rpcs_step; eauto|eapply ids_step; eauto]]. clear J K.
    destruct T; proj; rewrite ?set_nth_length, ?app_length; try exact I; intros p' c' W;
      try (unfold updp in W; match type of W with context [?a =? ?b] => destruct (Nat.eqb_spec a b) end; [|apply (I _ _) in W; assumption]; cbn in W; try contradiction; subst;
           match goal with X : nth_error (calls _) _ = Some _ |- _ => apply nth_lt in X; exact X | X : handlers d ?q = _ |- _ => apply (I q); rewrite X; reflexivity end).
    apply I in W. lia.
Qed.
Lemma handler_finish carried d p : reachable carried d -> state d = Alive -> finishes p d.
Proof.
  intros R A.
  assert (Rs : forall l d1, dstep d l = Some d1 -> reachable carried d1) by (intros l d1 S; eapply reachable_exec with (ls := [l]); [exact R|cbn [exec]; rewrite S; reflexivity]).
  destruct (handlers d p) as [|sl|f sl todo|f sl todo c|f sl todo c|sl|sl|n|n| | |a|a] eqn:H.
  - apply finishes_idle; assumption.
  - eapply next_finish; eauto.
  - eapply iter_finish'; eauto.
  - destruct (nth_error (calls d) c) as [r|] eqn:Ec.
    + destruct (c_req r) as [q|] eqn:Eq.
      * destruct (zlist_eqb (q_slot q) f) eqn:Ef.
        -- assert (S : dstep d (HGo p) = Some (with_handler p (RCommit f sl todo c) d)) by (unfold dstep; rewrite A, H; unfold at_call; rewrite Ec, Eq, Ef; reflexivity).
           eapply step1; [exact S|reflexivity|]. set (d1 := with_handler p (RCommit f sl todo c) d) in *.
           assert (S2 : dstep d1 (HCommit p true) = Some (with_handler p (RIter f sl todo) (commit c true d1))) by (unfold dstep, d1; proj; rewrite A, updp_same; reflexivity).
           eapply step1; [exact S2|reflexivity|]. match goal with |- finishes p ?x => destruct (alive_or_crashed x) as [A2|A2]; [apply commit_fate; exact A| |apply finishes_dead; exact A2] end.
           eapply iter_finish'; [eapply reachable_exec with (ls := [HCommit p true]); [exact (Rs _ _ S)|cbn [exec]; rewrite S2; reflexivity]|exact A2|proj; apply updp_same].
        -- assert (S : dstep d (HGo p) = Some (with_handler p (RIter f sl todo) d)) by (unfold dstep; rewrite A, H; unfold at_call; rewrite Ec, Eq, Ef; reflexivity).
           eapply step1; [exact S|reflexivity|]. eapply iter_finish'; [exact (Rs _ _ S)|exact A|proj; apply updp_same].
      * eapply (step1 p d (HGo p)); [unfold dstep; rewrite A, H; unfold at_call; rewrite Ec, Eq; reflexivity|reflexivity|]. apply finishes_dead. proj. eauto.
    + exfalso. destruct R as [ls R]. eapply window_call in R; [|rewrite H; reflexivity]. apply nth_error_None in Ec. lia.
  - assert (S : dstep d (HCommit p true) = Some (with_handler p (RIter f sl todo) (commit c true d))) by (unfold dstep; rewrite A, H; reflexivity).
    eapply step1; [exact S|reflexivity|]. match goal with |- finishes p ?x => destruct (alive_or_crashed x) as [A2|A2]; [apply commit_fate; exact A| |apply finishes_dead; exact A2] end.
    eapply iter_finish'; [exact (Rs _ _ S)|exact A2|proj; apply updp_same].
  - eapply (step1 p d (HSend p (collected d) true)); [unfold dstep; rewrite A, H, reorders_refl; reflexivity|reflexivity|]. eapply put_finish; [exact A|proj; apply updp_same].
  - eapply put_finish; eauto.
  - eapply (step1 p d (HNet p true)); [unfold dstep; rewrite A, H; reflexivity|reflexivity|]. apply append_finish with n; [exact A|proj; apply updp_same].
  - eapply append_finish; eauto.
  - apply bsend_finish; assumption.
  - eapply (step1 p d (HGo p)); [unfold dstep; rewrite A, H; reflexivity|reflexivity|]. apply finishes_idle; [assumption|proj; apply updp_same].
  - eapply (step1 p d (HNet p true)); [unfold dstep; rewrite A, H; reflexivity|reflexivity|].
    eapply (step1 p _ (HGo p)); [unfold dstep; proj; rewrite A, updp_same; reflexivity|reflexivity|]. apply finishes_idle; [assumption|proj; apply updp_same].
  - eapply (step1 p d (HGo p)); [unfold dstep; rewrite A, H; reflexivity|reflexivity|]. apply finishes_idle; [assumption|proj; apply updp_same].
Qed.
End P.
