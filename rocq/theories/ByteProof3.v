(* C72: whole runs, and what follows for them. *)
From Verif Require Import Lts GoInt GoVal Tables CodecSpec ProtoModel ProtoSpec SysCodec DockModel DockSpec DockProof SysModel SysSpec SysProof SysProof4 DockProof2 ByteModel ByteSpec ByteProof ByteProof2.
From Verif Require CallSpec HubModel SysProof2 ConnModel.
From Coq Require Import Arith Bool List ZArith Lia.
Import ListNotations.
Open Scope nat_scope.

Section Run.
Variables (carried : nat -> list (name * bool)) (link : nat -> nat -> wend) (hublink : nat -> option (nat * nat)).
Variables (black : list Z) (raddr : nat -> name) (hostport : name -> Z -> name) (ws : option nat -> wsize).
Variable c : list gval -> option (list gval).
Hypothesis Hc : forall l x, through l = Some x -> c l = Some x.
Hypothesis W : wired link hublink.
Notation other := (other link hublink).
Notation carry := (fun _ _ : nat => c).
Notation bstep := (bstep link hublink black raddr hostport ws).
Notation sstep := (sstep link hublink carry black raddr hostport).
Notation sim := (sim link hublink ws c).
Notation legits := (legits link hublink ws).

Lemma stutter b' s (x : bool) : sim b' s -> exists ls s', exec sstep s ls = Some s' /\ sim b' s' /\ (x = false -> lossless ls).
Proof. intros M. exists [], s. split; [reflexivity|]. split; [exact M|]. intros _ l []. Qed.
Lemma step_sim b s l b' : sim b s -> bstep b l = Some b' -> legits b' ->
  exists ls s', exec sstep s ls = Some s' /\ sim b' s' /\ (dropped b = false -> lossless ls).
Proof.
  intros M H L. destruct l as [i l ps|l|e|e|e n|e|e n|e|e]; [..|eapply take_sim; eauto|]; cbn [ByteModel.bstep] in H.
  - assert (X : dock_does i l ps b = Some b' /\ sstep s (SDock i l ps) = dock_step link carry i l ps s).
    { destruct l; try discriminate H; (destruct (gone b (Some i)); [discriminate H|]); split; auto. }
    destruct X as [X Y]. destruct (dock_sim carried link hublink black raddr hostport ws c W _ _ _ _ _ _ M X L) as (s' & E & M').
    exists [SDock i l ps], s'. cbn [exec]. rewrite Y, E. split; [reflexivity|]. split; auto. intros _ k [<-|[]]. exact I.
  - assert (X : hub_does black raddr hostport l b = Some b' /\ sstep s (SHub l) = hub_step hublink black raddr hostport l s).
    { destruct l; try discriminate H; (destruct (gone b None); [discriminate H|]); split; auto. }
    destruct X as [X Y]. destruct (hub_sim carried link hublink black raddr hostport ws c W _ _ _ _ M X L) as (s' & E & M').
    exists [SHub l], s'. cbn [exec]. rewrite Y, E. split; [reflexivity|]. split; auto. intros _ k [<-|[]]. exact I.
  - destruct (gone b (proc e) || ended (out b e)) eqn:G; [discriminate|]. apply orb_false_iff in G as [_ G].
    destruct (holding (out b e)) eqn:Hn; [discriminate|]. destruct (queue (out b e)) as [|p q] eqn:Q; [discriminate|]. injection H as <-.
    apply stutter. apply sim_out; auto. intros d K O C. eapply chan_pop; eauto.
  - destruct (gone b (proc e)); [discriminate|]. unfold marshalled in H. destruct (holding (out b e)) as [p|] eqn:Hn; [|discriminate].
    destruct (marshal (ws (proc e)) (pack p)) as [f| | |] eqn:Em; injection H as <-; apply stutter; try (now apply sim_gone).
    apply sim_out; auto. intros d K O C. eapply chan_write; eauto.
  - destruct (gone b (proc e)); [discriminate|]. unfold marshalled in H. destruct (holding (out b e)) as [p|] eqn:Hn; [|discriminate].
    destruct (marshal (ws (proc e)) (pack p)) as [f| | |] eqn:Em; injection H as <-; apply stutter; try (now apply sim_gone).
    apply sim_out; auto. intros d K O C. eapply chan_fail; eauto.
  - destruct (holding (out b e)) eqn:Hn; [discriminate|]. injection H as <-. apply stutter. apply sim_out; auto. intros d K O C. eapply chan_end; eauto.
  - destruct (other e) as [e'|] eqn:O; [|discriminate]. destruct (_ || _) eqn:G; [discriminate|]. injection H as <-. apply stutter. now apply sim_read.
  - injection H as <-. apply stutter. now apply sim_stop.
Qed.
Lemma step_grows b l b' : bstep b l = Some b' -> grows b b'.
Proof.
  intros H. destruct l as [i l ps|l|e|e|e n|e|e n|e|e]; cbn [ByteModel.bstep] in H.
  - assert (X : dock_does i l ps b = Some b') by (destruct l; try discriminate H; (destruct (gone b (Some i)); [discriminate H|exact H])). eapply dock_does_grows; eauto.
  - assert (X : hub_does black raddr hostport l b = Some b') by (destruct l; try discriminate H; (destruct (gone b None); [discriminate H|exact H])). eapply hub_does_grows; eauto.
  - destruct (_ || _); [discriminate|]. destruct (holding _); [discriminate|]. destruct (queue _); [discriminate|]. injection H as <-. now apply grows_same.
  - destruct (gone b (proc e)); [discriminate|]. unfold marshalled in H. destruct (holding (out b e)) as [p|]; [|discriminate].
    destruct (marshal _ _); injection H as <-; now apply grows_same.
  - destruct (gone b (proc e)); [discriminate|]. unfold marshalled in H. destruct (holding (out b e)) as [p|]; [|discriminate].
    destruct (marshal _ _); injection H as <-; now apply grows_same.
  - destruct (holding _); [discriminate|]. injection H as <-. now apply grows_same.
  - destruct (other e); [|discriminate]. destruct (_ || _); [discriminate|]. injection H as <-. now apply grows_same.
  - destruct (_ || _); [discriminate|]. destruct (unmarshal _ _) as [m| | |]; [|injection H as <-; now apply grows_same..].
    eapply grows_trans; [apply (grows_same b (with_inb e (mkInbox (skipn (Z.to_nat (slice (ws (proc e)) (buffer (inb b e)))) (buffer (inb b e))) true) b)); reflexivity|].
    destruct e as [i p|h]; [|eapply hub_does_grows; eauto]. destruct (dock_packet _); [eapply dock_does_grows; eauto|]. injection H as <-. apply grows_refl.
  - injection H as <-. now apply grows_same.
Qed.
Lemma run_grows ls : forall b b', exec bstep b ls = Some b' -> grows b b'.
Proof.
  induction ls as [|l ls IH]; intros b b' H; cbn in H; [injection H as <-; apply grows_refl|].
  destruct (bstep b l) as [b1|] eqn:E; [|discriminate]. eapply grows_trans; [eapply step_grows; eauto|eapply IH; eauto].
Qed.
Lemma sim_init : sim (binit carried) (sinit carried).
Proof.
  constructor; auto. intros e e' O. exists []. cbn. split; [apply chan_init|]. destruct e; cbn; split; auto using sq_nil.
Qed.
Lemma run_sim ls : forall b s b', sim b s -> exec bstep b ls = Some b' -> legits b' ->
  exists ls' s', exec sstep s ls' = Some s' /\ sim b' s' /\ (dropped b' = false -> lossless ls').
Proof.
  induction ls as [|l ls IH]; intros b s b' M H L; cbn in H.
  - injection H as <-. now apply stutter.
  - destruct (bstep b l) as [b1|] eqn:E; [|discriminate]. pose proof (run_grows _ _ _ H) as G.
    assert (L1 : legits b1) by (eapply legits_grows; eauto).
    destruct (step_sim _ _ _ _ M E L1) as (l1 & s1 & X1 & M1 & N1).
    destruct (IH _ _ _ M1 H L) as (l2 & s2 & X2 & M2 & N2). exists (l1 ++ l2), s2. split; [now rewrite exec_app, X1|]. split; auto.
    intros D k Hk. apply in_app_or in Hk as [Hk|Hk]; [|exact (N2 D k Hk)]. refine (N1 _ k Hk).
    destruct (dropped b) eqn:Db; auto. apply (step_grows _ _ _ E) in Db. apply G in Db. congruence.
Qed.
Lemma sim_quiet b s : sim b s -> quiet other ws b -> dropped b = false ->
  (forall i p, link i p <> Nowhere -> SysModel.wire s i p = []) /\ (forall h, hublink h <> None -> hwire s h = []).
Proof.
  intros M Q D. assert (X : forall e, other e <> None -> onwire s e = []).
  { intros e N. destruct (other e) as [e'|] eqn:O; [|congruence]. destruct (m_flow _ _ _ _ _ _ M _ _ O) as (K & C & _ & R). rewrite (R D).
    destruct (Q e e' O) as (_ & _ & _ & _ & A). destruct (Q e' e (other_sym _ _ W _ _ O)) as (B1 & B2 & B3 & B4 & _).
    now rewrite (chan_quiet _ _ _ _ _ C B1 B2 B3 B4 A). }
  split.
  - intros i p N. assert (Y := X (DockEnd i p)). cbn in Y. destruct (SysModel.wire s i p); auto. exfalso. destruct (link i p); [congruence|..]; (lapply Y; discriminate).
  - intros h N. assert (Y := X (HubEnd h)). cbn in Y. destruct (hwire s h); auto. exfalso. destruct (hublink h) as [[]|]; [|congruence]. lapply Y; discriminate.
Qed.
Theorem bytes_sim ls b : exec bstep (binit carried) ls = Some b -> Forall (legitimate other ws) (handed b) ->
  exists ls' s, exec sstep (sinit carried) ls' = Some s /\ (forall i, sd s i = bd b i) /\ sh s = bh b /\ (dropped b = false -> lossless ls') /\
    (dropped b = false -> quiet other ws b ->
     (forall i p, link i p <> Nowhere -> SysModel.wire s i p = []) /\ (forall h, hublink h <> None -> hwire s h = [])).
Proof.
  intros H L. destruct (run_sim _ _ _ _ sim_init H L) as (ls' & s & X & M & N). exists ls', s. split; auto.
  split; [apply (m_docks _ _ _ _ _ _ M)|]. split; [apply (m_hub _ _ _ _ _ _ M)|]. split; auto. intros D Q. now apply sim_quiet with (b := b).
Qed.
End Run.

(* ---- what follows ---- *)
Section Follow.
Variables (carried : nat -> list (name * bool)) (link : nat -> nat -> wend) (hublink : nat -> option (nat * nat)).
Variables (black : list Z) (raddr : nat -> name) (hostport : name -> Z -> name) (ws : option nat -> wsize).
Hypothesis W : wired link hublink.
Notation other := (other link hublink).
Notation bstep := (bstep link hublink black raddr hostport ws).

Theorem bytes_to_packets ls b : exec bstep (binit carried) ls = Some b -> Forall (legitimate other ws) (handed b) ->
  exists ls' s, exec (sstep link hublink (fun _ _ => through) black raddr hostport) (sinit carried) ls' = Some s /\
    (forall i, sd s i = bd b i) /\ sh s = bh b /\ (dropped b = false -> lossless ls') /\
    (dropped b = false -> quiet other ws b ->
     (forall i p, link i p <> Nowhere -> SysModel.wire s i p = []) /\ (forall h, hublink h <> None -> hwire s h = [])).
Proof. now apply bytes_sim. Qed.

Lemma executed_parts s b i q j k x : (forall i, sd s i = bd b i) -> executed carried link (fun _ _ => through) s i q j k x ->
  executed carried link (fun _ _ => through) (parts b) i q j k x.
Proof.
  intros E (C & args & res & err & A & (p & r & L & N) & R & B & X). split; auto. exists args, res, err. split; auto. rewrite E in N, R. split; [|split; auto].
  exists p, r. auto.
Qed.
Theorem bytes_returned ls b i c x : exec bstep (binit carried) ls = Some b -> Forall (legitimate other ws) (handed b) ->
  NoDup (map q_index (requests (hist (bd b i)))) -> In (EReturn c x) (hist (bd b i)) ->
  exists q j k, In (ENew c q) (hist (bd b i)) /\ executed carried link (fun _ _ => through) (parts b) i q j k x /\
    forall j' k' q', served carried link (parts b) i j' k' q' -> q_index q' = q_index q -> j' = j /\ k' = k.
Proof.
  intros H L N R. destruct (bytes_to_packets _ _ H L) as (ls' & s & X & Ed & _). rewrite <- Ed in N, R.
  destruct (SysProof2.remote_call_spec _ _ _ _ _ _ _ W _ _ _ _ _ X N R) as (q & j & k & Nq & E & U). exists q, j, k. rewrite <- Ed. split; auto.
  split; [eapply executed_parts; eauto|]. intros j' k' q' (p & r & Lk & Nk). apply U. exists p, r. split; auto. cbn in Nk. now rewrite Ed.
Qed.

Definition whole (l : list gval) : option (list gval) := match through l with Some x => Some x | None => Some l end.
Theorem bytes_committed ls b i c p j p' : exec bstep (binit carried) ls = Some b -> Forall (legitimate other ws) (handed b) -> dropped b = false -> quiet other ws b ->
  NoDup (map q_index (requests (hist (bd b i)))) -> In (ECommit c p true) (hist (bd b i)) -> link i p = ToDock j p' -> ~ cleared (hist (bd b j)) ->
  state (bd b i) = Alive -> state (bd b j) = Alive ->
  (forall k res err, dstep (bd b j) (SExec k res err) = None) -> (forall k acc, dstep (bd b j) (SSend k acc) = None) ->
  (forall n, dstep (bd b i) (BStep n) = None) -> (forall acc, dstep (bd b i) (CStep c acc) = None) ->
  (forall q k, ~ In (ESend q k false) (hist (bd b j))) -> returns c (hist (bd b i)) <> [].
Proof.
  intros H L D Q N Hc Lk Cl Ai Aj S1 S2 S3 S4 R.
  assert (Wh : forall l x, through l = Some x -> whole l = Some x) by (unfold whole; intros l x ->; reflexivity).
  assert (Wt : forall l, whole l <> None) by (unfold whole; intros l; destruct (through l); discriminate).
  destruct (bytes_sim carried link hublink black raddr hostport ws whole Wh W _ _ H L) as (ls' & s & X & Ed & _ & Ls & Wz). specialize (Ls D). destruct (Wz D Q) as [Wd _].
  rewrite <- (Ed i) in N, Hc, Ai |- *. rewrite <- (Ed j) in Cl, Aj, R.
  assert (S1' : forall k res err, dstep (sd s j) (SExec k res err) = None) by (intros; rewrite Ed; auto).
  assert (S2' : forall k acc, dstep (sd s j) (SSend k acc) = None) by (intros; rewrite Ed; auto).
  assert (S3' : forall n, dstep (sd s i) (BStep n) = None) by (intros; rewrite Ed; auto).
  assert (S4' : forall acc, dstep (sd s i) (CStep c acc) = None) by (intros; rewrite Ed; auto).
  destruct W as [Ws _].
  eapply (committed_returns carried link hublink _ black raddr hostport W ls' s i c p j p'); eauto; apply Wd; [rewrite (Ws _ _ _ _ Lk)|rewrite Lk]; discriminate.
Qed.

(* while something is under way, a routine can go on *)
Definition silent (e : event gval) : bool := match e with ESend _ _ _ | EQuery _ _ => false | _ => true end.
Lemma recv_silent (d : dock gval) p k : state d = Alive -> handlers d p = HIdle ->
  exists d' es, dstep d (LRecv p k) = Some d' /\ hist d' = hist d ++ es /\ forallb silent es = true.
Proof.
  intros A I. unfold dstep. rewrite A, I.
  destruct k as [|sl|sl|port|f|a|q|r]; try (eexists _, [ERecv p _]; split; [reflexivity|split; reflexivity]).
  - destruct (aget _ _); [eexists _, [ERecv p _; EServe _]|eexists _, [ERecv p _]]; (split; [reflexivity|]); split; try reflexivity. proj. now rewrite <- app_assoc.
  - destruct (zget _ _); (eexists _, [ERecv p _]; split; [reflexivity|split; reflexivity]).
Qed.
Lemma events_silent i ps es : forall b, forallb silent es = true -> fold_left (dock_event i ps) es (Some b) = Some b.
Proof. induction es as [|e es IH]; intros b H; cbn in *; auto. apply andb_true_iff in H as [H1 H2]. destruct e; try discriminate H1; apply IH; auto. Qed.
Theorem bytes_move b : ready other b ->
  (forall e e', other e = Some e' -> bstep b (BPop e) = None /\ bstep b (BWrite e) = None /\ bstep b (BTake e) = None /\ forall n, 0 < n -> bstep b (BRead e n) = None) -> quiet other ws b.
Proof.
  intros R S.
  assert (T : forall e e', other e = Some e' -> (slice (ws (proc e)) (buffer (inb b e)) <= 0)%Z).
  { intros e e' O. destruct (R e e' O) as (U & G & En & Rd & Fr). destruct (S e e' O) as (_ & _ & X & _). cbn [ByteModel.bstep] in X. rewrite G, Rd, Fr in X. cbn [orb negb] in X.
    destruct (Z.leb_spec (slice (ws (proc e)) (buffer (inb b e))) 0) as [|Gt]; [assumption|]. exfalso. destruct (unmarshal _ _) as [m| | |]; try discriminate.
    destruct e as [i p|h].
    - destruct (dock_packet _) as [k|]; [|discriminate]. cbn in U, Fr. destruct (handlers (bd b i) p) eqn:Eh; try discriminate.
      destruct (recv_silent _ p k U Eh) as (d' & es & E & Hh & Si). unfold dock_does in X. cbn [with_inb bd] in X. rewrite E, Hh, new_app, events_silent in X by exact Si. discriminate.
    - cbn in U, Fr. destruct (HubModel.handlers (bh b) h) eqn:Eh; try discriminate. unfold hub_does in X. cbn [with_inb bh] in X. unfold HubModel.hstep in X. rewrite U, Eh in X. discriminate. }
  intros e e' O. destruct (R e e' O) as (U & G & En & Rd & Fr). destruct (S e e' O) as (Xp & Xw & _ & _). cbn [ByteModel.bstep] in Xp, Xw. rewrite G, ?En in *. cbn [orb] in Xp.
  assert (Hn : holding (out b e) = None).
  { destruct (holding (out b e)) eqn:Eh; auto. exfalso. unfold marshalled in Xw. rewrite Eh in Xw. destruct (marshal _ _); discriminate. }
  rewrite Hn in Xp. assert (Q : queue (out b e) = []) by (destruct (queue (out b e)); [reflexivity|discriminate]).
  repeat split; auto; [|eapply T; eauto].
  pose proof (other_sym _ _ W _ _ O) as O'. destruct (R _ _ O') as (_ & G' & _ & Rd' & Fr'). destruct (S e' e O') as (_ & _ & _ & X). specialize (X 1 (Nat.lt_0_succ 0)). cbn [ByteModel.bstep] in X.
  rewrite O', G', Rd', Fr' in X. cbn [orb negb] in X. pose proof (T _ _ O') as T'. destruct (Z.ltb_spec 0 (slice (ws (proc e')) (buffer (inb b e')))); [lia|].
  destruct (flight (out b e)) as [|z f]; auto. cbn in X. discriminate.
Qed.

(* messages checked one by one *)
Definition legit_check (x : endp * proto) : bool :=
  typed (ws (proc (fst x))) (snd x) &&
  match other (fst x) with
  | Some e => fits (ws (proc e)) (snd x) && match marshal (ws (proc (fst x))) (pack (snd x)) with SOk f => (Z.of_nat (length f) <? max_frame (ws (proc e)))%Z | _ => true end
  | None => true
  end.
Lemma legit_checked l : forallb legit_check l = true -> Forall (legitimate other ws) l.
Proof.
  intros H. apply Forall_forall. intros x Hx. rewrite forallb_forall in H. specialize (H x Hx). unfold legit_check in H. apply andb_true_iff in H as [T H].
  split; auto. intros e O. apply (other_sym _ _ W) in O. rewrite O in H. apply andb_true_iff in H as [F S]. split; auto. intros f M. rewrite M in S. now apply Z.ltb_lt.
Qed.
End Follow.
