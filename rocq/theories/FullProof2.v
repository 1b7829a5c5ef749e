(* Invariants of a system with its features. *)
From Verif Require Import Lts GoVal Tables DockModel DockSpec DockProof DockProof2 DockProof7 SysModel SysSpec SysProof SysProof2 SysProof4 FullModel FullSpec FullProof.
From Verif Require ChanModel ChanSpec ChanProof ChanProof2 ChanProof4 HubModel.
From Coq Require Import Arith Bool List ZArith Lia.
Import ListNotations.
Open Scope nat_scope.

Section Full.
Context {O V : Type}.
Variables (carried : nat -> list (name * bool)) (link : nat -> nat -> wend) (hublink : nat -> option (nat * nat)).
Variables (carry : nat -> nat -> list V -> option (list V)) (black : list Z) (raddr : nat -> name) (hostport : name -> Z -> name).
Variable code : name -> nat.
Variable T : nat -> name -> ChanModel.target O V.
Variable o0 : nat -> name -> O.
Hypothesis W : wired link hublink.
Notation sstep := (sstep link hublink carry black raddr hostport).
Notation fstep := (fstep link hublink carry black raddr hostport code T).
Notation finit := (finit carried o0).
Notation full := (FullModel.full O V).
Implicit Types s : full.

(* the step of the system inside a step *)
Definition sys_label s (l : flab V) : option (slab V) :=
  match l with
  | FSys l => Some l
  | FReturn i k =>
      match nth_error (servers (sd (fs s) i)) k with
      | Some sv => match ChanModel.responses (feat s i (q_slot (s_req sv))) (server_id k) with
          | (_, a) :: _ => Some (SDock i (SExec k (fst (outcome (q_method (s_req sv)) a)) (snd (outcome (q_method (s_req sv)) a))) [])
          | [] => None end
      | None => None end
  | FLocal i f m args w => Some (SDock i (LCall f m args w 0%Z) [])
  | _ => None
  end.
(* the step of the callee of feature f of dock i inside a step *)
Definition chan_label s (l : flab V) (i : nat) (f : name) : option (ChanModel.label V) :=
  match l with
  | FBegin i' k => match nth_error (servers (sd (fs s) i')) k with
      | Some sv => if (i =? i') && zlist_eqb f (q_slot (s_req sv)) then Some (ChanModel.LCall (server_id k) (server_id k) (code (q_method (s_req sv))) (q_args (s_req sv))) else None
      | None => None end
  | FReturn i' k => match nth_error (servers (sd (fs s) i')) k with
      | Some sv => if (i =? i') && zlist_eqb f (q_slot (s_req sv)) then Some (ChanModel.LReceive (server_id k)) else None
      | None => None end
  | FLocal i' f' m args w => if (i =? i') && zlist_eqb f f' then Some (ChanModel.LCall (local_id (length (locals s i'))) (local_id (length (locals s i'))) (code m) args) else None
  | FLocalReturn i' n => match nth_error (locals s i') n with
      | Some x => if (i =? i') && zlist_eqb f (l_feature x) then Some (ChanModel.LReceive (local_id n)) else None
      | None => None end
  | FFeat i' f' l => if (i =? i') && zlist_eqb f f' then Some l else None
  | FSys _ => None
  end.
Definition optstep {S L} (st : S -> L -> option S) (l : option L) (a b : S) : Prop := match l with Some x => st a x = Some b | None => b = a end.

Lemma put_feat s i f c i' f' : feat (set_feat i f c s) i' f' = if (i' =? i) && zlist_eqb f' f then c else feat s i' f'.
Proof.
  cbn. unfold updp. destruct (Nat.eqb_spec i' i) as [->|]; cbn; [|reflexivity]. unfold updn. reflexivity.
Qed.
(* everything a step does *)
Lemma fstep_inv s l s' : fstep s l = Some s' ->
  optstep sstep (sys_label s l) (fs s) (fs s') /\
  (forall i f, optstep (ChanModel.cstep (T i f)) (chan_label s l i f) (feat s i f) (feat s' i f)) /\
  (forall i k, begun s' i k = (begun s i k || match l with FBegin i' k' => (i =? i') && (k =? k') | _ => false end)) /\
  (forall i, locals s' i = locals s i ++ match l with FLocal i' f m args _ => if i =? i' then [mkLocal f m args] else [] | _ => [] end) /\
  (forall i, dead s' i = false -> dead s i = false /\ forall f, ChanModel.crashed (feat s i f) = false -> ChanModel.crashed (feat s' i f) = false) /\
  match l with
  | FSys l => allowed s l = true
  | FBegin i k => begun s i k = false /\ nth_error (servers (sd (fs s) i)) k <> None
  | FReturn i k => begun s i k = true /\ nth_error (servers (sd (fs s) i)) k <> None /\ sys_label s (FReturn i k) <> None
  | FLocal i f _ _ _ => aget (slots (sd (fs s) i)) f <> None
  | FLocalReturn i n => nth_error (locals s i) n <> None
  | FFeat _ _ l => inside l = true
  end.
Proof.
  assert (D : forall i f c s0 i', (forall j, dead s0 j = dead s j) -> (forall a b, feat s0 a b = feat s a b) -> dead (set_feat i f c s0) i' = false ->
     dead s i' = false /\ forall f', ChanModel.crashed (feat s i' f') = false -> ChanModel.crashed (feat (set_feat i f c s0) i' f') = false).
  { intros i f c s0 i' E1 E2. cbn [set_feat dead]. unfold updp at 1. destruct (Nat.eqb_spec i' i) as [->|].
    - intros X. apply orb_false_elim in X as [X Y]. rewrite E1 in X. split; auto. intros f' Hf. rewrite put_feat, Nat.eqb_refl. cbn. destruct (zlist_eqb f' f); auto. rewrite E2. auto.
    - rewrite E1. intros X. split; auto. intros f' Hf. rewrite put_feat. destruct (Nat.eqb_spec i' i); [contradiction|]. cbn. rewrite E2. auto. }
  intros H. unfold FullModel.fstep in H. destruct l as [l|i k|i k|i f m args w|i n|i f l].
  - destruct (allowed s l) eqn:A; [|discriminate]. destruct (sstep (fs s) l) as [x|] eqn:E; [|discriminate]. injection H as <-.
    cbn. repeat split; auto; intros; rewrite ?orb_false_r, ?app_nil_r; auto.
  - destruct (up i s && negb (begun s i k)) eqn:U; [|discriminate]. apply andb_prop in U as [_ U]. apply negb_true_iff in U.
    destruct (nth_error (servers (sd (fs s) i)) k) as [sv|] eqn:Ek; [|discriminate]. cbv zeta in H.
    destruct (ChanModel.cstep _ _ _) as [c|] eqn:Ec; [|discriminate]. injection H as <-. cbn [sys_label chan_label optstep]. rewrite Ek.
    split; [reflexivity|]. split; [|split; [|split; [|split]]]; auto; try (split; congruence).
    + intros i' f'. change (feat (set_begun i k (set_feat i (q_slot (s_req sv)) c s)) i' f') with (feat (set_feat i (q_slot (s_req sv)) c s) i' f'). rewrite put_feat.
      destruct (Nat.eqb_spec i' i) as [->|]; cbn; auto. destruct (zlist_eqb f' (q_slot (s_req sv))) eqn:Z; cbn; auto. apply zlist_eqb_eq in Z. subst. exact Ec.
    + intros i' k'. cbn. unfold updp. destruct (Nat.eqb_spec i' i) as [->|]; cbn; [|now rewrite orb_false_r].
      destruct (Nat.eqb_spec k' k) as [->|]; [now rewrite orb_true_r|now rewrite orb_false_r].
    + intros. cbn. now rewrite app_nil_r.
    + intros i'. apply (D i (q_slot (s_req sv)) c s i'); auto.
  - destruct (up i s && begun s i k) eqn:U; [|discriminate]. apply andb_prop in U as [_ U].
    destruct (nth_error (servers (sd (fs s) i)) k) as [sv|] eqn:Ek; [|discriminate]. cbv zeta in H.
    destruct (ChanModel.responses (feat s i (q_slot (s_req sv))) (server_id k)) as [|[o a] rest] eqn:Er; [discriminate|].
    destruct (ChanModel.cstep _ _ _) as [c|] eqn:Ec; [|discriminate]. destruct (sstep (fs s) _) as [x|] eqn:Ex; [|discriminate]. injection H as <-. cbn [sys_label chan_label]. rewrite Ek, Er.
    split; [exact Ex|]. split; [|split; [|split; [|split]]]; auto; try (repeat split; congruence).
    + intros i' f'. change (feat (set_sys x (set_feat i (q_slot (s_req sv)) c s)) i' f') with (feat (set_feat i (q_slot (s_req sv)) c s) i' f'). rewrite put_feat.
      destruct (Nat.eqb_spec i' i) as [->|]; cbn; auto. destruct (zlist_eqb f' (q_slot (s_req sv))) eqn:Z; cbn; auto. apply zlist_eqb_eq in Z. subst. exact Ec.
    + intros. cbn. now rewrite orb_false_r.
    + intros. cbn. now rewrite app_nil_r.
    + intros i'. apply (D i (q_slot (s_req sv)) c s i'); auto.
  - destruct (aget (slots (sd (fs s) i)) f) eqn:Ea; [|discriminate]. destruct (up i s); [|discriminate]. cbv zeta in H.
    destruct (sstep (fs s) _) as [x|] eqn:Ex; [|discriminate]. destruct (ChanModel.cstep _ _ _) as [c|] eqn:Ec; [|discriminate]. injection H as <-. cbn [sys_label chan_label].
    split; [exact Ex|]. split; [|split; [|split; [|split]]]; auto; try congruence.
    + intros i' f'. change (feat (add_local i (mkLocal f m args) (set_sys x (set_feat i f c s))) i' f') with (feat (set_feat i f c s) i' f'). rewrite put_feat.
      destruct (Nat.eqb_spec i' i) as [->|]; cbn; auto. destruct (zlist_eqb f' f) eqn:Z; cbn; auto. apply zlist_eqb_eq in Z. subst. exact Ec.
    + intros. cbn. now rewrite orb_false_r.
    + intros i'. cbn. unfold updp. destruct (Nat.eqb_spec i' i) as [->|]; auto. now rewrite app_nil_r.
    + intros i'. apply (D i f c s i'); auto.
  - destruct (up i s); [|discriminate]. destruct (nth_error (locals s i) n) as [x|] eqn:En; [|discriminate].
    destruct (ChanModel.cstep _ _ _) as [c|] eqn:Ec; [|discriminate]. injection H as <-. cbn [sys_label chan_label]. rewrite En.
    split; [reflexivity|]. split; [|split; [|split; [|split]]]; auto; try congruence.
    + intros i' f'. rewrite put_feat. destruct (Nat.eqb_spec i' i) as [->|]; cbn; auto. destruct (zlist_eqb f' (l_feature x)) eqn:Z; cbn; auto. apply zlist_eqb_eq in Z. subst. exact Ec.
    + intros. cbn. now rewrite orb_false_r.
    + intros. cbn. now rewrite app_nil_r.
  - destruct (up i s && inside l) eqn:U; [|discriminate]. apply andb_prop in U as [_ U].
    destruct (ChanModel.cstep _ _ _) as [c|] eqn:Ec; [|discriminate]. injection H as <-. cbn [sys_label chan_label].
    split; [reflexivity|]. split; [|split; [|split; [|split]]]; auto; try congruence.
    + intros i' f'. rewrite put_feat. destruct (Nat.eqb_spec i' i) as [->|]; cbn; auto. destruct (zlist_eqb f' f) eqn:Z; cbn; auto. apply zlist_eqb_eq in Z. subst. exact Ec.
    + intros. cbn. now rewrite orb_false_r.
    + intros. cbn. now rewrite app_nil_r.
Qed.

(* the system runs as in its own model *)
Lemma sys_runs ls s : exec fstep finit ls = Some s -> exists ls', exec sstep (sinit carried) ls' = Some (fs s) /\
  forall l, In l ls' -> In (FSys l) ls \/ exists i x, l = SDock i x [].
Proof.
  revert s. induction ls as [|l ls IH] using rev_ind; intros s H; [injection H as <-; exists []; cbn; split; auto; intros ? []|].
  apply exec_split in H as (m & H1 & H2). cbn in H2. destruct (fstep m l) as [s2|] eqn:E; [|discriminate]. injection H2 as <-.
  destruct (IH _ H1) as (ls' & E' & P). destruct (fstep_inv _ _ _ E) as (Fs & _). destruct (sys_label m l) as [sl|] eqn:Es; cbn in Fs.
  - exists (ls' ++ [sl]). split; [rewrite exec_app, E'; cbn; now rewrite Fs|]. intros x Hx. apply in_app_iff in Hx as [Hx|[<-|[]]].
    + destruct (P _ Hx); auto. left. apply in_or_app; auto.
    + destruct l; cbn in Es; try discriminate.
      * injection Es as <-. left. apply in_or_app. right. now left.
      * destruct (nth_error _ _); [|discriminate]. destruct (ChanModel.responses _ _) as [|[]]; [discriminate|]. injection Es as <-. eauto.
      * injection Es as <-. eauto.
  - rewrite Fs. exists ls'. split; auto. intros x Hx. destruct (P _ Hx); auto. left. apply in_or_app; auto.
Qed.
(* each callee runs as in its own model, every caller object used by one goroutine *)
Lemma chan_runs ls s i f : exec fstep finit ls = Some s -> exists ls', exec (ChanModel.cstep (T i f)) (ChanModel.new_chan (o0 i f)) ls' = Some (feat s i f) /\ matched ls'.
Proof.
  revert s. induction ls as [|l ls IH] using rev_ind; intros s H; [injection H as <-; exists []; cbn; split; auto; intros ? ? ? ? []|].
  apply exec_split in H as (m & H1 & H2). cbn in H2. destruct (fstep m l) as [s2|] eqn:E; [|discriminate]. injection H2 as <-.
  destruct (IH _ H1) as (ls' & E' & P). destruct (fstep_inv _ _ _ E) as (_ & Fc & _ & _ & _ & G). specialize (Fc i f). destruct (chan_label m l i f) as [cl|] eqn:Es; cbn in Fc.
  - exists (ls' ++ [cl]). split; [rewrite exec_app, E'; cbn; now rewrite Fc|]. intros g k n a Hx. apply in_app_iff in Hx as [Hx|[->|[]]]; [eapply P; eauto|].
    destruct l; cbn in Es; try discriminate.
    + destruct (nth_error _ _); [|discriminate]. destruct (_ && _); [|discriminate]. congruence.
    + destruct (nth_error _ _); [|discriminate]. destruct (_ && _); discriminate.
    + destruct (_ && _); [|discriminate]. congruence.
    + destruct (nth_error _ _); [|discriminate]. destruct (_ && _); discriminate.
    + destruct (_ && _); [|discriminate]. injection Es as ->. discriminate.
  - rewrite Fc. exists ls'. auto.
Qed.
Lemma dock_runs ls s i : exec fstep finit ls = Some s -> exists ls', exec dstep (new_dock (carried i)) ls' = Some (sd (fs s) i).
Proof. intros H. destruct (sys_runs _ _ H) as (ls' & E & _). apply (docks_run _ _ _ _ _ _ _ _ (reach_ok _ _ _ _ _ _ _ W _ _ E)). Qed.

(* a step of the system as seen by dock i *)
Lemma sys_dock (x : sys V) l x' i : sstep x l = Some x' ->
  sd x' i = sd x i \/ exists dl, dstep (sd x i) dl = Some (sd x' i) /\ ((exists ps, l = SDock i dl ps) \/ exists p k, l = SDeliver i p /\ dl = LRecv p k).
Proof.
  intros H. destruct l as [i0 l ps|i0 p|i0 p n|l|h|h n]; cbn [SysModel.sstep] in H.
  - assert (X : dock_step link carry i0 l ps x = Some x') by (destruct l; try discriminate; auto).
    destruct (dock_moves link carry _ _ _ _ _ X) as (d & es & E & _ & -> & _). unfold updp. destruct (Nat.eqb_spec i i0) as [->|]; eauto 10.
  - destruct (wire x i0 p) as [|k r] eqn:Ew; [discriminate|]. destruct (dock_moves link carry _ _ _ _ _ H) as (d & es & E & _ & -> & _). cbn in *.
    unfold updp. destruct (Nat.eqb_spec i i0) as [->|]; auto. right. exists (LRecv p k). eauto 10.
  - injection H as <-. auto.
  - assert (X : hub_step hublink black raddr hostport l x = Some x') by (destruct l; try discriminate; auto). rewrite (hub_stays _ _ _ _ _ _ _ X). auto.
  - destruct (hwire x h) as [|k r]; [discriminate|]. rewrite (hub_stays _ _ _ _ _ _ _ H). auto.
  - injection H as <-. auto.
Qed.
End Full.
