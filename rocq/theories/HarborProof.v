(* The parts of a network with its features run as in their own models. *)
From Verif Require Import Lts GoInt GoVal Tables DockModel DockSpec DockProof DockProof2 DockProof4 SysModel SysSpec FullModel FullSpec FullProof WorldModel WorldSpec ByteModel ByteSpec ByteProof2 FleetModel FleetSpec ProtoModel HarborModel HarborSpec.
From Verif Require ChanModel ChanSpec ChanProof ChanProof2 ChanProof4 HubModel FullProof2 FullProof3 ByteProof4.
From Coq Require Import Arith Bool List ZArith Lia.
Import ListNotations.
Open Scope nat_scope.

Section Harbor.
Context {O : Type}.
Variables (carried : nat -> list (name * bool)) (black : list Z) (raddr : nat -> name) (wz : option nat -> wsize).
Variable code : name -> nat.
Variable T : nat -> name -> ChanModel.target O gval.
Variable o0 : nat -> name -> O.
Notation fstep := (fstep black raddr wz).
Notation hstep := (hstep black raddr wz code T).
Notation hinit := (hinit carried o0).
Implicit Types s : harbor O.
(* the step of the system inside a step *)
Definition fleet_label s (l : hlab) : option flab :=
  match l with
  | HFleet l => Some l
  | HReturn i k =>
      match nth_error (servers (bd (fb (hf s)) i)) k with
      | Some sv => match ChanModel.responses (feat s i (q_slot (s_req sv))) (server_id k) with
          | (_, a) :: _ => Some (FDock i (SExec k (fst (outcome (q_method (s_req sv)) a)) (snd (outcome (q_method (s_req sv)) a))))
          | [] => None end
      | None => None end
  | HLocal i f m args w => Some (FDock i (LCall f m args w 0%Z))
  | _ => None
  end.
(* the step of the callee of feature f of dock i inside a step *)
Definition chan_label s (l : hlab) (i : nat) (f : name) : option (ChanModel.label gval) :=
  match l with
  | HBegin i' k => match nth_error (servers (bd (fb (hf s)) i')) k with
      | Some sv => if (i =? i') && zlist_eqb f (q_slot (s_req sv)) then Some (ChanModel.LCall (server_id k) (server_id k) (code (q_method (s_req sv))) (q_args (s_req sv))) else None
      | None => None end
  | HReturn i' k => match nth_error (servers (bd (fb (hf s)) i')) k with
      | Some sv => if (i =? i') && zlist_eqb f (q_slot (s_req sv)) then Some (ChanModel.LReceive (server_id k)) else None
      | None => None end
  | HLocal i' f' m args w => if (i =? i') && zlist_eqb f f' then Some (ChanModel.LCall (local_id (length (locals s i'))) (local_id (length (locals s i'))) (code m) args) else None
  | HLocalReturn i' n => match nth_error (locals s i') n with
      | Some x => if (i =? i') && zlist_eqb f (l_feature x) then Some (ChanModel.LReceive (local_id n)) else None
      | None => None end
  | HFeat i' f' l => if (i =? i') && zlist_eqb f f' then Some l else None
  | HFleet _ | HKill _ => None
  end.
Definition optstep {S L} (st : S -> L -> option S) (l : option L) (a b : S) : Prop := match l with Some x => st a x = Some b | None => b = a end.

Lemma put_feat s i f c i' f' : feat (set_feat i f c s) i' f' = if (i' =? i) && zlist_eqb f' f then c else feat s i' f'.
Proof.
  cbn. unfold updp. destruct (Nat.eqb_spec i' i) as [->|]; cbn; [|reflexivity]. unfold updn. reflexivity.
Qed.
(* everything a step does *)
Lemma hstep_inv s l s' : hstep s l = Some s' ->
  optstep fstep (fleet_label s l) (hf s) (hf s') /\
  (forall i f, optstep (ChanModel.cstep (T i f)) (chan_label s l i f) (feat s i f) (feat s' i f)) /\
  (forall i k, begun s' i k = (begun s i k || match l with HBegin i' k' => (i =? i') && (k =? k') | _ => false end)) /\
  (forall i, locals s' i = locals s i ++ match l with HLocal i' f m args _ => if i =? i' then [mkLocal f m args] else [] | _ => [] end) /\
  (forall i, dead s' (Some i) = false -> dead s (Some i) = false /\ forall f, ChanModel.crashed (feat s i f) = false -> ChanModel.crashed (feat s' i f) = false) /\
  match l with
  | HFleet l => allowed s l = true
  | HBegin i k => begun s i k = false /\ nth_error (servers (bd (fb (hf s)) i)) k <> None
  | HReturn i k => begun s i k = true /\ nth_error (servers (bd (fb (hf s)) i)) k <> None /\ fleet_label s (HReturn i k) <> None
  | HLocal i f _ _ _ => aget (slots (bd (fb (hf s)) i)) f <> None
  | HLocalReturn i n => nth_error (locals s i) n <> None
  | HFeat _ _ l => inside l = true
  | HKill _ => True
  end.
Proof.
  assert (D : forall i f c s0 i', (forall j, dead s0 j = dead s j) -> (forall a b, feat s0 a b = feat s a b) -> dead (set_feat i f c s0) (Some i') = false ->
     dead s (Some i') = false /\ forall f', ChanModel.crashed (feat s i' f') = false -> ChanModel.crashed (feat (set_feat i f c s0) i' f') = false).
  { intros i f c s0 i' E1 E2. cbn [set_feat dead same_proc]. destruct (Nat.eqb_spec i' i) as [->|].
    - intros X. apply orb_false_elim in X as [X Y]. rewrite E1 in X. split; auto. intros f' Hf. rewrite put_feat, Nat.eqb_refl. cbn. destruct (zlist_eqb f' f); auto. rewrite E2. auto.
    - rewrite E1, orb_false_r. intros X. split; auto. intros f' Hf. rewrite put_feat. destruct (Nat.eqb_spec i' i); [contradiction|]. cbn. rewrite E2. auto. }
  intros H. unfold HarborModel.hstep in H. destruct l as [l|i k|i k|i f m args w|i n|i f l|o].
  - destruct (allowed s l) eqn:A; [|discriminate]. destruct (fstep (hf s) l) as [x|] eqn:E; [|discriminate]. injection H as <-.
    cbn. repeat split; auto; intros; rewrite ?orb_false_r, ?app_nil_r; auto.
  - destruct (up i s && negb (begun s i k)) eqn:U; [|discriminate]. apply andb_prop in U as [_ U]. apply negb_true_iff in U.
    destruct (nth_error (servers (bd (fb (hf s)) i)) k) as [sv|] eqn:Ek; [|discriminate]. cbv zeta in H.
    destruct (ChanModel.cstep _ _ _) as [c|] eqn:Ec; [|discriminate]. injection H as <-. cbn [fleet_label chan_label optstep]. rewrite Ek.
    split; [reflexivity|]. split; [|split; [|split; [|split]]]; auto; try (split; congruence).
    + intros i' f'. change (feat (set_begun i k (set_feat i (q_slot (s_req sv)) c s)) i' f') with (feat (set_feat i (q_slot (s_req sv)) c s) i' f'). rewrite put_feat.
      destruct (Nat.eqb_spec i' i) as [->|]; cbn; auto. destruct (zlist_eqb f' (q_slot (s_req sv))) eqn:Z; cbn; auto. apply zlist_eqb_eq in Z. subst. exact Ec.
    + intros i' k'. cbn. unfold updp. destruct (Nat.eqb_spec i' i) as [->|]; cbn; [|now rewrite orb_false_r].
      destruct (Nat.eqb_spec k' k) as [->|]; [now rewrite orb_true_r|now rewrite orb_false_r].
    + intros. cbn. now rewrite app_nil_r.
    + intros i'. apply (D i (q_slot (s_req sv)) c s i'); auto.
  - destruct (up i s && begun s i k) eqn:U; [|discriminate]. apply andb_prop in U as [_ U].
    destruct (nth_error (servers (bd (fb (hf s)) i)) k) as [sv|] eqn:Ek; [|discriminate]. cbv zeta in H.
    destruct (ChanModel.responses (feat s i (q_slot (s_req sv))) (server_id k)) as [|[o a] rest] eqn:Er; [discriminate|].
    destruct (ChanModel.cstep _ _ _) as [c|] eqn:Ec; [|discriminate]. destruct (fstep (hf s) _) as [x|] eqn:Ex; [|discriminate]. injection H as <-. cbn [fleet_label chan_label]. rewrite Ek, Er.
    split; [exact Ex|]. split; [|split; [|split; [|split]]]; auto; try (repeat split; congruence).
    + intros i' f'. change (feat (set_fleet x (set_feat i (q_slot (s_req sv)) c s)) i' f') with (feat (set_feat i (q_slot (s_req sv)) c s) i' f'). rewrite put_feat.
      destruct (Nat.eqb_spec i' i) as [->|]; cbn; auto. destruct (zlist_eqb f' (q_slot (s_req sv))) eqn:Z; cbn; auto. apply zlist_eqb_eq in Z. subst. exact Ec.
    + intros. cbn. now rewrite orb_false_r.
    + intros. cbn. now rewrite app_nil_r.
    + intros i'. apply (D i (q_slot (s_req sv)) c s i'); auto.
  - destruct (aget (slots (bd (fb (hf s)) i)) f) eqn:Ea; [|discriminate]. destruct (up i s); [|discriminate]. cbv zeta in H.
    destruct (fstep (hf s) _) as [x|] eqn:Ex; [|discriminate]. destruct (ChanModel.cstep _ _ _) as [c|] eqn:Ec; [|discriminate]. injection H as <-. cbn [fleet_label chan_label].
    split; [exact Ex|]. split; [|split; [|split; [|split]]]; auto; try congruence.
    + intros i' f'. change (feat (add_local i (mkLocal f m args) (set_fleet x (set_feat i f c s))) i' f') with (feat (set_feat i f c s) i' f'). rewrite put_feat.
      destruct (Nat.eqb_spec i' i) as [->|]; cbn; auto. destruct (zlist_eqb f' f) eqn:Z; cbn; auto. apply zlist_eqb_eq in Z. subst. exact Ec.
    + intros. cbn. now rewrite orb_false_r.
    + intros i'. cbn. unfold updp. destruct (Nat.eqb_spec i' i) as [->|]; auto. now rewrite app_nil_r.
    + intros i'. apply (D i f c s i'); auto.
  - destruct (up i s); [|discriminate]. destruct (nth_error (locals s i) n) as [x|] eqn:En; [|discriminate].
    destruct (ChanModel.cstep _ _ _) as [c|] eqn:Ec; [|discriminate]. injection H as <-. cbn [fleet_label chan_label]. rewrite En.
    split; [reflexivity|]. split; [|split; [|split; [|split]]]; auto; try congruence.
    + intros i' f'. rewrite put_feat. destruct (Nat.eqb_spec i' i) as [->|]; cbn; auto. destruct (zlist_eqb f' (l_feature x)) eqn:Z; cbn; auto. apply zlist_eqb_eq in Z. subst. exact Ec.
    + intros. cbn. now rewrite orb_false_r.
    + intros. cbn. now rewrite app_nil_r.
  - destruct (up i s && inside l) eqn:U; [|discriminate]. apply andb_prop in U as [_ U].
    destruct (ChanModel.cstep _ _ _) as [c|] eqn:Ec; [|discriminate]. injection H as <-. cbn [fleet_label chan_label].
    split; [reflexivity|]. split; [|split; [|split; [|split]]]; auto; try congruence.
    + intros i' f'. rewrite put_feat. destruct (Nat.eqb_spec i' i) as [->|]; cbn; auto. destruct (zlist_eqb f' f) eqn:Z; cbn; auto. apply zlist_eqb_eq in Z. subst. exact Ec.
    + intros. cbn. now rewrite orb_false_r.
    + intros. cbn. now rewrite app_nil_r.
  - injection H as <-. cbn [kill hf feat begun locals dead fleet_label chan_label optstep]. repeat split; auto; intros; rewrite ?orb_false_r, ?app_nil_r; auto.
    now apply orb_false_elim in H.
Qed.
(* who is dead stays so *)
Lemma dead_stays s l s' o : hstep s l = Some s' -> dead s o = true -> dead s' o = true.
Proof.
  assert (D : forall i f c s0, dead s0 o = true -> dead (set_feat i f c s0) o = true).
  { intros i f c s0 E. cbn [set_feat dead]. now rewrite E. }
  intros H X. unfold HarborModel.hstep in H. destruct l as [l|i k|i k|i f m args w|i n|i f l|o'].
  - destruct (allowed s l); [|discriminate]. destruct (fstep (hf s) l); [|discriminate]. injection H as <-. exact X.
  - destruct (_ && _); [|discriminate]. destruct (nth_error _ _); [|discriminate]. cbv zeta in H. destruct (ChanModel.cstep _ _ _); [|discriminate]. injection H as <-. now apply D.
  - destruct (_ && _); [|discriminate]. destruct (nth_error _ _); [|discriminate]. cbv zeta in H. destruct (ChanModel.responses _ _) as [|[]]; [discriminate|]. destruct (ChanModel.cstep _ _ _); [|discriminate].
    destruct (fstep _ _); [|discriminate]. injection H as <-. now apply D.
  - destruct (aget _ _); [|discriminate]. destruct (up i s); [|discriminate]. cbv zeta in H. destruct (fstep _ _); [|discriminate]. destruct (ChanModel.cstep _ _ _); [|discriminate]. injection H as <-. now apply D.
  - destruct (up i s); [|discriminate]. destruct (nth_error _ _); [|discriminate]. destruct (ChanModel.cstep _ _ _); [|discriminate]. injection H as <-. now apply D.
  - destruct (_ && _); [|discriminate]. destruct (ChanModel.cstep _ _ _); [|discriminate]. injection H as <-. now apply D.
  - injection H as <-. cbn [kill dead]. now rewrite X.
Qed.

(* the network runs as in its own model *)
Lemma fleet_runs ls s : exec hstep hinit ls = Some s -> exists ls', exec fstep (finit carried) ls' = Some (hf s) /\ forall l, In (HFleet l) ls -> In l ls'.
Proof.
  revert s. induction ls as [|l ls IH] using rev_ind; intros s H; [injection H as <-; exists []; cbn; split; auto; intros ? []|].
  apply exec_split in H as (m & H1 & H2). cbn [exec] in H2. destruct (hstep m l) as [s2|] eqn:E; [|discriminate]. injection H2 as <-.
  destruct (IH _ H1) as (ls' & E' & P). destruct (hstep_inv _ _ _ E) as (Fs & _). destruct (fleet_label m l) as [sl|] eqn:Es; cbn [optstep] in Fs.
  - exists (ls' ++ [sl]). split; [rewrite exec_app, E'; cbn [exec]; now rewrite Fs|]. intros x Hx. apply in_or_app. apply in_app_iff in Hx as [Hx|[->|[]]]; auto.
    injection Es as ->. right. now left.
  - rewrite Fs. exists ls'. split; auto. intros x Hx. apply in_app_iff in Hx as [Hx|[->|[]]]; auto. discriminate.
Qed.
(* each callee runs as in its own model, every caller object used by one goroutine *)
Lemma chan_runs ls s i f : exec hstep hinit ls = Some s -> exists ls', exec (ChanModel.cstep (T i f)) (ChanModel.new_chan (o0 i f)) ls' = Some (feat s i f) /\ matched ls'.
Proof.
  revert s. induction ls as [|l ls IH] using rev_ind; intros s H; [injection H as <-; exists []; cbn; split; auto; intros ? ? ? ? []|].
  apply exec_split in H as (m & H1 & H2). cbn in H2. destruct (hstep m l) as [s2|] eqn:E; [|discriminate]. injection H2 as <-.
  destruct (IH _ H1) as (ls' & E' & P). destruct (hstep_inv _ _ _ E) as (_ & Fc & _ & _ & _ & G). specialize (Fc i f). destruct (chan_label m l i f) as [cl|] eqn:Es; cbn in Fc.
  - exists (ls' ++ [cl]). split; [rewrite exec_app, E'; cbn; now rewrite Fc|]. intros g k n a Hx. apply in_app_iff in Hx as [Hx|[->|[]]]; [eapply P; eauto|].
    destruct l; cbn in Es; try discriminate.
    + destruct (nth_error _ _); [|discriminate]. destruct (_ && _); [|discriminate]. congruence.
    + destruct (nth_error _ _); [|discriminate]. destruct (_ && _); discriminate.
    + destruct (_ && _); [|discriminate]. congruence.
    + destruct (nth_error _ _); [|discriminate]. destruct (_ && _); discriminate.
    + destruct (_ && _); [|discriminate]. injection Es as ->. discriminate.
  - rewrite Fc. exists ls'. auto.
Qed.
(* a step of the network as seen by dock i *)
Definition plain (l : label gval) : Prop := match l with SExec _ _ _ | LCall _ _ _ _ _ => False | _ => True end.
Lemma does_dock j l ps b b' : dock_does j l ps b = Some b' -> exists d, dstep (bd b j) l = Some d /\ bd b' = updp (bd b) j d.
Proof.
  unfold dock_does. intros H. destruct (dstep (bd b j) l) as [d|]; [|discriminate]. exists d. split; auto.
  destruct (ByteProof4.dock_events_grow _ _ _ _ _ H) as (_ & E & _). rewrite E. reflexivity.
Qed.
Lemma does_hub l b b' : hub_does black raddr hostport l b = Some b' -> bd b' = bd b.
Proof.
  unfold hub_does. intros H. destruct (HubModel.hstep black raddr (bh b) l) as [h|]; [|discriminate].
  match type of H with Some ?x = _ => assert (X : b' = x) by congruence end. subst b'. rewrite (proj2 (ByteProof4.hub_events_grow hostport _ _)). reflexivity.
Qed.
Lemma bytes_dock E b l b' i : bstep E hub_end black raddr hostport wz b l = Some b' ->
  exists dls, exec dstep (bd b i) dls = Some (bd b' i) /\ match l with BDock j dl _ => dls = if i =? j then [dl] else [] | _ => Forall plain dls end.
Proof.
  assert (Z : forall b', bd b' = bd b -> exists dls, exec dstep (bd b i) dls = Some (bd b' i) /\ Forall plain dls) by (intros x ->; exists []; split; [reflexivity|constructor]).
  intros H. destruct l as [j l ps|l|e|e|e n|e|e n|e|e]; cbn [bstep] in H.
  - assert (X : dock_does j l ps b = Some b') by (destruct l; try discriminate; destruct (gone b (Some j)); try discriminate; exact H).
    destruct (does_dock _ _ _ _ _ X) as (d & Ed & ->). unfold updp. destruct (Nat.eqb_spec i j) as [->|N]; eexists; (split; [|reflexivity]); cbn [exec]; [rewrite Ed|]; reflexivity.
  - apply Z. apply (does_hub l). destruct l; try discriminate; destruct (gone b None); try discriminate; exact H.
  - destruct (_ || _); [discriminate|]. destruct (holding (out b e)), (queue (out b e)); try discriminate. injection H as <-. apply Z. reflexivity.
  - destruct (gone b (proc e)); [discriminate|]. unfold marshalled in H. destruct (holding (out b e)); [|discriminate]. destruct (marshal _ _); injection H as <-; apply Z; reflexivity.
  - destruct (gone b (proc e)); [discriminate|]. unfold marshalled in H. destruct (holding (out b e)); [|discriminate]. destruct (marshal _ _); injection H as <-; apply Z; reflexivity.
  - destruct (holding (out b e)); [discriminate|]. injection H as <-. apply Z. reflexivity.
  - destruct (other E hub_end e); [|discriminate]. destruct (_ || _); [discriminate|]. injection H as <-. apply Z. reflexivity.
  - destruct (_ || _); [discriminate|]. destruct (unmarshal _ _) as [m| | |]; try (injection H as <-; apply Z; reflexivity). destruct e as [j p|h].
    + destruct (dock_packet (p_p m)) as [k|]; [|injection H as <-; apply Z; reflexivity]. destruct (does_dock _ _ _ _ _ H) as (d & Ed & ->). cbn [bd with_inb] in *. unfold updp.
      destruct (Nat.eqb_spec i j) as [->|N]; [exists [LRecv p k]|exists []]; (split; [|repeat constructor]); cbn [exec]; [rewrite Ed|]; reflexivity.
    + apply Z. rewrite (does_hub _ _ _ H). reflexivity.
  - injection H as <-. apply Z. reflexivity.
Qed.
Lemma fleet_dock n l n' i : fstep n l = Some n' ->
  exists dls, exec dstep (bd (fb n) i) dls = Some (bd (fb n') i) /\ match l with FDock j dl => dls = if i =? j then [dl] else [] | _ => Forall plain dls end.
Proof.
  assert (One : forall w (o : option bsys) n', fon w o = Some n' -> exists b, o = Some b /\ fb n' = b) by (intros w [b|] x E; [injection E as <-; exists b; auto|discriminate]).
  assert (Some' : forall E w b l n', fon w (bstep E hub_end black raddr hostport wz b l) = Some n' -> exists dls, exec dstep (bd b i) dls = Some (bd (fb n') i) /\ match l with BDock j dl _ => dls = if i =? j then [dl] else [] | _ => Forall plain dls end).
  { intros E w b x y H. destruct (One _ _ _ H) as (b' & Eb & ->). apply (bytes_dock _ _ _ _ i Eb). }
  assert (If : forall (j : nat) (dl : label gval), plain dl -> Forall plain (if i =? j then [dl] else [])) by (intros j dl P; destruct (i =? j); repeat constructor; exact P).
  intros H. destruct l as [j l|l|l|j ok|j p ok|j p j' m|j p|j q]; cbn [FleetModel.fstep] in H.
  - assert (X : fon (outline n) (bstep (fends n) hub_end black raddr hostport wz (fb n) (BDock j l (query_peers (outline n) j))) = Some n') by (destruct l; try discriminate; exact H). apply (Some' _ _ _ _ _ X).
  - apply (Some' _ _ _ _ _ H).
  - destruct (site l) as [e|] eqn:Es; [|discriminate]. destruct (there n e); [|discriminate]. destruct (Some' _ _ _ _ _ H) as (dls & Ed & P). exists dls. split; auto. destruct l; try discriminate Es; exact P.
  - destruct (One _ _ _ H) as (b' & Eb & ->). cbn [exec] in Eb. destruct (bstep _ _ _ _ _ _ (fb n) (BDock j (LDial ok) [])) as [b1|] eqn:E1; [|discriminate].
    destruct (bytes_dock _ _ _ _ i E1) as (d1 & Ed1 & ->). destruct ok; cbn [exec] in Eb.
    + destruct (bstep _ _ _ _ _ _ b1 (BDock j (LConnected 0) [])) as [b2|] eqn:E2; [|discriminate]. injection Eb as <-. destruct (bytes_dock _ _ _ _ i E2) as (d2 & Ed2 & ->).
      eexists. split; [rewrite exec_app, Ed1; exact Ed2|]. apply Forall_app. split; apply If; exact I.
    + injection Eb as <-. eexists. split; [exact Ed1|]. apply If. exact I.
  - destruct (handlers (bd (fb n) j) p); try discriminate. destruct (_ && _); [discriminate|]. destruct (Some' _ _ _ _ _ H) as (dls & Ed & ->). eexists. split; [exact Ed|]. apply If. exact I.
  - destruct (handlers (bd (fb n) j) p); try discriminate. destruct (_ && _); [|discriminate]. destruct (One _ _ _ H) as (b' & Eb & ->). cbn [exec] in Eb. destruct (bstep _ _ _ _ _ _ (fb n) (BDock j (HNet p true) [])) as [b1|] eqn:E1; [|discriminate].
    destruct (bytes_dock _ _ _ _ i E1) as (d1 & Ed1 & ->). destruct (bstep _ _ _ _ _ _ b1 _) as [b2|] eqn:E2; [|discriminate]. injection Eb as <-. destruct (bytes_dock _ _ _ _ i E2) as (d2 & Ed2 & ->).
    eexists. split; [rewrite exec_app, Ed1; exact Ed2|]. apply Forall_app. split; apply If; exact I.
  - destruct (handlers (bd (fb n) j) p); try discriminate. destruct (Some' _ _ _ _ _ H) as (dls & Ed & ->). eexists. split; [exact Ed|]. apply If. exact I.
  - destruct (existsb _ _); [|discriminate]. destruct (Some' _ _ _ _ _ H) as (dls & Ed & ->). eexists. split; [exact Ed|]. apply If. exact I.
Qed.
Lemma dock_runs ls s i : exec hstep hinit ls = Some s -> exists ls', exec dstep (new_dock (carried i)) ls' = Some (bd (fb (hf s)) i).
Proof.
  intros H. destruct (fleet_runs _ _ H) as (ls' & E & _). clear H. revert E. generalize (hf s). clear s. induction ls' as [|l ls' IH] using rev_ind; intros n E; [injection E as <-; exists []; reflexivity|].
  apply exec_split in E as (m & E1 & E2). cbn [exec] in E2. destruct (fstep m l) as [n2|] eqn:E; [|discriminate]. injection E2 as <-. destruct (IH _ E1) as (x & Ex).
  destruct (fleet_dock _ _ _ i E) as (d & Ed & _). exists (x ++ d). rewrite exec_app, Ex. exact Ed.
Qed.
End Harbor.
