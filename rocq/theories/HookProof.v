(* Proofs about the goroutines that run OnStart and OnDestroy. *)
From Verif Require Import Lts GoInt GoVal Tables DockModel DockSpec DockProof DockProof2 DockProof4 DockProof7 DockProof8 SysModel SysSpec FullModel FullSpec FullProof WorldModel WorldSpec ByteModel ByteSpec ByteProof2 ByteProof3 FleetModel FleetSpec FleetProof2 ProtoModel HarborModel HarborSpec HarborProof HarborProof3 IsleProof HookModel HookSpec.
From Verif Require ChanModel HubModel FullProof2 FullProof3 ByteProof4.
From Coq Require Import Arith Bool List ZArith Lia Permutation.
Import ListNotations.
Open Scope nat_scope.

(* what the steps of a dock do to the goroutines of it *)
Definition starts_of (j : nat) (l : label gval) : list name := match l with TStart j' f => if j' =? j then [f] else [] | _ => [] end.
Definition destroys_of (l : label gval) : list name := match l with LDestroy f => [f] | _ => [] end.
Lemma tr_started (d : dock gval) l d' j : tr gval d l d' -> started j (hist d') = started j (hist d) ++ starts_of j l.
Proof. intros X. destruct X; cbn [starts_of]; proj; rewrite <- ?app_assoc, ?started_app, ?app_nil_r; try reflexivity; cbn; destruct (_ =? j); reflexivity. Qed.
Lemma tr_destroyed (d : dock gval) l d' : tr gval d l d' -> destroyed (hist d') = destroyed (hist d) ++ destroys_of l.
Proof. intros X. destruct X; cbn [destroys_of]; proj; unfold destroyed; rewrite <- ?app_assoc, ?flat_map_app, ?app_nil_r; reflexivity. Qed.
(* w is in the middle of its work *)
Definition engaged (w : who) (d : dock gval) : Prop := match w with Starter _ j => exists todo, nth_error (starters d) j = Some (TRun todo) | Closer _ => exists todo, closer d = KDestroy todo end.
Definition same (w : who) (d d' : dock gval) : Prop := match w with Starter _ j => nth_error (starters d') j = nth_error (starters d) j | Closer _ => closer d' = closer d end.
Definition moves (w : who) (l : label gval) : Prop := match w, l with Starter _ j, TStart j' _ => j' = j | Closer _, (LDestroy _ | KStep) => True | _, _ => False end.
Lemma tr_same w (d : dock gval) l d' : tr gval d l d' -> engaged w d -> ~ moves w l -> same w d d'.
Proof.
  intros X En Mv. destruct w as [i j|i]; cbn [engaged same] in *; destruct En as (todo & En).
  - destruct X; proj; try reflexivity.
    + apply nth_error_app1. eapply nth_lt; eauto.
    + rewrite set_nth_other; [reflexivity|]. intros ->. congruence.
    + rewrite set_nth_other; [reflexivity|]. intros ->. apply Mv. reflexivity.
  - destruct X; proj; try reflexivity; try (exfalso; apply Mv; exact I). congruence.
Qed.
Lemma same_engaged w d d' : same w d d' -> engaged w d -> engaged w d'.
Proof. destruct w; cbn; intros ->; auto. Qed.
Definition entered_of (w : who) (l : label gval) : list name := match w with Starter _ j => starts_of j l | Closer _ => destroys_of l end.
Definition entered_in (w : who) (d : dock gval) : list name := match w with Starter _ j => started j (hist d) | Closer _ => destroyed (hist d) end.
Lemma tr_entered w (d : dock gval) l d' : tr gval d l d' -> entered_in w d' = entered_in w d ++ entered_of w l.
Proof. destruct w; [apply tr_started|apply tr_destroyed]. Qed.
Lemma net_entered w dls : forall (d d' : dock gval), exec dstep d dls = Some d' -> Forall netted dls -> entered_in w d' = entered_in w d /\ (engaged w d -> same w d d').
Proof.
  induction dls as [|l dls IH]; intros d d' E N; [injection E as <-; split; [reflexivity|intros _; destruct w; reflexivity]|].
  cbn [exec] in E. destruct (dstep d l) as [d1|] eqn:E1; [|discriminate]. inversion N; subst. destruct (IH _ _ E H2) as [A B]. apply dstep_tr in E1 as [_ X].
  assert (M : ~ moves w l) by (destruct w, l; cbn in *; auto). split.
  - rewrite A, (tr_entered _ _ _ _ X). destruct w, l; try contradiction; apply app_nil_r.
  - intros En. pose proof (tr_same _ _ _ _ X En M) as S1. specialize (B (same_engaged _ _ _ S1 En)). destruct w; cbn in *; congruence.
Qed.

Section Hook.
Context {O : Type}.
Variables (carried : nat -> list (name * bool)) (black : list Z) (raddr : nat -> name) (wz : option nat -> wsize).
Variable code : name -> nat.
Variable T : nat -> name -> ChanModel.target O gval.
Variable o0 : nat -> name -> O.
Notation fstep := (fstep black raddr wz).
Notation hstep := (hstep black raddr wz code T).
Notation hinit := (hinit carried o0).
Notation kstep := (kstep black raddr wz code T).
Notation kinit := (kinit carried o0).
Implicit Types s : hooked O.

Lemma bytes_net E b l b' i : bstep E hub_end black raddr hostport wz b l = Some b' ->
  exists dls, exec dstep (bd b i) dls = Some (bd b' i) /\ match l with BDock j dl _ => dls = if i =? j then [dl] else [] | _ => Forall netted dls end.
Proof.
  assert (Z : forall b', bd b' = bd b -> exists dls, exec dstep (bd b i) dls = Some (bd b' i) /\ Forall netted dls) by (intros x ->; exists []; split; [reflexivity|constructor]).
  intros H. destruct l as [j l ps|l|e|e|e n|e|e n|e|e]; cbn [bstep] in H.
  - assert (X : dock_does j l ps b = Some b') by (destruct l; try discriminate; destruct (gone b (Some j)); try discriminate; exact H).
    destruct (HarborProof.does_dock _ _ _ _ _ X) as (d & Ed & ->). unfold updp. destruct (Nat.eqb_spec i j) as [->|N]; eexists; (split; [|reflexivity]); cbn [exec]; [rewrite Ed|]; reflexivity.
  - apply Z. apply (HarborProof.does_hub black raddr l). destruct l; try discriminate; destruct (gone b None); try discriminate; exact H.
  - destruct (_ || _); [discriminate|]. destruct (holding (out b e)), (queue (out b e)); try discriminate. injection H as <-. apply Z. reflexivity.
  - destruct (gone b (proc e)); [discriminate|]. unfold marshalled in H. destruct (holding (out b e)); [|discriminate]. destruct (marshal _ _); injection H as <-; apply Z; reflexivity.
  - destruct (gone b (proc e)); [discriminate|]. unfold marshalled in H. destruct (holding (out b e)); [|discriminate]. destruct (marshal _ _); injection H as <-; apply Z; reflexivity.
  - destruct (holding (out b e)); [discriminate|]. injection H as <-. apply Z. reflexivity.
  - destruct (other E hub_end e); [|discriminate]. destruct (_ || _); [discriminate|]. injection H as <-. apply Z. reflexivity.
  - destruct (_ || _); [discriminate|]. destruct (unmarshal _ _) as [m| | |]; try (injection H as <-; apply Z; reflexivity). destruct e as [j p|h].
    + destruct (dock_packet (p_p m)) as [k|]; [|injection H as <-; apply Z; reflexivity]. destruct (HarborProof.does_dock _ _ _ _ _ H) as (d & Ed & ->). cbn [bd with_inb] in *. unfold updp.
      destruct (Nat.eqb_spec i j) as [->|N]; [exists [LRecv p k]|exists []]; (split; [|repeat constructor]); cbn [exec]; [rewrite Ed|]; reflexivity.
    + apply Z. rewrite (HarborProof.does_hub _ _ _ _ _ H). reflexivity.
  - injection H as <-. apply Z. reflexivity.
Qed.
Lemma fleet_net n l n' i : fstep n l = Some n' ->
  exists dls, exec dstep (bd (fb n) i) dls = Some (bd (fb n') i) /\ match l with FDock j dl => dls = if i =? j then [dl] else [] | _ => Forall netted dls end.
Proof.
  assert (One : forall w (o : option bsys) n', fon w o = Some n' -> exists b, o = Some b /\ fb n' = b) by (intros w [b|] x E; [injection E as <-; exists b; auto|discriminate]).
  assert (Some' : forall E w b l n', fon w (bstep E hub_end black raddr hostport wz b l) = Some n' -> exists dls, exec dstep (bd b i) dls = Some (bd (fb n') i) /\ match l with BDock j dl _ => dls = if i =? j then [dl] else [] | _ => Forall netted dls end).
  { intros E w b x y H. destruct (One _ _ _ H) as (b' & Eb & ->). apply (bytes_net _ _ _ _ i Eb). }
  assert (If : forall (j : nat) (dl : label gval), netted dl -> Forall netted (if i =? j then [dl] else [])) by (intros j dl P; destruct (i =? j); repeat constructor; exact P).
  intros H. destruct l as [j l|l|l|j ok|j p ok|j p j' m|j p|j q]; cbn [FleetModel.fstep] in H.
  - assert (X : fon (outline n) (bstep (fends n) hub_end black raddr hostport wz (fb n) (BDock j l (query_peers (outline n) j))) = Some n') by (destruct l; try discriminate; exact H). apply (Some' _ _ _ _ _ X).
  - apply (Some' _ _ _ _ _ H).
  - destruct (site l) as [e|] eqn:Es; [|discriminate]. destruct (there n e); [|discriminate]. destruct (Some' _ _ _ _ _ H) as (dls & Ed & P). exists dls. split; auto. destruct l; try discriminate Es; exact P.
  - destruct (One _ _ _ H) as (b' & Eb & ->). cbn [exec] in Eb. destruct (bstep _ _ _ _ _ _ (fb n) (BDock j (LDial ok) [])) as [b1|] eqn:E1; [|discriminate].
    destruct (bytes_net _ _ _ _ i E1) as (d1 & Ed1 & ->). destruct ok; cbn [exec] in Eb.
    + destruct (bstep _ _ _ _ _ _ b1 (BDock j (LConnected 0) [])) as [b2|] eqn:E2; [|discriminate]. injection Eb as <-. destruct (bytes_net _ _ _ _ i E2) as (d2 & Ed2 & ->).
      eexists. split; [rewrite exec_app, Ed1; exact Ed2|]. apply Forall_app. split; apply If; exact I.
    + injection Eb as <-. eexists. split; [exact Ed1|]. apply If. exact I.
  - destruct (handlers (bd (fb n) j) p); try discriminate. destruct (_ && _); [discriminate|]. destruct (Some' _ _ _ _ _ H) as (dls & Ed & ->). eexists. split; [exact Ed|]. apply If. exact I.
  - destruct (handlers (bd (fb n) j) p); try discriminate. destruct (_ && _); [|discriminate]. destruct (One _ _ _ H) as (b' & Eb & ->). cbn [exec] in Eb. destruct (bstep _ _ _ _ _ _ (fb n) (BDock j (HNet p true) [])) as [b1|] eqn:E1; [|discriminate].
    destruct (bytes_net _ _ _ _ i E1) as (d1 & Ed1 & ->). destruct (bstep _ _ _ _ _ _ b1 _) as [b2|] eqn:E2; [|discriminate]. injection Eb as <-. destruct (bytes_net _ _ _ _ i E2) as (d2 & Ed2 & ->).
    eexists. split; [rewrite exec_app, Ed1; exact Ed2|]. apply Forall_app. split; apply If; exact I.
  - destruct (handlers (bd (fb n) j) p); try discriminate. destruct (Some' _ _ _ _ _ H) as (dls & Ed & ->). eexists. split; [exact Ed|]. apply If. exact I.
  - destruct (existsb _ _); [|discriminate]. destruct (Some' _ _ _ _ _ H) as (dls & Ed & ->). eexists. split; [exact Ed|]. apply If. exact I.
Qed.

(* the step of the network inside a step *)
Definition net_label (l : klab) : option hlab :=
  match l with
  | KAct l => Some l
  | KEnter w f => Some (enter w f)
  | KCall w f m args res x => Some (HFleet (FDock (home w) (LCall f m args res x)))
  | KOwn w f m args res => Some (HLocal (home w) f m args res)
  | _ => None
  end.
Definition actor_of (l : klab) : option who := match l with KAct _ => None | KEnter w _ | KLeave w | KCall w _ _ _ _ _ | KGot w | KOwn w _ _ _ _ | KOwnGot w => Some w end.
Lemma kstep_inv s l s' : kstep s l = Some s' -> optstep hstep (net_label l) (hh s) (hh s') /\ (forall w, actor_of l <> Some w -> at_ s' w = at_ s w) /\
  match l with
  | KAct l => others s l = true
  | KEnter w f => at_ s w = Between /\ at_ s' w = Inside f
  | KLeave w => (exists f, at_ s w = Inside f) /\ at_ s' w = Between
  | KCall w _ _ _ _ _ => exists f, at_ s w = Inside f /\ at_ s' w = Waits f (length (calls (bd (fb (hf (hh s))) (home w))))
  | KGot w => exists f c, at_ s w = Waits f c /\ returned (hh s) (home w) c = true /\ at_ s' w = Inside f
  | KOwn w _ _ _ _ => exists f, at_ s w = Inside f /\ at_ s' w = WaitsOwn f (length (locals (hh s) (home w)))
  | KOwnGot w => exists f n, at_ s w = WaitsOwn f n /\ own_returned (hh s) (home w) n = true /\ at_ s' w = Inside f
  end.
Proof.
  assert (M : forall w x h, at_ (moved w x s h) w = x) by (intros; cbn; destruct (who_eq w w); congruence).
  assert (M' : forall w x h w', Some w <> Some w' -> at_ (moved w x s h) w' = at_ s w') by (intros w x h w' N; cbn; destruct (who_eq w' w); [subst; congruence|reflexivity]).
  destruct l as [l|w f|w|w f m a r x|w|w f m a r|w]; cbn [HookModel.kstep net_label actor_of optstep]; intros H.
  - destruct (others s l); [|discriminate]. destruct (hstep (hh s) l) as [h|]; [|discriminate]. injection H as <-. auto.
  - destruct (at_ s w) eqn:A; try discriminate. destruct (hstep (hh s) (enter w f)) as [h|]; [|discriminate]. injection H as <-. split; [reflexivity|]. split; auto.
  - destruct (at_ s w) eqn:A; try discriminate. destruct (up (home w) (hh s)); [|discriminate]. injection H as <-. split; [reflexivity|]. split; eauto.
  - destruct (at_ s w) eqn:A; try discriminate. destruct (hstep (hh s) _) as [h|]; [|discriminate]. injection H as <-. split; [reflexivity|]. split; eauto.
  - destruct (at_ s w) eqn:A; try discriminate. destruct (up (home w) (hh s)); [|discriminate]. destruct (returned (hh s) (home w) c) eqn:R; [|discriminate]. injection H as <-. split; [reflexivity|]. split; eauto 6.
  - destruct (at_ s w) eqn:A; try discriminate. destruct (hstep (hh s) _) as [h|]; [|discriminate]. injection H as <-. split; [reflexivity|]. split; eauto.
  - destruct (at_ s w) eqn:A; try discriminate. destruct (up (home w) (hh s)); [|discriminate]. destruct (own_returned (hh s) (home w) n) eqn:R; [|discriminate]. injection H as <-. split; [reflexivity|]. split; eauto 6.
Qed.
Lemma hooks_go ls : forall s s', exec kstep s ls = Some s' -> exec hstep (hh s) (flat_map (fun l => match net_label l with Some x => [x] | None => [] end) ls) = Some (hh s').
Proof.
  induction ls as [|l ls IH]; intros s s' E; [injection E as <-; reflexivity|]. cbn [exec] in E. destruct (kstep s l) as [s1|] eqn:E1; [|discriminate].
  apply kstep_inv in E1 as (H & _). specialize (IH _ _ E). cbn [flat_map]. destruct (net_label l) as [x|]; cbn [optstep app exec] in *; [rewrite H; exact IH|rewrite <- H; exact IH].
Qed.
(* C84_runs *)
Lemma hooks_run ls s : exec kstep kinit ls = Some s -> exists ls', exec hstep hinit ls' = Some (hh s).
Proof. intros E. eexists. apply (hooks_go _ _ _ E). Qed.

(* what a step does to the dock of w *)
Lemma kstep_dock s l s' w : kstep s l = Some s' -> exists dls, exec dstep (bd (fb (hf (hh s))) (home w)) dls = Some (bd (fb (hf (hh s'))) (home w)) /\
  (Forall netted dls \/ exists dl, dls = [dl] /\ (moves w dl -> (exists f, l = KEnter w f /\ entered_of w dl = [f]) \/ (dl = KStep /\ at_ s w = Between))) /\
  match l with KEnter w' f => w' = w -> exists dl, dls = [dl] /\ entered_of w dl = [f] | _ => True end.
Proof.
  intros H. destruct (kstep_inv _ _ _ H) as (Hn & _ & Hl). 
  assert (Fl : exists fl : option flab, optstep fstep fl (hf (hh s)) (hf (hh s')) /\
     match net_label l with Some x => fl = fleet_label (hh s) x | None => fl = None end).
  { destruct (net_label l) as [x|]; cbn [optstep] in Hn; [|exists None; split; [cbn; now rewrite Hn|reflexivity]].
    destruct (hstep_inv _ _ _ _ _ _ _ _ Hn) as (F & _). eexists. split; [exact F|reflexivity]. }
  destruct Fl as (fl & F & Fe). destruct fl as [x|].
  2: { cbn in F. rewrite F. exists []. split; [reflexivity|]. split; [left; constructor|]. destruct l; try exact I. intros ->. cbn in Fe. destruct w; discriminate Fe. }
  cbn [optstep] in F. destruct (fleet_net _ _ _ (home w) F) as (dls & Ed & P). exists dls. split; [exact Ed|].
  destruct x as [j dl|x|x|j ok|j p ok|j p j' m|j p|j q];
    try (split; [left; exact P|]; destruct l as [y|w' g| | | | |]; try exact I; cbn in Fe; destruct w'; discriminate Fe).
  subst dls. destruct (Nat.eqb_spec (home w) j) as [Ej|Nj].
  - split.
    + right. exists dl. split; [reflexivity|]. intros M. destruct l as [y|w' g|w'|w' g m a r z|w'|w' g m a r|w']; cbn in Fe; try discriminate Fe.
      * right. destruct y as [fl|i k|i k|i f m a r|i n|i f y|y]; cbn [fleet_label] in Fe; try discriminate Fe.
        -- injection Fe as <-. cbn [others] in Hl. destruct w, dl; cbn [moves] in M; try contradiction; try discriminate Hl. split; auto. cbn in Ej. subst. destruct (at_ s (Closer j)); congruence.
        -- exfalso. destruct (nth_error _ k) as [sv|]; [|discriminate]. destruct (ChanModel.responses _ _) as [|[? ?] ?]; [discriminate|]. injection Fe as _ ->. destruct w; exact M.
        -- injection Fe as _ ->. destruct w; destruct M.
      * left. exists g. destruct w' as [i' j'|i']; cbn in Fe; injection Fe as -> ->; destruct w as [i0 j0|i0]; cbn in *; try contradiction; subst; (split; [reflexivity|]); cbn; rewrite ?Nat.eqb_refl; reflexivity.
      * injection Fe as _ ->. destruct w; destruct M.
      * injection Fe as _ ->. destruct w; destruct M.
    + destruct l as [y|w' g| | | | |]; try exact I. intros ->. exists dl. split; [reflexivity|]. destruct w; cbn in Fe; injection Fe as _ ->; cbn; rewrite ?Nat.eqb_refl; reflexivity.
  - split; [left; constructor|]. destruct l as [y|w' g| | | | |]; try exact I. intros ->. destruct w; cbn in Fe, Nj; injection Fe as -> _; congruence.
Qed.
Lemma entered_eq w s : entered w (hh s) = entered_in w (bd (fb (hf (hh s))) (home w)).
Proof. destruct w; reflexivity. Qed.
Definition entry (w : who) (l : klab) : list name := match l with KEnter w' f => if who_eq w' w then [f] else [] | _ => [] end.
Lemma kstep_entered s l s' w : kstep s l = Some s' -> entered w (hh s') = entered w (hh s) ++ entry w l.
Proof.
  intros H. rewrite !entered_eq. destruct (kstep_dock _ _ _ w H) as (dls & Ed & D & M).
  assert (Q : (forall f, l <> KEnter w f) -> entry w l = []).
  { intros N. destruct l; try reflexivity. cbn. destruct (who_eq w0 w) as [->|]; [congruence|reflexivity]. }
  assert (Y : (exists f, l = KEnter w f) \/ forall f, l <> KEnter w f).
  { destruct l as [y|w' g| | | | |]; try (right; discriminate). destruct (who_eq w' w) as [->|N]; [eauto|right; congruence]. }
  destruct Y as [[f ->]|Y].
  - destruct (M eq_refl) as (dl & -> & En). cbn [exec] in Ed. destruct (dstep _ dl) as [d1|] eqn:E1; [|discriminate]. injection Ed as <-. apply dstep_tr in E1 as [_ X].
    rewrite (tr_entered w _ _ _ X), En. cbn. destruct (who_eq w w); [reflexivity|congruence].
  - rewrite (Q Y), app_nil_r. destruct D as [N|(dl & -> & Mv)]; [apply (net_entered w _ _ _ Ed N)|].
    cbn [exec] in Ed. destruct (dstep _ dl) as [d1|] eqn:E1; [|discriminate]. injection Ed as <-. apply dstep_tr in E1 as [_ X]. rewrite (tr_entered w _ _ _ X).
    destruct (entered_of w dl) as [|g t] eqn:Ee; [apply app_nil_r|]. exfalso.
    assert (Mw : moves w dl /\ dl <> KStep).
    { destruct w, dl; cbn in Ee |- *; try discriminate Ee; [|split; [exact I|discriminate]]. destruct (Nat.eqb_spec j0 j); [|discriminate Ee]. split; [auto|discriminate]. }
    destruct Mw as [Mw Nk]. destruct (Mv Mw) as [(f & E & _)|[E _]]; [exact (Y f E)|exact (Nk E)].
Qed.
(* C84_entered *)
Lemma hooks_entered ls w : forall s s', exec kstep s ls = Some s' -> entered w (hh s') = entered w (hh s) ++ flat_map (entry w) ls.
Proof.
  induction ls as [|l ls IH]; intros s s' E; [injection E as <-; symmetry; apply app_nil_r|]. cbn [exec] in E. destruct (kstep s l) as [s1|] eqn:E1; [|discriminate].
  rewrite (IH _ _ E), (kstep_entered _ _ _ w E1), <- app_assoc. reflexivity.
Qed.

(* one at a time *)
Lemma kstep_leaves s l s' w : kstep s l = Some s' -> at_ s w <> Between -> at_ s' w <> Between \/ l = KLeave w.
Proof.
  intros H N. destruct (kstep_inv _ _ _ H) as (_ & K & Hl). destruct l as [y|w' g|w'|w' g m a r z|w'|w' g m a r|w']; cbn [actor_of] in K;
    try (left; rewrite K by discriminate; exact N); destruct (who_eq w' w) as [->|Nw]; try (left; rewrite K by congruence; exact N); auto; left.
  - destruct Hl as [_ ->]. discriminate.
  - destruct Hl as (? & _ & ->). discriminate.
  - destruct Hl as (? & ? & _ & _ & ->). discriminate.
  - destruct Hl as (? & _ & ->). discriminate.
  - destruct Hl as (? & ? & _ & _ & ->). discriminate.
Qed.
Lemma run_leaves ls w : forall s s', exec kstep s ls = Some s' -> at_ s w <> Between -> at_ s' w = Between -> In (KLeave w) ls.
Proof.
  induction ls as [|l ls IH]; intros s s' E N B; [injection E as <-; contradiction|]. cbn [exec] in E. destruct (kstep s l) as [s1|] eqn:E1; [|discriminate].
  destruct (kstep_leaves _ _ _ w E1 N) as [N1| ->]; [right; eapply IH; eauto|left; reflexivity].
Qed.
Lemma one_at_a_time s0 a w f b f' c s : exec kstep s0 (a ++ KEnter w f :: b ++ KEnter w f' :: c) = Some s -> In (KLeave w) b.
Proof.
  intros E. apply exec_split in E as (s1 & _ & E). cbn [exec] in E. destruct (kstep s1 (KEnter w f)) as [s2|] eqn:E1; [|discriminate].
  apply exec_split in E as (s3 & E2 & E). cbn [exec] in E. destruct (kstep s3 (KEnter w f')) as [s4|] eqn:E3; [|discriminate].
  apply kstep_inv in E1 as (_ & _ & _ & A1). apply kstep_inv in E3 as (_ & _ & A3 & _). eapply run_leaves; [exact E2| |exact A3]. rewrite A1. discriminate.
Qed.

(* a goroutine that waits *)
Lemma kstep_engaged s l s' w : kstep s l = Some s' -> at_ s w <> Between -> engaged w (bd (fb (hf (hh s))) (home w)) -> (forall f, l <> KEnter w f) ->
  same w (bd (fb (hf (hh s))) (home w)) (bd (fb (hf (hh s'))) (home w)).
Proof.
  intros H N En Y. destruct (kstep_dock _ _ _ w H) as (dls & Ed & D & _). destruct D as [Nt|(dl & -> & Mv)]; [apply (net_entered w _ _ _ Ed Nt); exact En|].
  cbn [exec] in Ed. destruct (dstep _ dl) as [d1|] eqn:E1; [|discriminate]. injection Ed as <-. apply dstep_tr in E1 as [_ X].
  apply (tr_same _ _ _ _ X En). intros Mw. destruct (Mv Mw) as [(f & E & _)|[_ E]]; [exact (Y f E)|exact (N E)].
Qed.
Lemma entered_engaged s f s' w : kstep s (KEnter w f) = Some s' -> engaged w (bd (fb (hf (hh s'))) (home w)).
Proof.
  intros H. destruct (kstep_dock _ _ _ w H) as (dls & Ed & _ & M). destruct (M eq_refl) as (dl & -> & En). cbn [exec] in Ed. destruct (dstep _ dl) as [d1|] eqn:E1; [|discriminate].
  injection Ed as <-. apply dstep_tr in E1 as [_ X]. destruct w as [i j|i]; destruct dl; cbn in En; try discriminate En.
  - destruct (Nat.eqb_spec j0 j) as [->|]; [|discriminate En]. inversion X; subst. cbn. exists rest. apply set_nth_same. eapply nth_lt; eauto.
  - inversion X; subst. cbn. eauto.
Qed.
Lemma engaged_always ls s w : exec kstep kinit ls = Some s -> at_ s w <> Between -> engaged w (bd (fb (hf (hh s))) (home w)).
Proof.
  revert s. induction ls as [|l ls IH] using rev_ind; intros s E N; [injection E as <-; exfalso; apply N; reflexivity|].
  apply exec_split in E as (s1 & E & E1). cbn [exec] in E1. destruct (kstep s1 l) as [s2|] eqn:E2; [|discriminate]. injection E1 as <-.
  assert (Y : (exists f, l = KEnter w f) \/ forall f, l <> KEnter w f).
  { destruct l as [y|w' g| | | | |]; try (right; discriminate). destruct (who_eq w' w) as [->|Nw]; [eauto|right; congruence]. }
  destruct Y as [[f ->]|Y]; [eapply entered_engaged; eauto|].
  assert (B : at_ s1 w <> Between).
  { intros B. destruct (kstep_inv _ _ _ E2) as (_ & K & Hl). destruct l as [y|w' g|w'|w' g m a r z|w'|w' g m a r|w']; cbn [actor_of] in K;
      try (apply N; rewrite K by discriminate; exact B); destruct (who_eq w' w) as [->|Nw]; try (apply N; rewrite K by congruence; exact B).
    - destruct Hl as [[? ?] _]. congruence.
    - destruct Hl as (? & ? & _). congruence.
    - destruct Hl as (? & ? & ? & _). congruence.
    - destruct Hl as (? & ? & _). congruence.
    - destruct Hl as (? & ? & ? & _). congruence. }
  specialize (IH _ E B). eapply same_engaged; [|exact IH]. eapply kstep_engaged; eauto.
Qed.
Lemma ahead_same w s s' : same w (bd (fb (hf (hh s))) (home w)) (bd (fb (hf (hh s'))) (home w)) -> ahead w (hh s') = ahead w (hh s).
Proof. destruct w; cbn; intros ->; reflexivity. Qed.
Lemma returned_event ls (s : harbor O) i c : exec hstep hinit ls = Some s -> returned s i c = true -> exists x, In (EReturn c x) (hist (bd (fb (hf s)) i)).
Proof.
  intros E R. destruct (dock_runs _ _ _ _ _ _ _ _ _ i E) as (dl & Ed). destruct (inv_inv _ _ _ Ed) as (_ & _ & _ & _ & _ & A & _).
  unfold returned in R. destruct (nth_error _ c) as [r|] eqn:Ec; [|discriminate]. destruct (c_pc r) as [| | | |x] eqn:Ep; try discriminate. specialize (A _ _ Ec). unfold retok in A. rewrite Ep in A.
  exists x. assert (I1 : In x (returns c (hist (bd (fb (hf s)) i)))) by (rewrite A; left; reflexivity).
  unfold returns in I1. apply in_flat_map in I1 as (e & Ie & X). destruct e; try destruct X. destruct (Nat.eqb_spec c0 c) as [->|]; [|destruct X]. destruct X as [->|[]]. exact Ie.
Qed.
(* C84_waits *)
Lemma hooks_wait w f c ls2 : forall ls1 s1 s2, exec kstep kinit ls1 = Some s1 -> at_ s1 w = Waits f c -> exec kstep s1 ls2 = Some s2 ->
  (forall x, ~ In (EReturn c x) (hist (bd (fb (hf (hh s2))) (home w)))) ->
  at_ s2 w = Waits f c /\ entered w (hh s2) = entered w (hh s1) /\ ahead w (hh s2) = ahead w (hh s1).
Proof.
  induction ls2 as [|l ls2 IH]; intros ls1 s1 s2 E1 A E2 N; [injection E2 as <-; auto|]. cbn [exec] in E2. destruct (kstep s1 l) as [s|] eqn:E; [|discriminate].
  assert (E1' : exec kstep kinit (ls1 ++ [l]) = Some s) by (rewrite exec_app, E1; cbn [exec]; rewrite E; reflexivity).
  destruct (kstep_inv _ _ _ E) as (_ & K & Hl). assert (Nr : returned (hh s1) (home w) c = false).
  { destruct (returned (hh s1) (home w) c) eqn:R; [|reflexivity]. exfalso. destruct (hooks_run _ _ E1) as (hl & Eh). destruct (returned_event _ _ _ _ Eh R) as (x & X).
    pose proof (hooks_go (l :: ls2) s1 s2 ltac:(cbn [exec]; rewrite E; exact E2)) as G. destruct (hist_later _ _ _ _ _ _ _ _ (home w) G) as (es & He).
    apply (N x). rewrite He. apply in_or_app. left. exact X. }
  assert (Na : actor_of l <> Some w).
  { intros Q. destruct l as [y|w' g|w'|w' g m a r z|w'|w' g m a r|w']; cbn in Q; try discriminate Q; injection Q as ->; try (destruct Hl as [Hl _]; congruence).
    - destruct Hl as [[? ?] _]; congruence.
    - destruct Hl as (? & ? & _); congruence.
    - destruct Hl as (? & ? & Q & R & _). rewrite A in Q. injection Q as <- <-. congruence.
    - destruct Hl as (? & ? & _); congruence.
    - destruct Hl as (? & ? & ? & _); congruence. }
  assert (A1 : at_ s w = Waits f c) by (rewrite K by exact Na; exact A). destruct (IH _ _ _ E1' A1 E2 N) as (P & Q & R).
  assert (Y : forall g, l <> KEnter w g) by (intros g ->; apply Na; reflexivity). split; [exact P|]. split.
  - rewrite Q, (kstep_entered _ _ _ w E). destruct l; try apply app_nil_r. cbn. destruct (who_eq w0 w) as [->|]; [exfalso; eapply Y; reflexivity|apply app_nil_r].
  - rewrite R. apply ahead_same. eapply kstep_engaged; [exact E|rewrite A; discriminate| |exact Y]. eapply engaged_always; [exact E1|rewrite A; discriminate].
Qed.
(* a goroutine that waits for a local call *)
Lemma gor_stays i f (c : ChanModel.chan O gval) l c' g : ChanModel.cstep (T i f) c l = Some c' -> ChanModel.gor c g <> ChanModel.GIdle ->
  ChanModel.gor c' g <> ChanModel.GIdle \/ exists r o a, In (ChanModel.EReturn g r o a) (ChanModel.hist c').
Proof.
  intros H N. unfold ChanModel.cstep in H. destruct (ChanModel.crashed c); [discriminate|]. destruct l;
    repeat match type of H with context [match ?x with _ => _ end] => destruct x eqn:?; try discriminate H end; try (injection H as <-); try (left; exact N); cbn; unfold ChanModel.upd;
    try (match goal with |- context [?a =? ?b] => destruct (Nat.eqb_spec a b) end; [|left; exact N]; first [left; discriminate|right; subst; do 3 eexists; apply in_or_app; right; left; reflexivity]).
Qed.
Lemma kstep_own s l s' i f n x : kstep s l = Some s' -> nth_error (locals (hh s) i) n = Some x -> l_feature x = f -> ChanModel.gor (feat (hh s) i f) (local_id n) <> ChanModel.GIdle ->
  nth_error (locals (hh s') i) n = Some x /\ (ChanModel.gor (feat (hh s') i f) (local_id n) <> ChanModel.GIdle \/ exists r o a, In (ChanModel.EReturn (local_id n) r o a) (deeds (hh s') i f)).
Proof.
  intros H L F G. destruct (kstep_inv _ _ _ H) as (Hn & _). destruct (net_label l) as [y|]; cbn [optstep] in Hn; [|rewrite Hn; auto].
  destruct (hstep_inv _ _ _ _ _ _ _ _ Hn) as (_ & C & _ & Lo & _). rewrite Lo. split; [rewrite nth_error_app1; [exact L|eapply nth_lt; eauto]|].
  specialize (C i f). destruct (chan_label _ _ _ i f) as [cl|]; cbn [optstep] in C; [exact (gor_stays _ _ _ _ _ _ C G)|rewrite C; auto].
Qed.
(* C84_waits_own *)
Lemma own_wait w f g n ls2 : forall ls1 s1 s2 x, exec kstep kinit ls1 = Some s1 -> at_ s1 w = WaitsOwn f n -> nth_error (locals (hh s1) (home w)) n = Some x -> l_feature x = g ->
  ChanModel.gor (feat (hh s1) (home w) g) (local_id n) <> ChanModel.GIdle -> exec kstep s1 ls2 = Some s2 ->
  (forall r o a, ~ In (ChanModel.EReturn (local_id n) r o a) (deeds (hh s2) (home w) g)) ->
  at_ s2 w = WaitsOwn f n /\ entered w (hh s2) = entered w (hh s1) /\ ahead w (hh s2) = ahead w (hh s1).
Proof.
  induction ls2 as [|l ls2 IH]; intros ls1 s1 s2 x E1 A L F G E2 N; [injection E2 as <-; auto|]. cbn [exec] in E2. destruct (kstep s1 l) as [s|] eqn:E; [|discriminate].
  assert (E1' : exec kstep kinit (ls1 ++ [l]) = Some s) by (rewrite exec_app, E1; cbn [exec]; rewrite E; reflexivity).
  destruct (kstep_inv _ _ _ E) as (_ & K & Hl). destruct (kstep_own _ _ _ _ _ _ _ E L F G) as (L' & [G'|(r & o & a & X)]).
  2: { exfalso. destruct (deeds_later _ _ _ _ _ _ _ _ (home w) g (hooks_go _ _ _ E2)) as (es & He). apply (N r o a). rewrite He. apply in_or_app. left. exact X. }
  assert (Na : actor_of l <> Some w).
  { intros Q. destruct l as [y|w' h|w'|w' h m b r z|w'|w' h m b r|w']; cbn in Q; try discriminate Q; injection Q as ->; try (destruct Hl as [Hl _]; congruence).
    - destruct Hl as [[? ?] _]; congruence.
    - destruct Hl as (? & ? & _); congruence.
    - destruct Hl as (? & ? & ? & _); congruence.
    - destruct Hl as (? & ? & _); congruence.
    - destruct Hl as (? & ? & Q & R & _). rewrite A in Q. injection Q as <- <-. unfold own_returned in R. rewrite L, F in R. destruct (ChanModel.gor _ _); try discriminate R. apply G. reflexivity. }
  assert (A1 : at_ s w = WaitsOwn f n) by (rewrite K by exact Na; exact A). destruct (IH _ _ _ _ E1' A1 L' F G' E2 N) as (P & Q & R).
  assert (Y : forall h, l <> KEnter w h) by (intros h ->; apply Na; reflexivity). split; [exact P|]. split.
  - rewrite Q, (kstep_entered _ _ _ w E). destruct l; try apply app_nil_r. cbn. destruct (who_eq w0 w) as [->|]; [exfalso; eapply Y; reflexivity|apply app_nil_r].
  - rewrite R. apply ahead_same. eapply kstep_engaged; [exact E|rewrite A; discriminate| |exact Y]. eapply engaged_always; [exact E1|rewrite A; discriminate].
Qed.
Lemma hooks_wait_own ls1 s1 w g m args res s2 ls2 s3 : exec kstep kinit ls1 = Some s1 -> kstep s1 (KOwn w g m args res) = Some s2 -> exec kstep s2 ls2 = Some s3 ->
  (forall r o a, ~ In (ChanModel.EReturn (local_id (length (locals (hh s1) (home w)))) r o a) (deeds (hh s3) (home w) g)) ->
  exists f, at_ s1 w = Inside f /\ at_ s3 w = WaitsOwn f (length (locals (hh s1) (home w))) /\ entered w (hh s3) = entered w (hh s1) /\ ahead w (hh s3) = ahead w (hh s1).
Proof.
  intros E1 E E2 N. destruct (kstep_inv _ _ _ E) as (Hn & _ & f & A1 & A2). set (n := length _) in *. exists f. split; [exact A1|].
  assert (E1' : exec kstep kinit (ls1 ++ [KOwn w g m args res]) = Some s2) by (rewrite exec_app, E1; cbn [exec]; rewrite E; reflexivity).
  cbn [net_label optstep] in Hn. destruct (hstep_inv _ _ _ _ _ _ _ _ Hn) as (_ & C & _ & Lo & _). specialize (Lo (home w)). rewrite Nat.eqb_refl in Lo.
  assert (L : nth_error (locals (hh s2) (home w)) n = Some (mkLocal g m args)) by (rewrite Lo; unfold n; rewrite nth_error_app2, Nat.sub_diag by lia; reflexivity).
  assert (G : ChanModel.gor (feat (hh s2) (home w) g) (local_id n) <> ChanModel.GIdle).
  { specialize (C (home w) g). cbn [chan_label] in C. rewrite Nat.eqb_refl, zlist_refl in C. cbn [andb optstep] in C. fold n in C. unfold ChanModel.cstep in C. destruct (ChanModel.crashed _); [discriminate|].
    destruct (ChanModel.gor _ _); try discriminate C. injection C as <-. cbn. unfold ChanModel.upd. rewrite Nat.eqb_refl. discriminate. }
  destruct (own_wait w f g n ls2 _ _ _ _ E1' A2 L eq_refl G E2 N) as (B1 & B2 & B3). split; [exact B1|]. split.
  - rewrite B2, (kstep_entered _ _ _ w E). apply app_nil_r.
  - rewrite B3. apply ahead_same. eapply kstep_engaged; [exact E|rewrite A1; discriminate| |discriminate]. eapply engaged_always; [exact E1|rewrite A1; discriminate].
Qed.

(* C84_uncarried *)
Lemma hooks_hang ls1 s1 w g m args res x s2 ls2 s3 : exec kstep kinit ls1 = Some s1 -> kstep s1 (KCall w g m args res x) = Some s2 -> (forall j, ~ carries (carried j) g true) ->
  exec kstep s2 ls2 = Some s3 -> Forall (legitimate (across (hf (hh s3))) wz) (handed (fb (hf (hh s3)))) -> NoDup (map q_index (requests (hist (bd (fb (hf (hh s3))) (home w))))) ->
  exists f c, at_ s1 w = Inside f /\ at_ s3 w = Waits f c /\ entered w (hh s3) = entered w (hh s1) /\ ahead w (hh s3) = ahead w (hh s1).
Proof.
  intros E1 E Nc E2 L Nd. destruct (kstep_inv _ _ _ E) as (Hn & _ & f & A1 & A2). set (c := length _) in A2. exists f, c. split; [exact A1|].
  assert (E1' : exec kstep kinit (ls1 ++ [KCall w g m args res x]) = Some s2) by (rewrite exec_app, E1; cbn [exec]; rewrite E; reflexivity).
  assert (Nw : exists q, In (ENew c q) (hist (bd (fb (hf (hh s2))) (home w))) /\ q_slot q = g).
  { cbn [net_label optstep] in Hn. destruct (hstep_inv _ _ _ _ _ _ _ _ Hn) as (Fs & _ & _ & _ & _ & Al). cbn [fleet_label optstep] in Fs.
    destruct (fleet_net _ _ _ (home w) Fs) as (dls & Ed & ->). rewrite Nat.eqb_refl in Ed. cbn [exec] in Ed. destruct (dstep _ _) as [d1|] eqn:E3; [|discriminate]. injection Ed as <-.
    apply dstep_tr in E3 as [_ X]. unfold allowed in Al. inversion X; subst.
    - match goal with Q : aget _ _ = Some _ |- _ => rewrite Q in Al end. discriminate Al.
    - proj. eexists. split; [apply in_or_app; right; left; reflexivity|reflexivity]. }
  destruct Nw as (q & Nq & Sq). assert (W : forall y, ~ In (EReturn c y) (hist (bd (fb (hf (hh s3))) (home w)))).
  { intros y R. assert (E3 : exec kstep kinit ((ls1 ++ [KCall w g m args res x]) ++ ls2) = Some s3) by (rewrite exec_app, E1'; exact E2).
    destruct (hooks_run _ _ E3) as (hl & Eh). destruct (remote_call _ _ _ _ _ _ _ _ _ _ _ _ Eh L Nd R) as (q' & j & k & r & Nq' & (Ca & _) & _).
    destruct (hist_later _ _ _ _ _ _ _ _ (home w) (hooks_go _ _ _ E2)) as (es & He). destruct (dock_runs _ _ _ _ _ _ _ _ _ (home w) Eh) as [ld Hd].
    assert (q' = q) by (apply (new_unique _ _ _ c _ _ Hd); [exact Nq'|rewrite He; apply in_or_app; auto]). subst q' g. exact (Nc _ Ca). }
  destruct (hooks_wait _ _ _ _ _ _ _ E1' A2 E2 W) as (B1 & B2 & B3). split; [exact B1|]. split.
  - rewrite B2, (kstep_entered _ _ _ w E). apply app_nil_r.
  - rewrite B3. apply ahead_same. eapply kstep_engaged; [exact E|rewrite A1; discriminate| |discriminate]. eapply engaged_always; [exact E1|rewrite A1; discriminate].
Qed.

(* it goes on *)
Definition rest_in (w : who) (d : dock gval) : option (list name) :=
  match w with Starter _ j => match nth_error (starters d) j with Some (TRun todo) => Some todo | _ => None end | Closer _ => match closer d with KDestroy todo => Some todo | _ => None end end.
Lemma rest_eq w s : rest w (hh s) = rest_in w (bd (fb (hf (hh s))) (home w)).
Proof. destruct w; reflexivity. Qed.
Lemma rest_engaged w d todo : rest_in w d = Some todo -> engaged w d.
Proof. destruct w; cbn; [destruct (nth_error _ _) as [[]|]|destruct (closer d)]; try discriminate; eauto. Qed.
Lemma rest_same w d d' : same w d d' -> rest_in w d' = rest_in w d.
Proof. destruct w; cbn; intros ->; reflexivity. Qed.
Lemma kstep_rest s l s' w todo : kstep s l = Some s' -> rest w (hh s) = Some todo -> (forall f, l <> KEnter w f) -> at_ s w <> Between \/ todo <> [] -> rest w (hh s') = Some todo.
Proof.
  intros H R Y Z. rewrite rest_eq in *. rewrite <- R. apply rest_same. pose proof (rest_engaged _ _ _ R) as En.
  destruct (kstep_dock _ _ _ w H) as (dls & Ed & D & _). destruct D as [Nt|(dl & -> & Mv)]; [apply (net_entered w _ _ _ Ed Nt); exact En|].
  cbn [exec] in Ed. destruct (dstep _ dl) as [d1|] eqn:E1; [|discriminate]. injection Ed as <-. apply dstep_tr in E1 as [_ X].
  apply (tr_same _ _ _ _ X En). intros Mw. destruct (Mv Mw) as [(f & E & _)|[-> E]]; [exact (Y f E)|]. destruct Z as [N|N]; [exact (N E)|].
  destruct w; cbn in Mw, R; [exact Mw|]. cbn [home] in X; inversion X; subst; match goal with Q : closer _ = _ |- _ => rewrite Q in R end; congruence.
Qed.
Lemma kenter_rest s w f s' todo : kstep s (KEnter w f) = Some s' -> rest w (hh s) = Some todo -> exists r, Permutation todo (f :: r) /\ rest w (hh s') = Some r.
Proof.
  intros H R. rewrite rest_eq in *. destruct (kstep_dock _ _ _ w H) as (dls & Ed & _ & M). destruct (M eq_refl) as (dl & -> & En). cbn [exec] in Ed. destruct (dstep _ dl) as [d1|] eqn:E1; [|discriminate].
  injection Ed as <-. apply dstep_tr in E1 as [_ X]. destruct w as [i j|i]; cbn [home] in *; destruct dl; cbn in En; try discriminate En.
  - destruct (Nat.eqb_spec j0 j) as [->|]; [|discriminate En]. injection En as ->. inversion X; subst. cbn in R. match goal with Q : nth_error _ _ = Some (TRun ?t) |- _ => rewrite Q in R; injection R as <- end.
    eexists. split; [eapply takeout_perm; eassumption|]. cbn. rewrite set_nth_same by (eapply nth_lt; eauto). reflexivity.
  - injection En as ->. inversion X; subst. cbn in R. match goal with Q : closer _ = KDestroy ?t |- _ => rewrite Q in R; injection R as <- end.
    eexists. split; [eapply takeout_perm; eassumption|]. reflexivity.
Qed.
Lemma kenter_enabled s w f todo : ~ over (hh s) (home w) -> at_ s w = Between -> rest w (hh s) = Some (f :: todo) -> kstep s (KEnter w f) <> None.
Proof.
  intros Nv B R. assert (Al : state (bd (fb (hf (hh s))) (home w)) = Alive /\ gone (fb (hf (hh s))) (Some (home w)) = false /\ dead (hh s) (Some (home w)) = false).
  { unfold over in Nv. split; [|split].
    - destruct (state _) eqn:E; [reflexivity| |]; exfalso; apply Nv; left; discriminate.
    - destruct (gone _ _) eqn:E; [exfalso; apply Nv; right; left; reflexivity|reflexivity].
    - destruct (dead _ _) eqn:E; [exfalso; apply Nv; right; right; reflexivity|reflexivity]. }
  destruct Al as (A & G & D). cbn [HookModel.kstep]. rewrite B. rewrite rest_eq in R. destruct w as [i j|i]; cbn [enter home rest_in] in *.
  - destruct (nth_error (starters _) j) as [[|t]|] eqn:Ej; try discriminate R. injection R as ->.
    assert (X : exists d, dstep (bd (fb (hf (hh s))) i) (TStart j f) = Some d /\ hist d = hist (bd (fb (hf (hh s))) i) ++ [EStart j f]).
    { unfold dstep. rewrite A, Ej. cbn. rewrite zlist_refl. eexists. split; reflexivity. }
    destruct X as (d & Ed & Hd). assert (Ok : allowed (hh s) (FDock i (TStart j f)) = true) by (unfold allowed, actor; rewrite D; reflexivity).
    cbn [HarborModel.hstep]. rewrite Ok. cbn [FleetModel.fstep bstep]. rewrite G.
    rewrite (does_silent _ _ _ _ _ _ Ed Hd eq_refl). discriminate.
  - destruct (closer _) as [|t|] eqn:Ej; try discriminate R. injection R as ->.
    assert (X : exists d, dstep (bd (fb (hf (hh s))) i) (LDestroy f) = Some d /\ hist d = hist (bd (fb (hf (hh s))) i) ++ [EDestroy f]).
    { unfold dstep. rewrite A, Ej. cbn. rewrite zlist_refl. eexists. split; reflexivity. }
    destruct X as (d & Ed & Hd). assert (Ok : allowed (hh s) (FDock i (LDestroy f)) = true) by (unfold allowed, actor; rewrite D; reflexivity).
    cbn [HarborModel.hstep]. rewrite Ok. cbn [FleetModel.fstep bstep]. rewrite G.
    rewrite (does_silent _ _ _ _ _ _ Ed Hd eq_refl). discriminate.
Qed.

Section Endless.
Variables (run : nat -> hooked O) (lab : nat -> option klab) (w : who).
Hypothesis En : kendless carried black raddr wz code T o0 run lab.
Hypothesis Go : hook_goes black raddr wz code T run lab w.
Hypothesis Re : hooks_return run w.
Hypothesis Up : forall n, ~ over (hh (run n)) (home w).
Lemma enters_or n : (exists f, lab n = Some (KEnter w f)) \/ (forall f, lab n <> Some (KEnter w f)).
Proof. destruct (lab n) as [[| w' f| | | | |]|]; try (right; discriminate). destruct (who_eq w' w) as [->|N]; [eauto|right; congruence]. Qed.
Lemma unmoved n todo : (forall f, lab n <> Some (KEnter w f)) -> rest w (hh (run n)) = Some todo -> at_ (run n) w <> Between \/ todo <> [] ->
  rest w (hh (run (S n))) = Some todo /\ entered w (hh (run (S n))) = entered w (hh (run n)) /\ (at_ (run n) w = Between -> at_ (run (S n)) w = Between).
Proof.
  intros Y R Z. pose proof (ke_step _ _ _ _ _ _ _ _ _ En n) as St. destruct (lab n) as [l|] eqn:El; [|rewrite St; auto].
  assert (Y' : forall f, l <> KEnter w f) by (intros f ->; eapply Y; reflexivity). split; [eapply kstep_rest; eauto|]. split.
  - rewrite (kstep_entered _ _ _ w St). destruct l; try apply app_nil_r. cbn. destruct (who_eq w0 w) as [->|]; [exfalso; eapply Y'; reflexivity|apply app_nil_r].
  - intros B. destruct (kstep_inv _ _ _ St) as (_ & K & Hl). rewrite K; [exact B|]. intros Q. destruct l as [y|w' g|w'|w' g m a r z|w'|w' g m a r|w']; cbn in Q; try discriminate Q; injection Q as ->.
    + exact (Y' _ eq_refl).
    + destruct Hl as [[? ?] _]; congruence.
    + destruct Hl as (? & ? & _); congruence.
    + destruct Hl as (? & ? & ? & _); congruence.
    + destruct Hl as (? & ? & _); congruence.
    + destruct Hl as (? & ? & ? & _); congruence.
Qed.
Lemma comes_back k : forall n todo, at_ (run (n + k)) w = Between -> rest w (hh (run n)) = Some todo ->
  exists m, n <= m /\ at_ (run m) w = Between /\ rest w (hh (run m)) = Some todo /\ entered w (hh (run m)) = entered w (hh (run n)).
Proof.
  induction k as [|k IH]; intros n todo B R; [rewrite Nat.add_0_r in B; eauto|].
  assert (Dc : at_ (run n) w = Between \/ at_ (run n) w <> Between) by (destruct (at_ (run n) w); auto; right; discriminate). destruct Dc as [B0|N]; [eauto|].
  assert (Y : forall f, lab n <> Some (KEnter w f)).
  { intros f El. pose proof (ke_step _ _ _ _ _ _ _ _ _ En n) as St. rewrite El in St. apply kstep_inv in St as (_ & _ & A & _). exact (N A). }
  destruct (unmoved n todo Y R (or_introl N)) as (R1 & E1 & _). rewrite Nat.add_succ_r in B. destruct (IH (S n) todo B R1) as (m & L & P & Q & E). exists m. split; [lia|]. rewrite E, E1. auto.
Qed.
Lemma enters_in k : forall n todo, at_ (run n) w = Between -> rest w (hh (run n)) = Some todo -> todo <> [] ->
  (exists m f, n <= m /\ m < n + k /\ lab m = Some (KEnter w f) /\ rest w (hh (run m)) = Some todo /\ entered w (hh (run m)) = entered w (hh (run n))) \/
  (at_ (run (n + k)) w = Between /\ rest w (hh (run (n + k))) = Some todo /\ entered w (hh (run (n + k))) = entered w (hh (run n))).
Proof.
  induction k as [|k IH]; intros n todo B R N; [right; rewrite Nat.add_0_r; auto|]. destruct (enters_or n) as [[f E]|Y].
  - left. exists n, f. repeat split; auto; lia.
  - destruct (unmoved n todo Y R (or_intror N)) as (R1 & E1 & B1). rewrite Nat.add_succ_r. destruct (IH (S n) todo (B1 B) R1 N) as [(m & f & L1 & L2 & El & Rm & Em)|(P & Q & E)].
    + left. exists m, f. repeat split; auto; try lia. congruence.
    + right. split; [exact P|]. split; [exact Q|]. rewrite <- E1. exact E.
Qed.
(* C84_goes_on *)
Lemma hooks_go_on k : forall n todo, length todo = k -> rest w (hh (run n)) = Some todo ->
  exists m, n <= m /\ at_ (run m) w = Between /\ rest w (hh (run m)) = Some [] /\ Permutation (entered w (hh (run m))) (entered w (hh (run n)) ++ todo).
Proof.
  induction k as [|k IH]; intros n todo L R.
  - destruct todo; [|discriminate L]. destruct (Re n) as (m & Lm & B). replace m with (n + (m - n)) in B by lia. destruct (comes_back _ _ _ B R) as (m' & L' & B' & R' & E').
    exists m'. rewrite E', app_nil_r. auto.
  - destruct (Re n) as (m & Lm & B). replace m with (n + (m - n)) in B by lia. destruct (comes_back _ _ _ B R) as (m1 & L1 & B1 & R1 & E1).
    assert (N : todo <> []) by (intros ->; discriminate L). destruct (Go m1) as (m2 & L2 & D).
    assert (X : exists m f, m1 <= m /\ lab m = Some (KEnter w f) /\ rest w (hh (run m)) = Some todo /\ entered w (hh (run m)) = entered w (hh (run m1))).
    { destruct (enters_in (m2 - m1) m1 todo B1 R1 N) as [(m3 & f & La & _ & El & Rm & Em)|(P & Q & E)]; [exists m3, f; auto|].
      replace (m1 + (m2 - m1)) with m2 in P, Q, E by lia. destruct D as [D|[f D]]; [|exists m2, f; auto].
      exfalso. destruct todo as [|f t]; [congruence|]. exact (kenter_enabled _ _ _ _ (Up m2) P Q (D f)). }
    destruct X as (m3 & f & L3 & El & R3 & E3). pose proof (ke_step _ _ _ _ _ _ _ _ _ En m3) as St. rewrite El in St.
    destruct (kenter_rest _ _ _ _ _ St R3) as (r & Pm & Rr). pose proof (kstep_entered _ _ _ w St) as Ee. cbn in Ee. destruct (who_eq w w); [|congruence].
    assert (Lr : length r = k) by (apply Permutation_length in Pm; cbn in Pm; lia). destruct (IH _ _ Lr Rr) as (m4 & L4 & B4 & R4 & P4). exists m4. split; [lia|]. split; [exact B4|]. split; [exact R4|].
    rewrite P4, Ee, E3, E1, <- app_assoc. apply Permutation_app_head. symmetry. exact Pm.
Qed.
Lemma reached n : exists ls, exec kstep kinit ls = Some (run n).
Proof.
  induction n as [|n (ls & IH)]; [exists []; rewrite (ke_start _ _ _ _ _ _ _ _ _ En); reflexivity|]. pose proof (ke_step _ _ _ _ _ _ _ _ _ En n) as St.
  destruct (lab n) as [l|]; [|rewrite St; eauto]. exists (ls ++ [l]). rewrite exec_app, IH. cbn [exec]. rewrite St. reflexivity.
Qed.
(* C84_every_feature *)
Lemma hooks_every n todo : rest w (hh (run n)) = Some todo -> exists m, n <= m /\ at_ (run m) w = Between /\ NoDup (entered w (hh (run m))) /\
  (match w with Starter i _ => ~ cleared (hist (bd (fb (hf (hh (run m)))) i)) | Closer _ => True end -> forall f, In f (entered w (hh (run m))) <-> In f (map fst (carried (home w)))).
Proof.
  intros R. destruct (hooks_go_on _ n todo eq_refl R) as (m & L & B & Rm & _). exists m. split; [exact L|]. split; [exact B|].
  destruct (reached m) as (ls & E). destruct (hooks_run _ _ E) as (hl & Eh). destruct (dock_runs _ _ _ _ _ _ _ _ _ (home w) Eh) as (dl & Ed). rewrite rest_eq in Rm. rewrite entered_eq.
  destruct w as [i j|i]; cbn [home rest_in entered_in] in *.
  - split; [exact (proj1 (start_spec _ _ _ j Ed))|]. intros Nc. destruct (nth_error _ j) as [[|t]|] eqn:Ej; try discriminate Rm. injection Rm as ->. exact (start_done _ _ _ _ Ed Ej Nc).
  - destruct (closer _) as [|t|] eqn:Ek; try discriminate Rm. injection Rm as ->. pose proof (destroying_inv _ _ _ Ed) as D. rewrite Ek in D.
    assert (P : Permutation (destroyed (hist (bd (fb (hf (hh (run m)))) i))) (keys (carried i))) by (destruct D as [[_ D]|(_ & D & _)]; [rewrite app_nil_r in D|]; exact D).
    split; [eapply Permutation_NoDup; [symmetry; exact P|apply table_nodup]|]. intros _ f. rewrite <- keys_in. split; apply Permutation_in; [exact P|symmetry; exact P].
Qed.
End Endless.
(* C84_endless *)
Lemma hooks_endless run lab : kendless carried black raddr wz code T o0 run lab ->
  hendless carried black raddr wz code T o0 (fun n => hh (run n)) (fun n => match lab n with Some l => net_label l | None => None end).
Proof.
  intros [A B]. split; [rewrite A; reflexivity|]. intros n. specialize (B n). destruct (lab n) as [l|]; [|rewrite B; reflexivity].
  destruct (kstep_inv _ _ _ B) as (H & _). destruct (net_label l); exact H.
Qed.
(* C84_wakes *)
Lemma event_returned ls (s : harbor O) i c x : exec hstep hinit ls = Some s -> In (EReturn c x) (hist (bd (fb (hf s)) i)) -> returned s i c = true.
Proof.
  intros E R. destruct (dock_runs _ _ _ _ _ _ _ _ _ i E) as (dl & Ed). destruct (inv_inv _ _ _ Ed) as (_ & _ & _ & _ & _ & A & B).
  assert (I1 : In x (returns c (hist (bd (fb (hf s)) i)))) by (unfold returns; apply in_flat_map; exists (EReturn c x); split; [exact R|rewrite Nat.eqb_refl; left; reflexivity]).
  unfold returned. destruct (nth_error _ c) as [r|] eqn:Ec.
  - specialize (A _ _ Ec). unfold retok in A. rewrite A in I1. destruct (c_pc r); try destruct I1; reflexivity.
  - apply nth_error_None in Ec. rewrite (B _ Ec) in I1. destruct I1.
Qed.
Lemma hooks_wake run lab w : kendless carried black raddr wz code T o0 run lab -> got_goes black raddr wz code T run lab w -> (forall n, ~ over (hh (run n)) (home w)) ->
  forall n f c n0 x, at_ (run n) w = Waits f c -> In (EReturn c x) (hist (bd (fb (hf (hh (run n0)))) (home w))) -> exists m, n <= m /\ lab m = Some (KGot w) /\ at_ (run (S m)) w = Inside f.
Proof.
  intros En Go Up n f c n0 x A R.
  assert (Wt : forall k, at_ (run (n + k)) w = Waits f c \/ exists m, n <= m /\ m < n + k /\ lab m = Some (KGot w) /\ at_ (run (S m)) w = Inside f).
  { induction k as [|k [IH|(m & L1 & L2 & L3 & L4)]]; [left; rewrite Nat.add_0_r; exact A| |right; exists m; repeat split; auto; lia].
    rewrite Nat.add_succ_r. pose proof (ke_step _ _ _ _ _ _ _ _ _ En (n + k)) as St. destruct (lab (n + k)) as [l|] eqn:El; [|left; rewrite St; exact IH].
    destruct (kstep_inv _ _ _ St) as (_ & K & Hl). destruct l as [y|w' g|w'|w' g m a r z|w'|w' g m a r|w']; cbn [actor_of] in K;
      try (left; rewrite K by discriminate; exact IH); destruct (who_eq w' w) as [->|Nw]; try (left; rewrite K by congruence; exact IH).
    - destruct Hl as [Hl _]; congruence.
    - destruct Hl as [[? ?] _]; congruence.
    - destruct Hl as (? & ? & _); congruence.
    - destruct Hl as (f' & c' & Q & _ & P). rewrite IH in Q. injection Q as <- <-. right. exists (n + k). repeat split; auto; lia.
    - destruct Hl as (? & ? & _); congruence.
    - destruct Hl as (? & ? & ? & _); congruence. }
  assert (Mono : forall k, In (EReturn c x) (hist (bd (fb (hf (hh (run (n0 + k))))) (home w)))).
  { induction k as [|k IH]; [rewrite Nat.add_0_r; exact R|]. rewrite Nat.add_succ_r. pose proof (ke_step _ _ _ _ _ _ _ _ _ En (n0 + k)) as St. destruct (lab (n0 + k)) as [l|]; [|rewrite St; exact IH].
    assert (X : exec kstep (run (n0 + k)) [l] = Some (run (S (n0 + k)))) by (cbn [exec]; rewrite St; reflexivity).
    destruct (hist_later _ _ _ _ _ _ _ _ (home w) (hooks_go _ _ _ X)) as (es & ->). apply in_or_app. left. exact IH. }
  destruct (Go (n + n0)) as (m & Lm & D). destruct (Wt (m - n)) as [Wm|(m' & L1 & _ & L3 & L4)]; [|exists m'; auto]. replace (n + (m - n)) with m in Wm by lia.
  specialize (Mono (m - n0)). replace (n0 + (m - n0)) with m in Mono by lia.
  assert (El : lab m = Some (KGot w)).
  { destruct D as [D|D]; [exfalso|exact D]. destruct (reached _ _ En m) as (ls & E). destruct (hooks_run _ _ E) as (hl & Eh). pose proof (event_returned _ _ _ _ _ Eh Mono) as Rt.
    cbn [HookModel.kstep] in D. rewrite Wm, Rt, andb_true_r in D. specialize (Up m). unfold up in D. unfold over in Up.
    destruct (state _) eqn:Es; [|apply Up; left; discriminate|apply Up; left; discriminate].
    destruct (dead _ _) eqn:Ed; [apply Up; right; right; reflexivity|]. destruct (gone _ _) eqn:Eg; [apply Up; right; left; reflexivity|]. discriminate D. }
  exists m. split; [lia|]. split; [exact El|]. pose proof (ke_step _ _ _ _ _ _ _ _ _ En m) as St. rewrite El in St. destruct (kstep_inv _ _ _ St) as (_ & _ & f' & c' & Q & _ & P). rewrite Wm in Q. injection Q as <- <-. exact P.
Qed.
(* C84_wakes_own: a goroutine that has had an answer and is at a callee again has called it twice *)
Definition came (g : nat) (h : list (ChanModel.event gval)) : Prop := exists r o a, In (ChanModel.EReturn g r o a) h.
Definition put (r g : nat) (h : list (ChanModel.event gval)) : Prop := exists c n a, In (ChanModel.EIssue r g c n a) h.
Record twice (g : nat) (c : ChanModel.chan O gval) : Prop := {
  tw_less : forall r, put r g (ChanModel.hist c) -> r < ChanModel.nreqs c;
  tw_one : ChanModel.gor c g <> ChanModel.GIdle \/ came g (ChanModel.hist c) -> exists r, put r g (ChanModel.hist c);
  tw_two : ChanModel.gor c g <> ChanModel.GIdle -> came g (ChanModel.hist c) -> exists r r', r <> r' /\ put r g (ChanModel.hist c) /\ put r' g (ChanModel.hist c) }.
Lemma put_app r g h es : put r g (h ++ es) <-> put r g h \/ put r g es.
Proof. unfold put. split; [intros (c & n & a & X); apply in_app_iff in X as [X|X]; [left|right]; eauto|intros [(c & n & a & X)|(c & n & a & X)]; exists c, n, a; apply in_app_iff; auto]. Qed.
Lemma came_app g h es : came g (h ++ es) <-> came g h \/ came g es.
Proof. unfold came. split; [intros (c & n & a & X); apply in_app_iff in X as [X|X]; [left|right]; eauto|intros [(c & n & a & X)|(c & n & a & X)]; exists c, n, a; apply in_app_iff; auto]. Qed.
Lemma twice_same g c c' es : ChanModel.hist c' = ChanModel.hist c ++ es -> ChanModel.nreqs c' = ChanModel.nreqs c -> ChanModel.gor c' g = ChanModel.GIdle \/ ~ came g es -> (forall r, ~ put r g es) ->
  (ChanModel.gor c' g <> ChanModel.GIdle \/ came g es -> ChanModel.gor c g <> ChanModel.GIdle) -> twice g c -> twice g c'.
Proof.
  intros Eh En Ng Np Gi [A B D]. constructor; rewrite ?Eh, ?En.
  - intros r X. apply put_app in X as [X|X]; [auto|destruct (Np _ X)].
  - intros X. destruct B as (r & R); [|exists r; apply put_app; auto]. rewrite came_app in X. tauto.
  - intros X Y. rewrite came_app in Y. destruct D as (r & r' & N & R & R'); [auto|destruct Y as [Y|Y]; [exact Y|tauto]|exists r, r'; rewrite !put_app; auto].
Qed.
Lemma twice_step U g (c : ChanModel.chan O gval) l c' : ChanModel.cstep U c l = Some c' -> twice g c -> twice g c'.
Proof.
  intros H Tw. assert (Cl : (exists g' d n a, l = ChanModel.LCall g' d n a) \/ (exists g', l = ChanModel.LReceive g') \/ (exists g', l = ChanModel.LEnqueue g') \/
    (ChanModel.gor c' = ChanModel.gor c /\ ChanModel.nreqs c' = ChanModel.nreqs c /\ exists es, ChanModel.hist c' = ChanModel.hist c ++ es /\ ~ came g es /\ forall r, ~ put r g es)).
  { unfold ChanModel.cstep in H. destruct (ChanModel.crashed c); [discriminate|]. destruct l; try (left; repeat eexists; fail); try (right; left; repeat eexists; fail); try (right; right; left; repeat eexists; fail); right; right; right;
    repeat match type of H with context [match ?x with _ => _ end] => destruct x eqn:?; try discriminate H end; injection H as <-; (split; [reflexivity|]); (split; [reflexivity|]);
    first [exists []; rewrite app_nil_r; split; [reflexivity|]|eexists [_]; split; [reflexivity|]];
    (split; [intros (? & ? & ? & X)|intros ? (? & ? & ? & X)]; cbn in X; intuition discriminate). }
  destruct Cl as [(g' & d & n & a & ->)|[(g' & ->)|[(g' & ->)|(G & N & es & Eh & N1 & N2)]]].
  - unfold ChanModel.cstep in H. destruct (ChanModel.crashed c); [discriminate|]. destruct (ChanModel.gor c g') eqn:Eg; try discriminate H. injection H as <-. destruct Tw as [A B D].
    assert (Nc : ~ came g [ChanModel.EIssue (ChanModel.nreqs c) g' d n a]) by (intros (? & ? & ? & X); cbn in X; intuition discriminate).
    constructor; cbn.
    + intros r X. apply put_app in X as [X|(? & ? & ? & [X|[]])]; [specialize (A _ X); lia|injection X; intros; lia].
    + unfold ChanModel.upd. destruct (Nat.eqb_spec g g') as [->|Ne].
      * intros _. exists (ChanModel.nreqs c). apply put_app. right. exists d, n, a. left. reflexivity.
      * intros X. rewrite came_app in X. destruct B as (r & R); [tauto|]. exists r. apply put_app. auto.
    + unfold ChanModel.upd. rewrite came_app. destruct (Nat.eqb_spec g g') as [->|Ne].
      * intros _ [X|X]; [|tauto]. destruct B as (r & R); [auto|]. exists r, (ChanModel.nreqs c). rewrite !put_app. split; [specialize (A _ R); lia|]. split; [auto|]. right. exists d, n, a. left. reflexivity.
      * intros Y [X|X]; [|tauto]. destruct (D Y X) as (r & r' & Nr & R & R'). exists r, r'. rewrite !put_app. auto.
  - unfold ChanModel.cstep in H. destruct (ChanModel.crashed c); [discriminate|]. destruct (ChanModel.gor c g') as [|r|r] eqn:Eg; try discriminate H. destruct (ChanModel.responses _ _) as [|[o b] rs]; [discriminate H|]. injection H as <-.
    eapply (twice_same g c _ [_]); [reflexivity|reflexivity| | | |exact Tw]; cbn; unfold ChanModel.upd.
    + destruct (Nat.eqb_spec g g'); [left; reflexivity|]. right. intros (? & ? & ? & [X|[]]). injection X; intros; congruence.
    + intros ? (? & ? & ? & [X|[]]). discriminate X.
    + destruct (Nat.eqb_spec g g') as [->|Ne]; [intros _; congruence|]. intros [X|(? & ? & ? & [X|[]])]; [exact X|injection X; intros; congruence].
  - unfold ChanModel.cstep in H. destruct (ChanModel.crashed c); [discriminate|]. destruct (ChanModel.gor c g') as [|r|r] eqn:Eg; try discriminate H. destruct (_ <? _); [|discriminate H]. injection H as <-.
    eapply (twice_same g c _ [_]); [reflexivity|reflexivity| | | |exact Tw]; cbn; unfold ChanModel.upd.
    + right. intros (? & ? & ? & [X|[]]). discriminate X.
    + intros ? (? & ? & ? & [X|[]]). discriminate X.
    + intros [X|(? & ? & ? & [X|[]])]; [|discriminate X]. destruct (Nat.eqb_spec g g') as [->|Ne]; [congruence|exact X].
  - eapply twice_same; [exact Eh|exact N|auto|exact N2| |exact Tw]. rewrite G. tauto.
Qed.
Lemma came_idle ls (s : harbor O) i f g : exec hstep hinit ls = Some s -> came g (deeds s i f) -> ChanModel.gor (feat s i f) g = ChanModel.GIdle /\ exists r, put r g (deeds s i f).
Proof.
  intros E C. destruct (chan_runs _ _ _ _ _ _ _ _ _ i f E) as (cl & Ec & _).
  assert (Tw : twice g (feat s i f)).
  { revert Ec. apply (exec_inv (ChanModel.cstep (T i f)) (twice g)); [intros; eapply twice_step; eauto|]. constructor; cbn.
    - intros r (? & ? & ? & []).
    - intros [X|(? & ? & ? & [])]. congruence.
    - intros _ (? & ? & ? & []). }
  split; [|apply (tw_one _ _ Tw); auto]. destruct (ChanModel.gor (feat s i f) g) eqn:Eg; [reflexivity| |]; exfalso;
    (destruct (tw_two _ _ Tw) as (r1 & r2 & N & (? & ? & ? & R) & (? & ? & ? & R')); [congruence|exact C|]; apply N; eapply asked_once; eauto).
Qed.
Lemma own_came ls (s : harbor O) i f k : exec hstep hinit ls = Some s -> came (local_id k) (deeds s i f) -> own_returned s i k = true.
Proof.
  intros E C. destruct (came_idle _ _ _ _ _ E C) as (Id & r & c & n & a & R). pose proof (HarborProof2.inv_exec _ _ _ _ _ _ _ _ _ E) as J.
  destruct (HarborProof2.v_asks _ _ J _ _ _ _ _ _ _ R) as [_ [(k' & sv & Q & _)|(n' & x & Q & Ex & Ef & _)]]; [symmetry in Q; now apply HarborProof2.server_local in Q|].
  apply HarborProof2.local_inj in Q as <-. unfold own_returned. rewrite Ex, Ef, Id. reflexivity.
Qed.
Lemma hooks_wake_own run lab w : kendless carried black raddr wz code T o0 run lab -> own_goes black raddr wz code T run lab w -> (forall n, ~ over (hh (run n)) (home w)) ->
  forall n f k n0 g r o a, at_ (run n) w = WaitsOwn f k -> In (ChanModel.EReturn (local_id k) r o a) (deeds (hh (run n0)) (home w) g) -> exists m, n <= m /\ lab m = Some (KOwnGot w) /\ at_ (run (S m)) w = Inside f.
Proof.
  intros En Go Up n f c n0 g r o a A R.
  assert (Wt : forall k, at_ (run (n + k)) w = WaitsOwn f c \/ exists m, n <= m /\ m < n + k /\ lab m = Some (KOwnGot w) /\ at_ (run (S m)) w = Inside f).
  { induction k as [|k [IH|(m & L1 & L2 & L3 & L4)]]; [left; rewrite Nat.add_0_r; exact A| |right; exists m; repeat split; auto; lia].
    rewrite Nat.add_succ_r. pose proof (ke_step _ _ _ _ _ _ _ _ _ En (n + k)) as St. destruct (lab (n + k)) as [l|] eqn:El; [|left; rewrite St; exact IH].
    destruct (kstep_inv _ _ _ St) as (_ & K & Hl). destruct l as [y|w' h|w'|w' h m b r' z|w'|w' h m b r'|w']; cbn [actor_of] in K;
      try (left; rewrite K by discriminate; exact IH); destruct (who_eq w' w) as [->|Nw]; try (left; rewrite K by congruence; exact IH).
    - destruct Hl as [Hl _]; congruence.
    - destruct Hl as [[? ?] _]; congruence.
    - destruct Hl as (? & ? & _); congruence.
    - destruct Hl as (? & ? & ? & _); congruence.
    - destruct Hl as (? & ? & _); congruence.
    - destruct Hl as (f' & c' & Q & _ & P). rewrite IH in Q. injection Q as <- <-. right. exists (n + k). repeat split; auto; lia. }
  assert (Mono : forall k, came (local_id c) (deeds (hh (run (n0 + k))) (home w) g)).
  { induction k as [|k IH]; [rewrite Nat.add_0_r; exists r, o, a; exact R|]. rewrite Nat.add_succ_r. pose proof (ke_step _ _ _ _ _ _ _ _ _ En (n0 + k)) as St. destruct (lab (n0 + k)) as [l|]; [|rewrite St; exact IH].
    assert (X : exec kstep (run (n0 + k)) [l] = Some (run (S (n0 + k)))) by (cbn [exec]; rewrite St; reflexivity).
    destruct (deeds_later _ _ _ _ _ _ _ _ (home w) g (hooks_go _ _ _ X)) as (es & ->). apply came_app. left. exact IH. }
  destruct (Go (n + n0)) as (m & Lm & D). destruct (Wt (m - n)) as [Wm|(m' & L1 & _ & L3 & L4)]; [|exists m'; auto]. replace (n + (m - n)) with m in Wm by lia.
  specialize (Mono (m - n0)). replace (n0 + (m - n0)) with m in Mono by lia.
  assert (El : lab m = Some (KOwnGot w)).
  { destruct D as [D|D]; [exfalso|exact D]. destruct (reached _ _ En m) as (ls & E). destruct (hooks_run _ _ E) as (hl & Eh). pose proof (own_came _ _ _ _ _ Eh Mono) as Rt.
    cbn [HookModel.kstep] in D. rewrite Wm, Rt, andb_true_r in D. specialize (Up m). unfold up in D. unfold over in Up.
    destruct (state _) eqn:Es; [|apply Up; left; discriminate|apply Up; left; discriminate].
    destruct (dead _ _) eqn:Ed; [apply Up; right; right; reflexivity|]. destruct (gone _ _) eqn:Eg; [apply Up; right; left; reflexivity|]. discriminate D. }
  exists m. split; [lia|]. split; [exact El|]. pose proof (ke_step _ _ _ _ _ _ _ _ _ En m) as St. rewrite El in St. destruct (kstep_inv _ _ _ St) as (_ & _ & f' & c' & Q & _ & P). rewrite Wm in Q. injection Q as <- <-. exact P.
Qed.
End Hook.
