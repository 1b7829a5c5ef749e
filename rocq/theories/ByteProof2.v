(* C72: every run down to the bytes is a run of packets. *)
From Verif Require Import Lts GoInt GoVal Tables CodecSpec ProtoModel ProtoSpec SysCodec DockModel DockSpec DockProof SysModel SysSpec SysProof ByteModel ByteSpec ByteProof DockProof2.
From Verif Require CallSpec HubModel.
From Coq Require Import Arith Bool List ZArith Lia.
Import ListNotations.
Open Scope nat_scope.

Section Sim.
Variables (carried : nat -> list (name * bool)) (link : nat -> nat -> wend) (hublink : nat -> option (nat * nat)).
Variables (black : list Z) (raddr : nat -> name) (hostport : name -> Z -> name) (ws : option nat -> wsize).
Variable c : list gval -> option (list gval).
Hypothesis Hc : forall l x, through l = Some x -> c l = Some x.
Hypothesis W : wired link hublink.
Notation other := (other link hublink).
Notation carry := (fun _ _ : nat => c).
Notation bstep := (bstep link hublink black raddr hostport ws).
Notation sstep := (sstep link hublink carry black raddr hostport).
Notation legit := (legitimate other ws).

(* the wire of an end, and what a message is when it leaves it *)
Definition onwire (s : sys gval) (e : endp) : list (packet gval + HubModel.packet) :=
  match e with DockEnd i p => map inl (SysModel.wire s i p) | HubEnd h => map inr (hwire s h) end.
Definition arrival (p : proto) : option proto :=
  match p with
  | PRpcRequest i s m a w => option_map (fun a => PRpcRequest i s m a w) (c a)
  | PRpcResponse i s m a e => option_map (fun a => PRpcResponse i s m a e) (c a)
  | _ => Some p
  end.
Lemma image_arrival p p' : image p = Some p' -> arrival p = Some p'.
Proof.
  destruct p as [e| |l|l|n|q|q|i s m a r|i s m a e]; cbn; auto.
  all: destruct (through a) as [x|] eqn:E; [|discriminate]; now rewrite (Hc _ _ E).
Qed.
Definition seen (e : endp) (p : proto) : list (packet gval + HubModel.packet) :=
  match e with
  | DockEnd _ _ => match arrival p with Some p' => match dock_packet p' with Some k => [inl k] | None => [] end | None => [] end
  | HubEnd _ => [inr (hub_packet p)]
  end.
Definition flow (b : bsys) (s : sys gval) (e e' : endp) : Prop :=
  exists K, chan (ws (proc e')) (ws (proc e)) (out b e') (inb b e) K /\ subseq (flat_map (seen e) K) (onwire s e) /\
    (dropped b = false -> onwire s e = flat_map (seen e) K).
Record sim (b : bsys) (s : sys gval) : Prop := mkSim {
  m_docks : forall i, sd s i = bd b i;
  m_hub : sh s = bh b;
  m_flow : forall e e', other e = Some e' -> flow b s e e';
  m_alone : forall e, other e = None -> buffer (inb b e) = [] }.

Lemma other_sym e e' : other e = Some e' -> other e' = Some e.
Proof.
  destruct W as [A B]. destruct e as [i p|h]; cbn.
  - destruct (link i p) as [|j q|h] eqn:E; try discriminate; intros [= <-]; cbn; [now rewrite (A _ _ _ _ E)|]. apply B in E. now rewrite E.
  - destruct (hublink h) as [[i p]|] eqn:E; try discriminate. intros [= <-]. cbn. apply B in E. now rewrite E.
Qed.

(* what docks send *)
Definition sendable (k : packet gval) : Prop := match k with KError | KQuery _ => False | _ => True end.
Definition into_end (e x : endp) (p : proto) : list (packet gval + HubModel.packet) :=
  match other e with Some e' => if end_eqb e' x then seen e p else [] | None => [] end.
Lemma post_onwire i p k s e : sendable k -> onwire (post link carry i p k s) e = onwire s e ++ into_end e (DockEnd i p) (proto_of k).
Proof.
  intros Sk. unfold into_end.
  assert (N : other (DockEnd i p) <> Some e -> into_end e (DockEnd i p) (proto_of k) = []).
  { intros N. unfold into_end. destruct (other e) as [e'|] eqn:E; auto. destruct (end_eqb_spec e' (DockEnd i p)) as [->|]; auto. now apply other_sym in E. }
  unfold into_end in N. unfold post. destruct (link i p) as [|j q|h] eqn:El.
  - rewrite N, app_nil_r; [reflexivity|]. cbn. rewrite El. discriminate.
  - assert (O : other (DockEnd i p) = Some (DockEnd j q)) by (cbn; now rewrite El).
    destruct (end_eqb_spec e (DockEnd j q)) as [->|Ne].
    + rewrite (other_sym _ _ O). destruct (end_eqb_spec (DockEnd i p) (DockEnd i p)); [|congruence]. cbn [seen].
      destruct k as [|sl|sl|port|f|a|r|r]; try destruct Sk; cbn; try (rewrite put_same, map_app; reflexivity).
      * destruct r as [ix sl m a w]; cbn. destruct (c a); cbn; [rewrite put_same, map_app; reflexivity|now rewrite app_nil_r].
      * destruct r as [ix sl m a w]; cbn. destruct (c a); cbn; [rewrite put_same, map_app; reflexivity|now rewrite app_nil_r].
    + rewrite N, app_nil_r by congruence. destruct (pass carry i j k); auto. destruct e as [a r|h]; cbn; auto. rewrite (put_other carried carry black raddr hostport); auto.
      destruct (Nat.eq_dec a j) as [Ea|Na]; [right|left; exact Na]. intros Er. apply Ne. now rewrite Ea, Er.
  - assert (O : other (DockEnd i p) = Some (HubEnd h)) by (cbn; now rewrite El).
    destruct (end_eqb_spec e (HubEnd h)) as [->|Ne].
    + rewrite (other_sym _ _ O). destruct (end_eqb_spec (DockEnd i p) (DockEnd i p)); [|congruence]. cbn. rewrite updp_same, map_app. now destruct k.
    + rewrite N, app_nil_r by congruence. destruct e as [a r|g]; cbn; auto. rewrite updp_other by congruence. reflexivity.
Qed.
Lemma post_query_onwire i f p s e : onwire (post_query link i f p s) e = onwire s e ++ into_end e (DockEnd i p) (PQueryRequest f).
Proof.
  unfold into_end.
  assert (N : other (DockEnd i p) <> Some e -> into_end e (DockEnd i p) (PQueryRequest f) = []).
  { intros N. unfold into_end. destruct (other e) as [e'|] eqn:E; auto. destruct (end_eqb_spec e' (DockEnd i p)) as [->|]; auto. now apply other_sym in E. }
  unfold into_end in N. unfold post_query. destruct (link i p) as [|j q|h] eqn:El.
  - rewrite N, app_nil_r; [reflexivity|]. cbn. rewrite El. discriminate.
  - destruct e as [a r|g]; [|rewrite N, app_nil_r; [reflexivity|]; cbn; rewrite El; discriminate]. cbn [seen arrival dock_packet].
    destruct (other (DockEnd a r)) as [x|]; [destruct (end_eqb x _)|]; now rewrite app_nil_r.
  - assert (O : other (DockEnd i p) = Some (HubEnd h)) by (cbn; now rewrite El).
    destruct (end_eqb_spec e (HubEnd h)) as [->|Ne].
    + rewrite (other_sym _ _ O). destruct (end_eqb_spec (DockEnd i p) (DockEnd i p)); [|congruence]. cbn. rewrite updp_same, map_app. reflexivity.
    + rewrite N, app_nil_r by congruence. destruct e as [a r|g]; cbn; auto. rewrite updp_other by congruence. reflexivity.
Qed.
Lemma post_hub_onwire h k s e : sendable k -> (match k with KRequest _ | KResponse _ => False | _ => True end) ->
  onwire (post_hub hublink h k s) e = onwire s e ++ into_end e (HubEnd h) (proto_of k).
Proof.
  intros Sk Nr. unfold into_end.
  assert (N : other (HubEnd h) <> Some e -> into_end e (HubEnd h) (proto_of k) = []).
  { intros N. unfold into_end. destruct (other e) as [e'|] eqn:E; auto. destruct (end_eqb_spec e' (HubEnd h)) as [->|]; auto. now apply other_sym in E. }
  unfold into_end in N. unfold post_hub. destruct (hublink h) as [[i p]|] eqn:El.
  - assert (O : other (HubEnd h) = Some (DockEnd i p)) by (cbn; now rewrite El).
    destruct (end_eqb_spec e (DockEnd i p)) as [->|Ne].
    + rewrite (other_sym _ _ O). destruct (end_eqb_spec (HubEnd h) (HubEnd h)); [|congruence]. cbn [seen].
      destruct k; try destruct Sk; try destruct Nr; cbn; rewrite put_same, map_app; reflexivity.
    + rewrite N, app_nil_r by congruence. destruct e as [a r|g]; cbn; auto. rewrite (put_other carried carry black raddr hostport); auto.
      destruct (Nat.eq_dec a i) as [Ea|Na]; [right|left; exact Na]. intros Er. apply Ne. now rewrite Ea, Er.
  - rewrite N, app_nil_r; [reflexivity|]. cbn. rewrite El. discriminate.
Qed.

(* a message handed over on both sides *)
Lemma sim_push b s s' x p : sim b s -> legit (x, p) -> (forall i, sd s' i = sd s i) -> sh s' = sh s ->
  (forall e, onwire s' e = onwire s e ++ into_end e x p) -> sim (push x p b) s'.
Proof.
  intros [D H F A] [T L] Ed Eh Ew. constructor; cbn.
  - intros i. now rewrite Ed.
  - now rewrite Eh.
  - intros e e' O. destruct (F e e' O) as (K & C & S & Q). unfold flow. cbn. rewrite Ew. unfold into_end. rewrite O.
    destruct (end_eqb_spec e' x) as [->|N].
    + exists (K ++ [p]). rewrite upde_same. split; [|split].
      * apply chan_push; auto. destruct (L e O). split; [exact T|]. now split.
      * rewrite flat_map_app. cbn. rewrite app_nil_r. apply sq_app; auto. apply sq_refl.
      * intros Z. rewrite flat_map_app. cbn. now rewrite app_nil_r, Q.
    + exists K. rewrite upde_other by auto. rewrite app_nil_r. auto.
  - exact A.
Qed.
(* handed over on one side only *)
Lemma sim_drop b s s' x p : sim b s -> (forall i, sd s' i = sd s i) -> sh s' = sh s -> (forall e, onwire s' e = onwire s e ++ into_end e x p) ->
  sim (mkB (bd b) (bh b) (gone b) (out b) (inb b) (handed b) true) s'.
Proof.
  intros [D H F A] Ed Eh Ew. constructor; cbn.
  - intros i. now rewrite Ed.
  - now rewrite Eh.
  - intros e e' O. destruct (F e e' O) as (K & C & S & Q). exists K. cbn. split; auto. split; [|discriminate]. rewrite Ew.
    rewrite <- (app_nil_r (flat_map _ _)). apply sq_app; auto. apply sq_empty.
  - exact A.
Qed.
Definition legits (b : bsys) : Prop := Forall legit (handed b).
Lemma sim_send b s s' x p : sim b s -> legits (send x p b) -> (forall i, sd s' i = sd s i) -> sh s' = sh s ->
  (forall e, onwire s' e = onwire s e ++ into_end e x p) -> sim (send x p b) s'.
Proof.
  unfold send, legits. destruct (room x b); intros M L.
  - cbn in L. apply Forall_app in L as [_ L]. inversion L; subst. now apply sim_push.
  - eauto using sim_drop.
Qed.
Definition grows (b b' : bsys) : Prop := (exists m, handed b' = handed b ++ m) /\ (dropped b = true -> dropped b' = true).
Lemma grows_refl b : grows b b.
Proof. split; auto. exists []. now rewrite app_nil_r. Qed.
Lemma grows_same b b' : handed b' = handed b -> dropped b' = dropped b -> grows b b'.
Proof. intros A B. split; [exists []; now rewrite app_nil_r|congruence]. Qed.
Lemma grows_trans x y z : grows x y -> grows y z -> grows x z.
Proof. intros [[m A] B] [[n C] D]. split; auto. exists (m ++ n). now rewrite C, A, app_assoc. Qed.
Lemma push_grows x p b : grows b (push x p b).
Proof. split; auto. cbn. eauto. Qed.
Lemma send_grows x p b : grows b (send x p b).
Proof. unfold send. destruct (room x b); [apply push_grows|]. split; auto. exists []. cbn. now rewrite app_nil_r. Qed.
Lemma sends_grow i f ps : forall b, grows b (fold_left (fun b p => send (DockEnd i p) (PQueryRequest f) b) ps b).
Proof. induction ps as [|p ps IH]; intros b; cbn; [apply grows_refl|]. eapply grows_trans; [apply send_grows|apply IH]. Qed.
Lemma legits_grows b b' : grows b b' -> legits b' -> legits b.
Proof. unfold legits. intros [[m ->] _]. rewrite Forall_app. tauto. Qed.
Lemma event_grows i ps b e b' : dock_event i ps (Some b) e = Some b' -> grows b b'.
Proof.
  assert (Z : Some b = Some b' -> grows b b') by (intros [= <-]; apply grows_refl).
  destruct e; cbn [dock_event]; auto.
  - destruct accepted, (room (DockEnd i p) b); try discriminate; auto. intros E. assert (X : b' = push (DockEnd i p) (proto_of k) b) by congruence. rewrite X. apply push_grows.
  - intros E. assert (X : b' = fold_left (fun b p => send (DockEnd i p) (PQueryRequest f) b) ps b) by congruence. rewrite X. apply sends_grow.
Qed.
Lemma fold_none {A} (es : list A) (f : option bsys -> A -> option bsys) : (forall e, f None e = None) -> fold_left f es (@None bsys) = None.
Proof. intros H. induction es; cbn; auto. now rewrite H. Qed.
Lemma events_grow i ps es : forall b b', fold_left (dock_event i ps) es (Some b) = Some b' -> grows b b'.
Proof.
  induction es as [|e es IH]; intros b b'; cbn [fold_left]; [intros [= <-]; apply grows_refl|].
  destruct (dock_event i ps (Some b) e) as [b1|] eqn:E; [|rewrite fold_none; [discriminate|reflexivity]].
  intros H. eapply grows_trans; [eapply event_grows; eauto|eapply IH; eauto].
Qed.

Definition good_event (e : event gval) : Prop := match e with ESend _ k _ => sendable k | _ => True end.
Lemma query_sim i f ps : forall b s, sim b s -> legits (fold_left (fun b p => send (DockEnd i p) (PQueryRequest f) b) ps b) ->
  sim (fold_left (fun b p => send (DockEnd i p) (PQueryRequest f) b) ps b) (fold_left (fun s p => post_query link i f p s) ps s).
Proof.
  induction ps as [|p ps IH]; intros b s M L; cbn [fold_left] in *; auto. apply IH; auto. apply sim_send with (s := s); auto.
  - eapply legits_grows; [apply sends_grow|exact L].
  - intros j. unfold post_query. destruct (link i p); reflexivity.
  - unfold post_query. destruct (link i p); reflexivity.
  - intros e. apply post_query_onwire.
Qed.
Lemma event_sim i ps e b s b' : sim b s -> good_event e -> dock_event i ps (Some b) e = Some b' -> legits b' -> sim b' (post_event link carry i ps s e).
Proof.
  intros M G E L. assert (Z : Some b = Some b' -> sim b' s) by (intros [= <-]; exact M).
  destruct e; cbn [dock_event post_event] in *; auto.
  - destruct accepted, (room (DockEnd i p) b); try discriminate; auto. injection E as <-. unfold legits in L. cbn in L. apply Forall_app in L as [_ L]. inversion L; subst.
    apply sim_push with (s := s); auto.
    + intros j. unfold post. destruct (link i p); try reflexivity. destruct (pass _ _ _ _); reflexivity.
    + unfold post. destruct (link i p); try reflexivity. destruct (pass _ _ _ _); reflexivity.
    + intros e. apply post_onwire. exact G.
  - injection E as <-. now apply query_sim.
Qed.
Lemma events_sim i ps es : forall b s b', sim b s -> Forall good_event es -> fold_left (dock_event i ps) es (Some b) = Some b' -> legits b' ->
  sim b' (fold_left (post_event link carry i ps) es s).
Proof.
  induction es as [|e es IH]; intros b s b' M G; cbn [fold_left]; [intros [= <-]; auto|]. inversion G; subst.
  destruct (dock_event i ps (Some b) e) as [b1|] eqn:E; [|rewrite fold_none; [discriminate|reflexivity]].
  intros H L. eapply IH; eauto. eapply event_sim; eauto. eapply legits_grows; [eapply events_grow; eauto|exact L].
Qed.
Lemma dstep_good (d : dock gval) l d' : dstep d l = Some d' -> exists es, hist d' = hist d ++ es /\ Forall good_event es.
Proof.
  intros H. apply dstep_tr in H as [_ T]. inversion T; subst; proj; try rewrite <- app_assoc;
    (eexists; split; [try reflexivity; symmetry; apply app_nil_r|]); repeat constructor.
Qed.
Lemma dock_sim i l ps b s b' : sim b s -> dock_does i l ps b = Some b' -> legits b' -> exists s', dock_step link carry i l ps s = Some s' /\ sim b' s'.
Proof.
  intros M. unfold dock_does, dock_step. rewrite (m_docks _ _ M i). destruct (dstep (bd b i) l) as [d|] eqn:E; [|discriminate].
  intros H L. eexists. split; [reflexivity|]. destruct (dstep_good _ _ _ E) as (es & Eh & G). rewrite Eh, new_app in *.
  eapply events_sim; [|exact G|exact H|exact L]. destruct M as [D Hb F A]. constructor; cbn; auto.
  intros j. unfold updp. destruct (j =? i); auto.
Qed.

(* the hub *)
Lemma hub_event_grows b e : grows b (hub_event hostport b e).
Proof. destruct e; cbn; try apply grows_refl; apply send_grows. Qed.
Lemma hub_grow es : forall b, grows b (fold_left (hub_event hostport) es b).
Proof. induction es as [|e es IH]; intros b; cbn [fold_left]; [apply grows_refl|]. eapply grows_trans; [apply hub_event_grows|apply IH]. Qed.
Lemma hub_events_sim es : forall b s, sim b s -> legits (fold_left (hub_event hostport) es b) ->
  sim (fold_left (hub_event hostport) es b) (fold_left (post_hub_event hublink hostport) es s).
Proof.
  induction es as [|e es IH]; intros b s M L; cbn [fold_left] in *; auto. apply IH; auto.
  pose proof (legits_grows _ _ (hub_grow es (hub_event hostport b e)) L) as L1.
  destruct e; cbn in *; auto; apply sim_send with (s := s); auto; try (unfold post_hub; destruct (hublink p) as [[]|]; reflexivity);
    intros x; (rewrite post_hub_onwire; [reflexivity|exact I|exact I]).
Qed.
Lemma hub_sim l b s b' : sim b s -> hub_does black raddr hostport l b = Some b' -> legits b' ->
  exists s', hub_step hublink black raddr hostport l s = Some s' /\ sim b' s'.
Proof.
  intros M. unfold hub_does, hub_step. rewrite (m_hub _ _ M). destruct (HubModel.hstep black raddr (bh b) l) as [h|] eqn:E; [|discriminate].
  intros [= <-] L. eexists. split; [reflexivity|]. apply hub_events_sim; auto. destruct M as [D Hb F A]. constructor; cbn; auto.
Qed.
Lemma dock_does_grows i l ps b b' : dock_does i l ps b = Some b' -> grows b b'.
Proof.
  unfold dock_does. destruct (dstep (bd b i) l) as [d|]; [|discriminate]. intros H.
  eapply grows_trans; [|eapply events_grow; exact H]. now apply grows_same.
Qed.
Lemma hub_does_grows l b b' : hub_does black raddr hostport l b = Some b' -> grows b b'.
Proof.
  unfold hub_does. destruct (HubModel.hstep black raddr (bh b) l) as [h|]; [|discriminate]. intros H. injection H as <-.
  eapply grows_trans; [|apply hub_grow]. now apply grows_same.
Qed.

(* ---- the routines ---- *)
Lemma sim_gone o b s : sim b s -> sim (lose_process o b) s.
Proof. intros [D H F A]. now constructor. Qed.
Lemma sim_out e o b s : sim b s ->
  (forall d K, other e = Some d -> chan (ws (proc e)) (ws (proc d)) (out b e) (inb b d) K -> chan (ws (proc e)) (ws (proc d)) o (inb b d) K) ->
  sim (with_out e o b) s.
Proof.
  intros [D H F A] X. constructor; auto. intros d e' O. destruct (F d e' O) as (K & C & S & Q). exists K. cbn. split; auto.
  destruct (end_eqb_spec e' e) as [->|N]; [rewrite upde_same|now rewrite upde_other]. apply X; auto. now apply other_sym.
Qed.
Lemma sim_in e e' x b s s' : sim b s -> other e = Some e' -> (forall i, sd s' i = sd s i) -> sh s' = sh s -> (forall d, d <> e -> onwire s' d = onwire s d) ->
  flow (with_inb e x b) s' e e' -> sim (with_inb e x b) s'.
Proof.
  intros [D H F A] O Ed Eh Ew Fl. constructor; cbn.
  - intros i. now rewrite Ed.
  - now rewrite Eh.
  - intros d d' Od. destruct (end_eqb_spec d e) as [->|N]; [congruence|]. destruct (F d d' Od) as (K & C & S & Q). exists K. cbn.
    rewrite upde_other by auto. now rewrite Ew.
  - intros d Od. destruct (end_eqb_spec d e) as [->|N]; [congruence|]. rewrite upde_other; auto.
Qed.
Lemma sim_stop e x b s : sim b s -> buffer x = buffer (inb b e) -> sim (with_inb e x b) s.
Proof.
  intros [D H F A] B. constructor; cbn; auto.
  - intros d d' Od. destruct (F d d' Od) as (K & C & S & Q). exists K. cbn. split; auto.
    destruct (end_eqb_spec d e) as [->|N]; [rewrite upde_same|now rewrite upde_other]. eapply chan_inbox; eauto.
  - intros d Od. destruct (end_eqb_spec d e) as [->|N]; [rewrite upde_same, B|rewrite upde_other]; auto.
Qed.
Lemma sim_read e e' n r b s : sim b s -> other e = Some e' ->
  sim (with_inb e (mkInbox (buffer (inb b e) ++ firstn n (flight (out b e'))) r)
      (with_out e' (mkHalf (queue (out b e')) (holding (out b e')) (ended (out b e')) (skipn n (flight (out b e')))) b)) s.
Proof.
  intros [D H F A] O. constructor; cbn; auto.
  - intros d d' Od. destruct (F d d' Od) as (K & C & S & Q). exists K. cbn. split; auto.
    destruct (end_eqb_spec d e) as [->|N].
    + assert (d' = e') by congruence. subst d'. rewrite !upde_same. now apply chan_read.
    + rewrite !upde_other; auto. intros ->. apply other_sym in O. apply other_sym in Od. congruence.
  - intros d Od. destruct (end_eqb_spec d e) as [->|N]; [congruence|rewrite upde_other; auto].
Qed.

(* packets that the bytes did not carry go first *)
Lemma skip_dock i p xs : forall s w, SysModel.wire s i p = xs ++ w ->
  exists s', exec sstep s (repeat (SLose i p 0) (length xs)) = Some s' /\ (forall j, sd s' j = sd s j) /\ sh s' = sh s /\ SysModel.wire s' i p = w /\ forall d, d <> DockEnd i p -> onwire s' d = onwire s d.
Proof.
  induction xs as [|x xs IH]; intros s w E; cbn [length repeat exec].
  - exists s. auto.
  - cbn [SysModel.sstep]. destruct (IH (set_wire i p (drop_nth 0 (SysModel.wire s i p)) s) w) as (s' & X & Ed & Eh & Ew & Eo).
    + cbn [SysModel.wire set_wire]. rewrite put_same, E. reflexivity.
    + exists s'. repeat split; auto. intros d N. rewrite Eo by auto. destruct d as [a r|h]; cbn; auto.
      rewrite (put_other carried carry black raddr hostport); auto. destruct (Nat.eq_dec a i) as [Ea|Na]; [right|left; exact Na]. intros Er. apply N. now rewrite Ea, Er.
Qed.
Lemma skip_hub h xs : forall s w, hwire s h = xs ++ w ->
  exists s', exec sstep s (repeat (SHubLose h 0) (length xs)) = Some s' /\ (forall j, sd s' j = sd s j) /\ sh s' = sh s /\ hwire s' h = w /\ forall d, d <> HubEnd h -> onwire s' d = onwire s d.
Proof.
  induction xs as [|x xs IH]; intros s w E; cbn [length repeat exec].
  - exists s. auto.
  - cbn [SysModel.sstep]. destruct (IH (set_hwire h (drop_nth 0 (hwire s h)) s) w) as (s' & X & Ed & Eh & Ew & Eo).
    + cbn [hwire set_hwire]. rewrite updp_same, E. reflexivity.
    + exists s'. repeat split; auto. intros d N. rewrite Eo by auto. destruct d as [a r|g]; cbn; auto. rewrite updp_other by congruence. reflexivity.
Qed.
Lemma map_app_inv {A B} (f : A -> B) l : forall x y, map f l = x ++ y -> exists a b, l = a ++ b /\ map f a = x /\ map f b = y.
Proof.
  induction l as [|v l IH]; intros [|u x] y E; cbn in E; try discriminate.
  - exists [], []. auto.
  - exists [], (v :: l). auto.
  - injection E as <- E. destruct (IH _ _ E) as (a & b & -> & <- & <-). exists (v :: a), b. auto.
Qed.
Lemma lossless_none {V} : @lossless V [].
Proof. intros l []. Qed.

Lemma onset {A B} (f : A -> B) (l : list A) x r (d : bool) : subseq (x :: r) (map f l) -> (d = false -> map f l = x :: r) ->
  exists a k w, l = a ++ k :: w /\ f k = x /\ subseq r (map f w) /\ (d = false -> a = [] /\ map f w = r).
Proof.
  intros S Q. destruct d.
  - destruct (sq_split [] _ _ _ S) as (xs & rest & Ew & _ & Sr). destruct (map_app_inv _ _ _ _ Ew) as (a & w & -> & Ex & Er).
    destruct w as [|k w]; [discriminate|]. cbn in Er. injection Er as Ek Er. exists a, k, w. rewrite Er. repeat split; auto; discriminate.
  - specialize (Q eq_refl). destruct l as [|k w]; [discriminate|]. cbn in Q. injection Q as Ek Er. exists [], k, w. rewrite Er. repeat split; auto. apply sq_refl.
Qed.
(* the steps of packets behind a message that is taken *)
Definition taking (e : endp) (l : slab gval) : Prop :=
  match l with SDeliver i p => e = DockEnd i p | SLose _ _ _ | SHubDeliver _ | SHubLose _ _ => True | _ => False end.
Lemma taking_repeat e l n : taking e l -> Forall (taking e) (repeat l n).
Proof. intros H. induction n; cbn; auto. Qed.
(* ... when no packet has been dropped: at most one *)
Definition took (e : endp) (b : bsys) : list (slab gval) :=
  match unmarshal (ws (proc e)) (firstn (Z.to_nat (slice (ws (proc e)) (buffer (inb b e)))) (buffer (inb b e))) with
  | SOk m => match e with DockEnd i p => match dock_packet (p_p m) with Some _ => [SDeliver i p] | None => [] end | HubEnd h => [SHubDeliver h] end
  | _ => []
  end.
Lemma take_steps e b s b' : sim b s -> bstep b (BTake e) = Some b' -> legits b' ->
  exists ls s', exec sstep s ls = Some s' /\ sim b' s' /\ (dropped b = false -> lossless ls) /\ Forall (taking e) ls /\ (dropped b = false -> ls = took e b).
Proof.
  intros M H L. cbn [ByteModel.bstep] in H.
  destruct (gone b (proc e) || negb (reading (inb b e)) || negb (free e b) || (slice (ws (proc e)) (buffer (inb b e)) <=? 0)%Z) eqn:G; [discriminate|].
  apply orb_false_iff in G as [_ G]. apply Z.leb_gt in G.
  destruct (other e) as [e'|] eqn:O; [|rewrite (m_alone _ _ M _ O) in G; cbn in G; lia].
  destruct (m_flow _ _ M _ _ O) as (K & C & S & Q). destruct (chan_take _ _ _ _ _ C G) as (p & K' & f & -> & Fp & Ef & Ck).
  unfold took. rewrite Ef in H |- *. destruct (framed_spec _ _ _ _ Fp) as (_ & _ & _ & U).
  destruct (image p) as [p'|] eqn:Ei.
  2:{ exists [], s. split; [reflexivity|]. split; [|split; [intros _; apply lossless_none|split; [constructor|]]];
        [|destruct (unmarshal (ws (proc e)) f) eqn:Eu; [exfalso; eapply U; eauto|..]; reflexivity].
      destruct (unmarshal (ws (proc e)) f) eqn:Eu; [exfalso; eapply U; eauto|..]; injection H as <-; now apply sim_gone. }
  rewrite U in H |- *. cbn [p_p pack] in H |- *. cbn [flat_map] in S, Q.
  set (x := mkInbox (skipn (Z.to_nat (slice (ws (proc e)) (buffer (inb b e)))) (buffer (inb b e))) true) in *.
  assert (Fl : forall s1, subseq (flat_map (seen e) K') (onwire s1 e) -> (dropped b = false -> onwire s1 e = flat_map (seen e) K') -> flow (with_inb e x b) s1 e e').
  { intros s1 A B. exists K'. cbn. rewrite upde_same. split; [apply Ck|auto]. }
  destruct e as [i q|h].
  - cbn [seen] in S, Q. rewrite (image_arrival _ _ Ei) in S, Q. destruct (dock_packet p') as [k|].
    + cbn [app onwire] in S, Q. destruct (onset _ _ _ _ _ S Q) as (a & k0 & w & Ea & Ek & Sr & Qr). injection Ek as ->.
      destruct (skip_dock _ _ _ _ _ Ea) as (s1 & X1 & Ed & Eh & Ew1 & Eo).
      assert (M1 : sim (with_inb (DockEnd i q) x b) (set_wire i q w s1)).
      { apply sim_in with (s := s) (e' := e'); auto.
        - intros d N. rewrite <- (Eo d N). destruct d as [j r|g]; cbn; auto. rewrite (put_other carried carry black raddr hostport); auto.
          destruct (Nat.eq_dec j i) as [Ej|Nj]; [right|left; exact Nj]. intros Er'. apply N. now rewrite Ej, Er'.
        - apply Fl; cbn [onwire SysModel.wire set_wire]; rewrite put_same; auto. intros Z. now apply Qr. }
      destruct (dock_sim _ _ _ _ _ _ M1 H L) as (s2 & X2 & M2).
      exists (repeat (SLose i q 0) (length a) ++ [SDeliver i q]), s2. split; [|split; [auto|split; [|split]]].
      * rewrite exec_app, X1. cbn [exec SysModel.sstep]. rewrite Ew1. now rewrite X2.
      * intros Z. destruct (Qr Z) as [-> _]. intros l [<-|[]]. exact I.
      * apply Forall_app. split; [now apply taking_repeat|repeat constructor].
      * intros Z. destruct (Qr Z) as [-> _]. reflexivity.
    + injection H as <-. exists [], s. split; [reflexivity|]. split; [|split; [intros _; apply lossless_none|split; [constructor|reflexivity]]]. apply sim_in with (s := s) (e' := e'); auto.
  - cbn [seen app onwire] in S, Q. destruct (onset _ _ _ _ _ S Q) as (a & k0 & w & Ea & Ek & Sr & Qr). injection Ek as ->.
    destruct (skip_hub _ _ _ _ Ea) as (s1 & X1 & Ed & Eh & Ew1 & Eo).
    assert (Hp : hub_packet p' = hub_packet p).
    { destruct p; cbn in Ei; try (injection Ei as <-; reflexivity); destruct (through _); try discriminate; injection Ei as <-; reflexivity. }
    assert (M1 : sim (with_inb (HubEnd h) x b) (set_hwire h w s1)).
    { apply sim_in with (s := s) (e' := e'); auto.
      - intros d N. rewrite <- (Eo d N). destruct d as [j r|g]; cbn; auto. rewrite updp_other by congruence. reflexivity.
      - apply Fl; cbn [onwire hwire set_hwire]; rewrite updp_same; auto. intros Z. now apply Qr. }
    destruct (hub_sim _ _ _ _ M1 H L) as (s2 & X2 & M2).
    exists (repeat (SHubLose h 0) (length a) ++ [SHubDeliver h]), s2. split; [|split; [auto|split; [|split]]].
    + rewrite exec_app, X1. cbn [exec SysModel.sstep]. rewrite Ew1, <- Hp. now rewrite X2.
    + intros Z. destruct (Qr Z) as [-> _]. intros l [<-|[]]. exact I.
    + apply Forall_app. split; [now apply taking_repeat|repeat constructor].
    + intros Z. destruct (Qr Z) as [-> _]. reflexivity.
Qed.
Lemma take_sim e b s b' : sim b s -> bstep b (BTake e) = Some b' -> legits b' ->
  exists ls s', exec sstep s ls = Some s' /\ sim b' s' /\ (dropped b = false -> lossless ls).
Proof. intros M H L. destruct (take_steps _ _ _ _ M H L) as (ls & s' & A & B & C & _). eauto. Qed.
End Sim.
