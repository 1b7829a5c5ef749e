(* A process that has ended. *)
From Verif Require Import Lts GoInt GoVal Tables CodecSpec ProtoModel DockModel DockSpec DockProof DockProof2 DockProof3 DockProof4 DockProof5 DockProof7 DockProof8 SysModel SysSpec SysProof SysProof2 SysProof4 SysCodec FullModel FullSpec FullProof WorldModel WorldSpec WorldProof2 WorldProof3 WorldProof7 ByteModel ByteSpec FleetModel FleetSpec FleetProof2 LiveSpec FleetLiveSpec HarborModel HarborSpec HarborProof HarborProof2 HarborProof3.
From Verif Require ChanModel ChanSpec ChanProof ChanProof2 ChanProof3 ChanProof4 HubModel HubProof FullProof3 FullProof4 WorldProof FleetProof ByteProof2.
From Coq Require Import Arith Bool List ZArith Lia.
Import ListNotations.
Open Scope nat_scope.

Section Harbor.
Context {O : Type}.
Variables (carried : nat -> list (name * bool)) (black : list Z) (raddr : nat -> name) (wz : option nat -> wsize).
Variable code : name -> nat.
Variable T : nat -> name -> ChanModel.target O gval.
Variable o0 : nat -> name -> O.
Notation fstep := (fstep black raddr wz).
Notation hstep := (hstep black raddr wz code T).
Notation hinit := (hinit carried o0).
Implicit Types s : harbor O.

(* processes that have ended stay so *)
Lemma dock_gone j l ps b b' : dock_does j l ps b = Some b' -> gone b' = gone b.
Proof.
  unfold dock_does. destruct (dstep (bd b j) l) as [d|]; [|discriminate]. generalize (new_events (hist (bd b j)) (hist d)). intros es.
  assert (G : forall es b0 b1, fold_left (dock_event j ps) es (Some b0) = Some b1 -> gone b1 = gone b0).
  { clear. induction es as [|e es IH]; intros b0 b1 H; [injection H as <-; reflexivity|]. cbn [fold_left] in H.
    destruct (dock_event j ps (Some b0) e) as [b2|] eqn:E; [|exfalso; clear - H; induction es; [discriminate|auto]].
    rewrite (IH _ _ H). clear - E. cbn [dock_event] in E.
    assert (Q : forall f ps b, gone (fold_left (fun b p => send (DockEnd j p) (PQueryRequest f) b) ps b) = gone b).
    { intros f. induction ps0 as [|p r IH]; intros b; cbn [fold_left]; auto. rewrite IH. unfold send. destruct (room _ _); reflexivity. }
    destruct e; try (injection E as <-; try reflexivity; auto).
    destruct accepted; destruct (room _ _); try discriminate; injection E as <-; reflexivity. }
  intros H. rewrite (G _ _ _ H). reflexivity.
Qed.
Lemma hub_gone l b b' : hub_does black raddr hostport l b = Some b' -> gone b' = gone b.
Proof.
  unfold hub_does. destruct (HubModel.hstep black raddr (bh b) l) as [h|]; [|discriminate]. generalize (new_events (HubModel.hist (bh b)) (HubModel.hist h)). intros es H.
  match type of H with Some ?x = _ => assert (X : b' = x) by congruence end. subst b'. clear H.
  assert (G : forall es b, gone (fold_left (hub_event hostport) es b) = gone b).
  { clear. induction es as [|e es IH]; intros b; cbn [fold_left]; auto. rewrite IH. destruct e; cbn [hub_event]; try reflexivity; unfold send; destruct (room _ _); reflexivity. }
  rewrite G. reflexivity.
Qed.
Lemma lose_gone o b o' : gone b o' = true -> gone (lose_process o b) o' = true.
Proof. cbn. unfold updo. intros H. destruct o, o'; auto. now destruct (_ =? _). Qed.
Lemma bytes_gone E b l b' o : bstep E hub_end black raddr hostport wz b l = Some b' -> gone b o = true -> gone b' o = true.
Proof.
  intros H G. destruct l as [j l ps|l|e|e|e n|e|e n|e|e]; cbn [bstep] in H.
  - rewrite (dock_gone j l ps b b'); auto. destruct l; try discriminate; destruct (gone b (Some j)); try discriminate; exact H.
  - rewrite (hub_gone l b b'); auto. destruct l; try discriminate; destruct (gone b None); try discriminate; exact H.
  - destruct (_ || _); [discriminate|]. destruct (holding (out b e)), (queue (out b e)); try discriminate. injection H as <-. exact G.
  - destruct (gone b (proc e)); [discriminate|]. unfold marshalled in H. destruct (holding (out b e)); [|discriminate]. destruct (marshal _ _); injection H as <-; try exact G; now apply lose_gone.
  - destruct (gone b (proc e)); [discriminate|]. unfold marshalled in H. destruct (holding (out b e)); [|discriminate]. destruct (marshal _ _); injection H as <-; try exact G; now apply lose_gone.
  - destruct (holding (out b e)); [discriminate|]. injection H as <-. exact G.
  - destruct (other E hub_end e); [|discriminate]. destruct (_ || _); [discriminate|]. injection H as <-. exact G.
  - destruct (_ || _); [discriminate|]. destruct (unmarshal _ _) as [m| | |]; try (injection H as <-; now apply lose_gone). destruct e as [j p|h].
    + destruct (dock_packet (p_p m)) as [k|]; [|injection H as <-; exact G]. rewrite (dock_gone _ _ _ _ _ H). exact G.
    + rewrite (hub_gone _ _ _ H). exact G.
  - injection H as <-. exact G.
Qed.
(* what a step does to dock j it does while its process runs *)
Lemma bytes_acts E b l b' j : bstep E hub_end black raddr hostport wz b l = Some b' ->
  bd b' j = bd b j \/ (gone b (Some j) = false /\ state (bd b j) = Alive /\ match l with BDock i _ _ => i = j | BTake (DockEnd i _) => i = j | _ => False end).
Proof.
  assert (Al : forall (d d' : dock gval) l, dstep d l = Some d' -> state d = Alive) by (intros d d' x H; unfold dstep in H; destruct (state d); auto; discriminate).
  intros H. destruct l as [i l ps|l|e|e|e n|e|e n|e|e]; cbn [bstep] in H.
  - assert (X : gone b (Some i) = false /\ dock_does i l ps b = Some b') by (destruct l; try discriminate; destruct (gone b (Some i)); try discriminate; auto). destruct X as [G X].
    destruct (does_dock _ _ _ _ _ X) as (d & Ed & ->). unfold updp. destruct (Nat.eqb_spec j i) as [->|N]; [right|now left]. repeat split; auto. eapply Al; exact Ed.
  - left. assert (X : hub_does black raddr hostport l b = Some b') by (destruct l; try discriminate; destruct (gone b None); try discriminate; exact H). now rewrite (does_hub _ _ _ _ _ X).
  - left. destruct (_ || _); [discriminate|]. destruct (holding (out b e)), (queue (out b e)); try discriminate. injection H as <-. reflexivity.
  - left. destruct (gone b (proc e)); [discriminate|]. unfold marshalled in H. destruct (holding (out b e)); [|discriminate]. destruct (marshal _ _); injection H as <-; reflexivity.
  - left. destruct (gone b (proc e)); [discriminate|]. unfold marshalled in H. destruct (holding (out b e)); [|discriminate]. destruct (marshal _ _); injection H as <-; reflexivity.
  - left. destruct (holding (out b e)); [discriminate|]. injection H as <-. reflexivity.
  - left. destruct (other E hub_end e); [|discriminate]. destruct (_ || _); [discriminate|]. injection H as <-. reflexivity.
  - destruct (gone b (proc e)) eqn:G; [discriminate|]. cbn [orb] in H. destruct (_ || _); [discriminate|]. destruct (unmarshal _ _) as [m| | |]; try (injection H as <-; now left). destruct e as [i p|h].
    + destruct (dock_packet (p_p m)) as [k|]; [|injection H as <-; now left]. destruct (does_dock _ _ _ _ _ H) as (d & Ed & ->). cbn [bd with_inb] in *. unfold updp.
      destruct (Nat.eqb_spec j i) as [->|N]; [right|now left]. repeat split; auto. eapply Al; exact Ed.
    + left. rewrite (does_hub _ _ _ _ _ H). reflexivity.
  - injection H as <-. now left.
Qed.
Lemma fleet_acts n l n' j : fstep n l = Some n' ->
  (forall o, gone (fb n) o = true -> gone (fb n') o = true) /\
  ((bd (fb n') j = bd (fb n) j /\ (fends n' j = fends n j \/ exists i p m, l = FConnect i p j m)) \/ (gone (fb n) (Some j) = false /\ state (bd (fb n) j) = Alive /\ actor l = Some j)).
Proof.
  assert (One : forall w (o : option bsys) n', fon w o = Some n' -> exists b, o = Some b /\ fb n' = b /\ fends n' = ends w) by (intros w [b|] x E; [injection E as <-; exists b; auto|discriminate]).
  assert (Some' : forall E w b l n', fon w (bstep E hub_end black raddr hostport wz b l) = Some n' -> fends n' = ends w /\ (forall o, gone b o = true -> gone (fb n') o = true) /\
     (bd (fb n') j = bd b j \/ (gone b (Some j) = false /\ state (bd b j) = Alive /\ match l with BDock i _ _ => i = j | BTake (DockEnd i _) => i = j | _ => False end))).
  { intros E w b x y H. destruct (One _ _ _ H) as (b' & Eb & -> & ->). split; auto. split; [intros o; apply (bytes_gone _ _ _ _ _ Eb)|apply (bytes_acts _ _ _ _ j Eb)]. }
  intros H. destruct l as [i l|l|l|i ok|i p ok|i p j' m|i p|i q]; cbn [FleetModel.fstep] in H.
  - assert (X : fon (outline n) (bstep (fends n) hub_end black raddr hostport wz (fb n) (BDock i l (query_peers (outline n) i))) = Some n') by (destruct l; try discriminate; exact H).
    destruct (Some' _ _ _ _ _ X) as (Fe & Go & [Z|(G & A & ->)]); split; auto. left. split; auto. left. now rewrite Fe.
  - destruct (Some' _ _ _ _ _ H) as (Fe & Go & [Z|(G & A & [])]); split; auto. left. split; auto. left. now rewrite Fe.
  - destruct (site l) as [e|] eqn:Es; [|discriminate]. destruct (there n e); [|discriminate]. destruct (Some' _ _ _ _ _ H) as (Fe & Go & [Z|(G & A & X)]); split; auto.
    + left. split; auto. left. now rewrite Fe.
    + right. repeat split; auto. destruct l; try discriminate Es; try destruct X. cbn [actor site]. destruct e0; [now subst|destruct X].
  - destruct (One _ _ _ H) as (b' & Eb & -> & Fe). cbn [exec] in Eb. destruct (bstep _ _ _ _ _ _ (fb n) (BDock i (LDial ok) [])) as [b1|] eqn:E1; [|discriminate].
    pose proof (bytes_acts _ _ _ _ j E1) as A1. assert (A2 : (forall o, gone (fb n) o = true -> gone b' o = true) /\ (bd b' j = bd b1 j \/ i = j)).
    { destruct ok; cbn [exec] in Eb; [|injection Eb as <-; split; auto; intros o; apply (bytes_gone _ _ _ _ _ E1)].
      destruct (bstep _ _ _ _ _ _ b1 (BDock i (LConnected 0) [])) as [b2|] eqn:E2; [|discriminate]. injection Eb as <-. split; [intros o G; apply (bytes_gone _ _ _ _ _ E2), (bytes_gone _ _ _ _ _ E1), G|].
      destruct (bytes_acts _ _ _ _ j E2) as [Z|(_ & _ & Z)]; auto. }
    destruct A2 as [Go A2]. split; auto. assert (Fe' : fends n' j = fends n j) by now rewrite Fe. destruct A1 as [Z|(G & A & ->)]; [|right; auto]. destruct A2 as [Z'| ->]; [left; rewrite Z'; auto|].
    right. cbn [bstep] in E1. destruct (gone (fb n) (Some j)) eqn:G; [discriminate|]. destruct (does_dock _ _ _ _ _ E1) as (d & Ed & _). repeat split; auto. unfold dstep in Ed. destruct (state _); auto; discriminate.
  - destruct (handlers (bd (fb n) i) p); try discriminate. destruct (ok && _) eqn:Ok; [discriminate|]. destruct (Some' _ _ _ _ _ H) as (Fe & Go & [Z|(G & A & ->)]); split; auto. left. split; auto. left. rewrite Fe. destruct ok; reflexivity.
  - destruct (handlers (bd (fb n) i) p) as [| | | | | | | | | | |a|] eqn:Eh; try discriminate. destruct (_ && _); [|discriminate]. destruct (One _ _ _ H) as (b' & Eb & -> & Fe). cbn [exec] in Eb.
    destruct (bstep _ _ _ _ _ _ (fb n) (BDock i (HNet p true) [])) as [b1|] eqn:E1; [|discriminate]. destruct (bstep _ _ _ _ _ _ b1 _) as [b2|] eqn:E2; [|discriminate]. injection Eb as <-.
    split; [intros o G; apply (bytes_gone _ _ _ _ _ E2), (bytes_gone _ _ _ _ _ E1), G|].
    destruct (Nat.eq_dec i j) as [->|N].
    + right. cbn [bstep] in E1. destruct (gone (fb n) (Some j)) eqn:G; [discriminate|]. destruct (does_dock _ _ _ _ _ E1) as (d & Ed & _). repeat split; auto. unfold dstep in Ed. destruct (state _); auto; discriminate.
    + left. destruct (bytes_acts _ _ _ _ j E2) as [Z|(_ & _ & Z)]; [|congruence]. destruct (bytes_acts _ _ _ _ j E1) as [Z'|(_ & _ & Z')]; [|congruence]. split; [congruence|].
      destruct (Nat.eq_dec j' j) as [->|N']; [right; eauto|left]. rewrite Fe. cbn [join ends]. rewrite !updp_other by auto. reflexivity.
  - destruct (handlers (bd (fb n) i) p); try discriminate. destruct (Some' _ _ _ _ _ H) as (Fe & Go & [Z|(G & A & ->)]); split; auto. left. split; auto. left. now rewrite Fe.
  - destruct (existsb _ _); [|discriminate]. destruct (Some' _ _ _ _ _ H) as (Fe & Go & [Z|(G & A & ->)]); split; auto. left. split; auto. left. now rewrite Fe.
Qed.
Lemma over_up s j : over s j <-> up j s = false.
Proof.
  unfold over, up. destruct (state _); [|split; auto; intros _; left; discriminate..]. destruct (dead s (Some j)), (gone _ _); cbn; intuition congruence.
Qed.
Lemma over_step s l s' j : over s j -> hstep s l = Some s' -> bd (fb (hf s')) j = bd (fb (hf s)) j /\ (forall f, feat s' j f = feat s j f) /\ fends (hf s') j = fends (hf s) j /\ over s' j.
Proof.
  intros Ov H. assert (Up := proj1 (over_up _ _) Ov). assert (U : forall i, up i s = true -> i <> j) by (intros i Ui ->; congruence).
  assert (Fl : forall l x, fstep (hf s) l = Some x -> (actor l = Some j -> dead s (Some j) = false) -> (forall i p m, l = FConnect i p j m -> dead s (Some j) = false) ->
     bd (fb x) j = bd (fb (hf s)) j /\ fends x j = fends (hf s) j /\ (gone (fb (hf s)) (Some j) = true -> gone (fb x) (Some j) = true)).
  { intros l0 x Hx Na Nc. destruct (fleet_acts _ _ _ j Hx) as (Go & [[Z1 [Z2|(i & p & m & ->)]]|(G & A & Ac)]); auto.
    - exfalso. specialize (Nc _ _ _ eq_refl). cbn [FleetModel.fstep] in Hx. destruct (handlers (bd (fb (hf s)) i) p); try discriminate. destruct (_ && _) eqn:E; [|discriminate].
      apply andb_prop in E as [_ E]. unfold flistens, listens in E. cbn [outline WorldModel.ws sd] in E. unfold up in Up. rewrite Nc in Up. destruct (state _); [|rewrite andb_false_r in E; discriminate E..].
      destruct (gone _ _); [rewrite andb_false_r in E; discriminate E|discriminate].
    - exfalso. specialize (Na Ac). unfold up in Up. rewrite A, G, Na in Up. discriminate. }
  assert (Fe : forall i f c s0, i <> j -> feat (set_feat i f c s0) j = feat s0 j /\ dead (set_feat i f c s0) (Some j) = dead s0 (Some j)) by (intros; cbn; split; [apply updp_other; auto|destruct (Nat.eqb_spec j i); [congruence|apply orb_false_r]]).
  assert (Fin : forall x s1, bd (fb x) j = bd (fb (hf s)) j /\ fends x j = fends (hf s) j /\ (gone (fb (hf s)) (Some j) = true -> gone (fb x) (Some j) = true) -> hf s1 = x -> (forall f, feat s1 j f = feat s j f) -> dead s1 (Some j) = dead s (Some j) ->
     bd (fb (hf s1)) j = bd (fb (hf s)) j /\ (forall f, feat s1 j f = feat s j f) /\ fends (hf s1) j = fends (hf s) j /\ over s1 j).
  { intros x s1 (Z1 & Z2 & Z3) Hx F D. subst x. repeat split; auto. unfold over. rewrite Z1, D. destruct Ov as [Ov|[Ov|Ov]]; auto. }
  destruct l as [l|i k|i k|i f m args w|i n|i f l|o]; cbn [HarborModel.hstep] in H.
  - destruct (allowed s l) eqn:Al; [|discriminate]. destruct (fstep (hf s) l) as [x|] eqn:Ex; [|discriminate]. injection H as <-. unfold allowed in Al. apply andb_prop in Al as [Al Ac].
    apply (Fin x); auto. apply (Fl l x); auto; [intros A; rewrite A in Ac; now apply negb_true_iff in Ac|intros i p m ->; now apply negb_true_iff in Al].
  - destruct (up i s) eqn:Ui; [|discriminate]. destruct (begun s i k); [discriminate|]. cbn in H. destruct (nth_error _ _); [|discriminate]. destruct (ChanModel.cstep _ _ _); [|discriminate]. injection H as <-.
    destruct (Fe i (q_slot (s_req s0)) c s (U _ Ui)) as [F1 F2]. apply (Fin (hf s)); auto; intros; cbn -[set_feat]; now rewrite ?F1, ?F2.
  - destruct (up i s) eqn:Ui; [|discriminate]. destruct (begun s i k); [|discriminate]. cbn [andb] in H. destruct (nth_error _ _); [|discriminate]. destruct (ChanModel.responses _ _) as [|[]]; [discriminate|]. destruct (ChanModel.cstep _ _ _); [|discriminate].
    destruct (fstep _ _) as [x|] eqn:Ex; [|discriminate]. injection H as <-. destruct (Fe i (q_slot (s_req s0)) c s (U _ Ui)) as [F1 F2]. apply (Fin x); auto; try (intros; cbn -[set_feat]; now rewrite ?F1, ?F2).
    apply (Fl _ x Ex); [intros A; injection A as ->; exfalso; now apply (U _ Ui)|intros; discriminate].
  - destruct (aget _ _); [|discriminate]. destruct (up i s) eqn:Ui; [|discriminate]. destruct (fstep _ _) as [x|] eqn:Ex; [|discriminate]. destruct (ChanModel.cstep _ _ _); [|discriminate]. injection H as <-.
    destruct (Fe i f c s (U _ Ui)) as [F1 F2]. apply (Fin x); auto; try (intros; cbn -[set_feat]; now rewrite ?F1, ?F2).
    apply (Fl _ x Ex); [intros A; injection A as ->; exfalso; now apply (U _ Ui)|intros; discriminate].
  - destruct (up i s) eqn:Ui; [|discriminate]. destruct (nth_error _ _); [|discriminate]. destruct (ChanModel.cstep _ _ _); [|discriminate]. injection H as <-.
    destruct (Fe i (l_feature l) c s (U _ Ui)) as [F1 F2]. apply (Fin (hf s)); auto; intros; now rewrite ?F1, ?F2.
  - destruct (up i s) eqn:Ui; [|discriminate]. destruct (inside l); [|discriminate]. destruct (ChanModel.cstep _ _ _); [|discriminate]. injection H as <-.
    destruct (Fe i f c s (U _ Ui)) as [F1 F2]. apply (Fin (hf s)); auto; intros; now rewrite ?F1, ?F2.
  - injection H as <-. cbn [kill hf feat]. repeat split; auto. destruct Ov as [Ov|[Ov|Ov]]; [now left|right; now left|right; right]. cbn [kill dead]. now rewrite Ov.
Qed.
Lemma over_stays s ls s' j : over s j -> exec hstep s ls = Some s' -> bd (fb (hf s')) j = bd (fb (hf s)) j /\ (forall f, feat s' j f = feat s j f) /\ fends (hf s') j = fends (hf s) j /\ over s' j.
Proof.
  revert s. induction ls as [|l ls IH]; intros s Ov H; [injection H as <-; auto|]. cbn [exec] in H. destruct (hstep s l) as [s1|] eqn:E; [|discriminate].
  destruct (over_step _ _ _ _ Ov E) as (A1 & A2 & A3 & A4). destruct (IH _ A4 H) as (B1 & B2 & B3 & B4). repeat split; try congruence; auto.
Qed.
Lemma over_later s ls s' j : over s j -> exec hstep s ls = Some s' -> over s' j.
Proof. intros Ov H. apply (over_stays _ _ _ _ Ov H). Qed.
(* a panic ends the process *)
Lemma panic_over ls s j f : exec hstep hinit ls = Some s -> ChanModel.crashed (feat s j f) = true -> over s j.
Proof.
  intros H C. right. right. destruct (dead s (Some j)) eqn:D; auto. rewrite (v_dead _ _ (inv_exec _ _ _ _ _ _ _ _ _ H) j f D) in C. discriminate.
Qed.

(* where a call that has returned was executed *)
Lemma returned_where ls s i c x : exec hstep hinit ls = Some s -> Forall (legitimate (across (hf s)) wz) (handed (fb (hf s))) -> NoDup (map q_index (requests (hist (bd (fb (hf s)) i)))) ->
  In (EReturn c x) (hist (bd (fb (hf s)) i)) ->
  exists q p j p' k req, In (ENew c q) (hist (bd (fb (hf s)) i)) /\ In (ECommit c p true) (hist (bd (fb (hf s)) i)) /\ fends (hf s) i p = ToDock j p' /\ fends (hf s) j p' = ToDock i p /\
    nth_error (accepted (map fst (carried j)) (hist (bd (fb (hf s)) j))) k = Some (p', req) /\ q_index req = q_index q /\ runs k (hist (bd (fb (hf s)) j)) <> [].
Proof.
  intros H L N R. destruct (fleet_runs _ _ _ _ _ _ _ _ _ H) as (lf & Ef & _). destruct (fleet_returned _ _ _ _ _ _ _ _ _ Ef L N R) as (q & j & k & Nq & X & _).
  destruct X as (_ & args & res & err & _ & (p' & r & Lk & Acc) & Ru & _). cbn [sd parts] in Acc, Ru.
  destruct (fleet_to_network _ _ _ _ _ _ Ef L) as (lw & w & Rw & Ed & _ & Ee & _). destruct (WorldProof.run_system _ _ _ _ _ _ _ Rw) as (W & ls2 & E & _).
  assert (Acc0 := Acc). rewrite <- Ed in Acc0. apply nth_error_In, accepted_recv in Acc0 as [Acc0 _].
  destruct (request_source _ _ _ _ _ _ _ W _ _ _ _ (reach_ok _ _ _ _ _ _ _ W _ _ E) Acc0) as (i' & p & c' & q0 & E1 & E2 & N' & Co & _ & A & _).
  rewrite Ee in E1, E2. rewrite Lk in E2. injection E2 as <- <-. rewrite Ed in N', Co.
  assert (Eq : q_index q0 = q_index q) by (inversion A; subst; reflexivity). destruct (dock_runs _ _ _ _ _ _ _ _ _ i H) as [ld Hd].
  destruct (call_unique _ _ _ _ _ _ _ Hd N N' Nq Eq) as [-> ->]. do 6 eexists. split; [exact Nq|]. split; [exact Co|]. split; [exact E1|]. split; [exact Lk|]. split; [exact Acc|]. split; [reflexivity|]. rewrite Ru. discriminate.
Qed.
(* A call whose request went to a process that ended before it had executed it. *)
Lemma unfinished_hangs ls1 s1 ls2 s2 i c q p b j p' : exec hstep hinit ls1 = Some s1 -> exec hstep s1 ls2 = Some s2 -> Forall (legitimate (across (hf s2)) wz) (handed (fb (hf s2))) ->
  NoDup (map q_index (requests (hist (bd (fb (hf s2)) i)))) -> over s1 j ->
  In (ENew c q) (hist (bd (fb (hf s2)) i)) -> In (ECommit c p b) (hist (bd (fb (hf s2)) i)) -> fends (hf s2) i p = ToDock j p' ->
  (forall k req, served carried (fends (hf s1)) (parts (fb (hf s1))) i j k req -> q_index req = q_index q -> runs k (hist (bd (fb (hf s1)) j)) = []) ->
  forall x, ~ In (EReturn c x) (hist (bd (fb (hf s2)) i)).
Proof.
  intros H1 H2 L N Ov Nq Co Lk No x R. assert (H : exec hstep hinit (ls1 ++ ls2) = Some s2) by (rewrite exec_app, H1; exact H2).
  destruct (returned_where _ _ _ _ _ H L N R) as (q0 & p0 & j0 & p0' & k & req & Nq0 & Co0 & E1 & E2 & Acc & Ix & Ru).
  destruct (dock_runs _ _ _ _ _ _ _ _ _ i H) as [ld Hd]. rewrite <- (new_unique _ _ _ _ _ _ Hd Nq Nq0) in Ix. destruct (commits_two _ _ _ _ _ _ Co Co0 (commit_once _ _ _ c Hd)) as [-> _].
  rewrite Lk in E1. injection E1 as <- <-. destruct (over_stays _ _ _ _ Ov H2) as (Z1 & _ & Z3 & _). rewrite Z1 in Acc, Ru. rewrite Z3 in E2.
  apply Ru. apply (No k req); auto. exists p', p0. cbn [sd parts]. auto.
Qed.
(* calls made when their feature is remembered at a process that has ended *)
Lemma cached_hangs ls1 s1 ls2 s2 es i c q p j p' f : exec hstep hinit ls1 = Some s1 -> exec hstep s1 ls2 = Some s2 -> Forall (legitimate (across (hf s2)) wz) (handed (fb (hf s2))) ->
  NoDup (map q_index (requests (hist (bd (fb (hf s2)) i)))) -> over s1 j -> latest f (hist (bd (fb (hf s1)) i)) p -> fends (hf s1) i p = ToDock j p' ->
  hist (bd (fb (hf s2)) i) = hist (bd (fb (hf s1)) i) ++ es -> (forall p2, In (ECached f p2) es -> p2 = p) ->
  In (ENew c q) es -> q_slot q = f -> forall x, ~ In (EReturn c x) (hist (bd (fb (hf s2)) i)).
Proof.
  intros H1 H2 L N Ov Lt Lk He Nc Nq Sl x R. assert (H : exec hstep hinit (ls1 ++ ls2) = Some s2) by (rewrite exec_app, H1; exact H2).
  destruct (returned_where _ _ _ _ _ H L N R) as (q0 & p0 & j0 & p0' & k & req & Nq0 & Co0 & E1 & E2 & Acc & Ix & Ru).
  assert (Nq' : In (ENew c q) (hist (bd (fb (hf s2)) i))) by (rewrite He; apply in_or_app; auto).
  destruct (dock_runs _ _ _ _ _ _ _ _ _ i H) as [ld Hd]. rewrite <- (new_unique _ _ _ _ _ _ Hd Nq' Nq0) in Ix. destruct (earlier _ _ _ _ _ _ _ _ _ _ _ H1 H2) as [Ex L1]. specialize (L1 L).
  (* the request did not go out before *)
  assert (Fresh : forall c' q', In (ENew c' q') (hist (bd (fb (hf s1)) i)) -> q_index q' <> q_index q).
  { intros c' q' X Ei. rewrite He in N. unfold requests in N. rewrite flat_map_app, map_app in N.
    assert (I1 : In (q_index q') (map q_index (flat_map (fun e => match e with ENew _ q => [q] | _ => [] end) (hist (bd (fb (hf s1)) i))))) by (apply in_map, in_flat_map; exists (ENew c' q'); cbn; auto).
    assert (I2 : In (q_index q') (map q_index (flat_map (fun e => match e with ENew _ q => [q] | _ => [] end) es))) by (rewrite Ei; apply in_map, in_flat_map; exists (ENew c q); cbn; auto).
    clear - N I1 I2. revert N I1. generalize (map q_index (flat_map (fun e : event gval => match e with ENew _ q => [q] | _ => [] end) (hist (bd (fb (hf s1)) i)))). intros l. induction l as [|a l IH]; cbn; [tauto|].
    intros N [->|I]; inversion N; subst; auto. apply H1. apply in_or_app. auto. }
  assert (P : p0 = p).
  { apply in_split in Co0 as (a & b & Ea). destruct (commit_spec _ _ _ _ _ _ _ _ Hd Ea) as (q1 & b' & Na & _ & La & _).
    assert (q1 = q) by (apply (new_unique _ _ _ c _ _ Hd); [rewrite Ea; apply in_or_app; auto|exact Nq']). subst q1. rewrite Sl in La.
    (* the prefix goes beyond the first history *)
    assert (Pre : exists e1, a = hist (bd (fb (hf s1)) i) ++ e1 /\ exists e2, es = e1 ++ e2).
    { rewrite He in Ea. clear - Ea Na Fresh. revert Ea Na Fresh. generalize (hist (bd (fb (hf s1)) i)). intros h. revert a. induction h as [|y h IH]; intros a Ea Na Fr; [exists a; split; auto; eexists; exact Ea|].
      destruct a as [|z a]; [destruct Na|]. injection Ea as -> Ea. destruct Na as [->|Na]; [exfalso; apply (Fr c q); cbn; auto|].
      destruct (IH a Ea Na) as (e1 & -> & X); [intros c' q' I; apply (Fr c' q'); now right|]. exists e1. split; auto. }
    destruct Pre as (e1 & -> & e2 & ->). destruct La as (h1 & h2 & Eh & Nn). destruct Lt as (g1 & g2 & Eg & Nn').
    assert (I : In (ECached f p0) e1 \/ In (ECached f p0) (hist (bd (fb (hf s1)) i)) /\ forall p2, ~ In (ECached f p2) e1 /\ exists h2', h2 = h2' ++ e1 /\ hist (bd (fb (hf s1)) i) = h1 ++ ECached f p0 :: h2').
    { clear - Eh Nn. revert Eh. generalize (hist (bd (fb (hf s1)) i)). intros h. revert h1. induction h as [|y h IH]; intros h1 Eh; cbn in Eh; [left; rewrite Eh; apply in_or_app; right; now left|].
      destruct h1 as [|z h1]; cbn in Eh; injection Eh as -> Eh.
      - right. split; [now left|]. intros p2. split; [intros X; apply (Nn p2); rewrite <- Eh; apply in_or_app; auto|]. exists h. split; auto.
      - destruct (IH _ Eh) as [I|[I J]]; [now left|right]. split; [now right|]. intros p2. destruct (J p2) as [J1 (h2' & -> & J2)]. split; auto. exists h2'. split; auto. now rewrite J2. }
    destruct I as [I|[_ J]]; [apply Nc; apply in_or_app; auto|]. destruct (J 0) as [_ (h2' & -> & Ej)]. rewrite Eg in Ej.
    assert (Nn2 : forall p2, ~ In (ECached f p2) h2') by (intros p2 X; apply (Nn p2); apply in_or_app; auto). clear - Ej Nn' Nn2. revert h1 Ej. induction g1 as [|y g1 IH]; intros [|z h1] Ej; cbn in Ej.
    - injection Ej as -> _. reflexivity.
    - injection Ej as <- ->. exfalso. apply (Nn' p0). apply in_or_app. right. now left.
    - injection Ej as -> <-. exfalso. apply (Nn2 p). apply in_or_app. right. now left.
    - injection Ej as _ Ej. eauto. }
  subst p0. assert (Lk2 : fends (hf s2) i p = ToDock j p') by (rewrite (Ex i p); congruence). rewrite Lk2 in E1. injection E1 as <- <-.
  destruct (over_stays _ _ _ _ Ov H2) as (Z1 & _ & Z3 & _). rewrite Z1 in Acc.
  destruct (accepted_call _ _ _ _ _ _ _ _ _ _ _ _ _ H1 L1 Acc) as (i' & r & c' & q' & El & Nq1 & Ei). rewrite Z3, El in E2. injection E2 as -> ->. eapply Fresh; [exact Nq1|congruence].
Qed.

(* dialling a process that has ended *)
Lemma listed_later ls s s' x : exec hstep s ls = Some s' -> In x (flisteners (hf s)) -> In x (flisteners (hf s')).
Proof.
  intros H. destruct (fleet_goes _ _ _ _ _ _ _ _ H) as (lf & Ef). clear H. revert Ef. generalize (hf s) (hf s'). clear s s'. induction lf as [|l lf IH]; intros n n' H I; [injection H as <-; exact I|]. cbn [exec] in H.
  destruct (fstep n l) as [n1|] eqn:E; [|discriminate]. apply (IH _ _ H). clear IH H.
  assert (F : forall w o n', fon w o = Some n' -> flisteners n' = listeners w) by (intros w [b|] y Hy; [injection Hy as <-; reflexivity|discriminate]).
  destruct l as [i l|l|l|i ok|i p ok|i p j' m|i p|i q]; cbn [FleetModel.fstep] in E.
  - assert (X : exists w o, fon w o = Some n1 /\ listeners w = flisteners n) by (destruct l; try discriminate; do 2 eexists; (split; [exact E|reflexivity])). destruct X as (w & o & X & Y). rewrite (F _ _ _ X), Y. exact I.
  - rewrite (F _ _ _ E). exact I.
  - destruct (site l); [|discriminate]. destruct (there n e); [|discriminate]. rewrite (F _ _ _ E). exact I.
  - rewrite (F _ _ _ E). exact I.
  - destruct (handlers (bd (fb n) i) p); try discriminate. destruct (_ && _); [discriminate|]. rewrite (F _ _ _ E). destruct ok; cbn [listeners outline]; [apply in_or_app; now left|exact I].
  - destruct (handlers (bd (fb n) i) p); try discriminate. destruct (_ && _); [|discriminate]. rewrite (F _ _ _ E). exact I.
  - destruct (handlers (bd (fb n) i) p); try discriminate. rewrite (F _ _ _ E). exact I.
  - destruct (existsb _ _); [|discriminate]. rewrite (F _ _ _ E). exact I.
Qed.
Lemma no_connect ls s i p j m j' m' s' : exec hstep hinit ls = Some s -> Forall (legitimate (across (hf s)) wz) (handed (fb (hf s))) -> over s j -> In (j, m) (flisteners (hf s)) ->
  handlers (bd (fb (hf s)) i) p = ADial (hostport (machine raddr j) m) -> hstep s (HFleet (FConnect i p j' m')) <> Some s'.
Proof.
  intros H L Ov Li Hd X. cbn [HarborModel.hstep] in X. unfold allowed in X. cbn [FleetModel.fstep] in X. rewrite Hd in X.
  destruct (negb (dead s (Some j'))) eqn:Dd; [|discriminate]. destruct (_ && _) in X; [|discriminate]. destruct (zlist_eqb_spec (hostport (machine raddr j) m) (hostport (machine raddr j') m')) as [Eh|]; [|discriminate].
  destruct (flistens (hf s) j' m') eqn:Fl; [|discriminate]. apply hostport_inj in Eh as [Em <-]; [|apply HubProof.pickIP_no_colon..].
  destruct (fleet_runs _ _ _ _ _ _ _ _ _ H) as (lf & Ef & _). destruct (fleet_to_network _ _ _ _ _ _ Ef L) as (lw & w & Rw & _ & _ & _ & _ & _ & El & _).
  unfold flistens in Fl. apply andb_prop in Fl as [Fl G]. assert (Li' : In (j', m) (flisteners (hf s))).
  { unfold listens in Fl. apply andb_prop in Fl as [Fl _]. apply andb_prop in Fl as [Fl _]. cbn [outline listeners] in Fl. apply existsb_exists in Fl as ([a b] & Ia & Eab). cbn in Eab. apply andb_prop in Eab as [Ea Eb].
    apply Nat.eqb_eq in Ea as ->. apply Z.eqb_eq in Eb as ->. exact Ia. }
  rewrite <- El in Li, Li'. assert (j = j') by (eapply own_port; eauto). subst j'. apply negb_true_iff in Dd, G. unfold over in Ov. rewrite Dd, G in Ov.
  unfold listens in Fl. cbn [outline WorldModel.ws sd] in Fl. destruct (state _); [intuition congruence|rewrite andb_false_r in Fl; discriminate Fl..].
Qed.
(* a receive routine about to dial stays so until it dials *)
Lemma dial_dock (d d' : dock gval) dl p a : dstep d dl = Some d' -> handlers d p = ADial a -> (forall ok, dl <> HNet p ok) -> handlers d' p = ADial a.
Proof.
  intros H Hd N. apply dstep_tr in H as [_ H].
  inversion H; subst; try exact Hd; cbn;
  try (match goal with E : handlers d ?p' = _ |- updp _ ?p' _ p = _ => destruct (Nat.eq_dec p p') as [->|Np]; [exfalso; try congruence; try (now apply (N _ eq_refl))|rewrite updp_other by auto; exact Hd] end).
Qed.
Lemma dial_docks dls : forall (d d' : dock gval) p a, exec dstep d dls = Some d' -> handlers d p = ADial a -> (forall ok, ~ In (HNet p ok) dls) -> handlers d' p = ADial a.
Proof.
  induction dls as [|l dls IH]; intros d d' p a H Hd N; [injection H as <-; exact Hd|]. cbn [exec] in H. destruct (dstep d l) as [d1|] eqn:E; [|discriminate].
  apply (IH _ _ _ _ H); [|intros ok X; apply (N ok); now right]. apply (dial_dock _ _ _ _ _ E Hd). intros ok ->. apply (N ok). now left.
Qed.
Definition netless (l : label gval) : Prop := forall p ok, l <> HNet p ok.
Lemma bytes_net E b l b' i : bstep E hub_end black raddr hostport wz b l = Some b' ->
  exists dls, exec dstep (bd b i) dls = Some (bd b' i) /\ match l with BDock j dl _ => dls = if i =? j then [dl] else [] | _ => Forall netless dls end.
Proof.
  intros H. destruct (bytes_acts _ _ _ _ i H) as [Z|(_ & _ & X)].
  - destruct l; try (exists []; split; [now rewrite Z|constructor]). destruct (bytes_dock _ _ _ _ _ _ _ i H) as (dls & Ed & Y). eauto.
  - destruct l; try destruct X; [exact (bytes_dock _ _ _ _ _ _ _ i0 H)|]. destruct e as [j p|h]; [subst j|destruct X]. cbn [bstep] in H. destruct (_ || _); [discriminate|].
    destruct (unmarshal _ _) as [m| | |]; try (injection H as <-; exists []; split; [reflexivity|constructor]). destruct (dock_packet (p_p m)) as [k|]; [|injection H as <-; exists []; split; [reflexivity|constructor]].
    destruct (does_dock _ _ _ _ _ H) as (d & Ed & ->). exists [LRecv p k]. split; [cbn [exec]; cbn [bd with_inb] in Ed; rewrite Ed; unfold updp; now rewrite Nat.eqb_refl|]. repeat constructor. intros ? ?; discriminate.
Qed.
Lemma fleet_net n l n' i : fstep n l = Some n' ->
  exists dls, exec dstep (bd (fb n) i) dls = Some (bd (fb n') i) /\
    forall p ok, In (HNet p ok) dls -> (exists m, handlers (bd (fb n) i) p = BListen m) \/ (exists j m, l = FConnect i p j m) \/ (l = FFail i p /\ dls = [HNet p false]).
Proof.
  assert (One : forall w (o : option bsys) n', fon w o = Some n' -> exists b, o = Some b /\ fb n' = b) by (intros w [b|] x E; [injection E as <-; exists b; auto|discriminate]).
  assert (Some' : forall E w b l n', fon w (bstep E hub_end black raddr hostport wz b l) = Some n' -> exists dls, exec dstep (bd b i) dls = Some (bd (fb n') i) /\ match l with BDock j dl _ => dls = if i =? j then [dl] else [] | _ => Forall netless dls end).
  { intros E w b x y H. destruct (One _ _ _ H) as (b' & Eb & ->). apply (bytes_net _ _ _ _ i Eb). }
  assert (No : forall dls p ok, Forall netless dls -> ~ In (HNet p ok) dls) by (intros dls p ok F X; apply (proj1 (Forall_forall _ _) F _ X p ok); reflexivity).
  assert (If : forall (j : nat) (dl : label gval), netless dl -> Forall netless (if i =? j then [dl] else [])) by (intros j dl P; destruct (i =? j); repeat constructor; exact P).
  intros H. destruct l as [j l|l|l|j ok|j p ok|j p j' m|j p|j q]; cbn [FleetModel.fstep] in H.
  - assert (X : fon (outline n) (bstep (fends n) hub_end black raddr hostport wz (fb n) (BDock j l (query_peers (outline n) j))) = Some n' /\ netless l) by (destruct l; try discriminate; (split; [exact H|intros ? ?; discriminate])).
    destruct X as [X Nl]. destruct (Some' _ _ _ _ _ X) as (dls & Ed & ->). eexists. split; [exact Ed|]. intros p ok I. exfalso. eapply No; [apply If, Nl|exact I].
  - destruct (Some' _ _ _ _ _ H) as (dls & Ed & P). exists dls. split; auto. intros p ok I. exfalso. exact (No _ _ _ P I).
  - destruct (site l) as [e|] eqn:Es; [|discriminate]. destruct (there n e); [|discriminate]. destruct (Some' _ _ _ _ _ H) as (dls & Ed & P). exists dls. split; auto. intros p ok I. exfalso. destruct l; try discriminate Es; exact (No _ _ _ P I).
  - destruct (One _ _ _ H) as (b' & Eb & ->). cbn [exec] in Eb. destruct (bstep _ _ _ _ _ _ (fb n) (BDock j (LDial ok) [])) as [b1|] eqn:E1; [|discriminate].
    destruct (bytes_net _ _ _ _ i E1) as (d1 & Ed1 & ->). destruct ok; cbn [exec] in Eb.
    + destruct (bstep _ _ _ _ _ _ b1 (BDock j (LConnected 0) [])) as [b2|] eqn:E2; [|discriminate]. injection Eb as <-. destruct (bytes_net _ _ _ _ i E2) as (d2 & Ed2 & ->).
      eexists. split; [rewrite exec_app, Ed1; exact Ed2|]. intros p ok I. exfalso. eapply No; [|exact I]. apply Forall_app. split; apply If; intros ? ?; discriminate.
    + injection Eb as <-. eexists. split; [exact Ed1|]. intros p ok I. exfalso. eapply No; [|exact I]. apply If. intros ? ?; discriminate.
  - destruct (handlers (bd (fb n) j) p) eqn:Eh; try discriminate. destruct (_ && _); [discriminate|]. destruct (Some' _ _ _ _ _ H) as (dls & Ed & ->). eexists. split; [exact Ed|]. intros p' ok' I.
    destruct (Nat.eqb_spec i j) as [->|]; [|destruct I]. destruct I as [[= <- <-]|[]]. left. eauto.
  - destruct (handlers (bd (fb n) j) p); try discriminate. destruct (_ && _); [|discriminate]. destruct (One _ _ _ H) as (b' & Eb & ->). cbn [exec] in Eb. destruct (bstep _ _ _ _ _ _ (fb n) (BDock j (HNet p true) [])) as [b1|] eqn:E1; [|discriminate].
    destruct (bytes_net _ _ _ _ i E1) as (d1 & Ed1 & ->). destruct (bstep _ _ _ _ _ _ b1 _) as [b2|] eqn:E2; [|discriminate]. injection Eb as <-. destruct (bytes_net _ _ _ _ i E2) as (d2 & Ed2 & ->).
    eexists. split; [rewrite exec_app, Ed1; exact Ed2|]. intros p' ok' I. destruct (Nat.eqb_spec i j) as [->|]; [|destruct I]. destruct I as [[= <- <-]|[I|[]]]; [|discriminate]. right. left. eauto.
  - destruct (handlers (bd (fb n) j) p); try discriminate. destruct (Some' _ _ _ _ _ H) as (dls & Ed & ->). eexists. split; [exact Ed|]. intros p' ok' I.
    destruct (Nat.eqb_spec i j) as [->|]; [|destruct I]. destruct I as [[= <- <-]|[]]. right. right. auto.
  - destruct (existsb _ _); [|discriminate]. destruct (Some' _ _ _ _ _ H) as (dls & Ed & ->). eexists. split; [exact Ed|]. intros p ok I. exfalso. eapply No; [|exact I]. apply If. intros ? ?; discriminate.
Qed.
Lemma dialling_step s l s' i p a : hstep s l = Some s' -> handlers (bd (fb (hf s)) i) p = ADial a ->
  handlers (bd (fb (hf s')) i) p = ADial a \/ over s' i \/ exists j m, l = HFleet (FConnect i p j m).
Proof.
  intros H Hd. destruct (hstep_inv _ _ _ _ _ _ _ _ H) as (Fs & _). destruct (fleet_label s l) as [x|] eqn:Ex; cbn [optstep] in Fs; [|left; now rewrite Fs].
  destruct (fleet_net _ _ _ i Fs) as (dls & Ed & N).
  assert (D : (forall ok, ~ In (HNet p ok) dls) \/ exists ok, In (HNet p ok) dls).
  { clear. induction dls as [|l dls [IH|[ok IH]]]; [left; intros ? []| |right; exists ok; now right]. destruct l; try (left; intros o [X|X]; [discriminate|apply (IH o X)]).
    destruct (Nat.eq_dec p0 p) as [->|Np]; [right; eexists; now left|left]. intros o [X|X]; [injection X as -> _; now apply Np|apply (IH o X)]. }
  destruct D as [D|[ok D]]; [left; apply (dial_docks _ _ _ _ _ Ed Hd D)|]. destruct (N _ _ D) as [[m X]|[(j & m & ->)|[-> ->]]]; [congruence| |].
  - right. right. destruct l; cbn in Ex; try discriminate; [injection Ex as ->; eauto|]. destruct (nth_error _ _); [|discriminate]. destruct (ChanModel.responses _ _) as [|[]]; discriminate.
  - right. left. left. cbn [exec] in Ed. destruct (dstep _ _) as [d|] eqn:E; [|discriminate]. injection Ed as <-. unfold dstep in E. destruct (state _); try discriminate. rewrite Hd in E. injection E as <-. cbn. discriminate.
Qed.
(* who dials a process that has ended gets no further *)
Lemma dials_in_vain ls1 s1 ls2 s2 i p j m : exec hstep hinit ls1 = Some s1 -> exec hstep s1 ls2 = Some s2 -> Forall (legitimate (across (hf s2)) wz) (handed (fb (hf s2))) ->
  over s1 j -> In (j, m) (flisteners (hf s1)) -> handlers (bd (fb (hf s1)) i) p = ADial (hostport (machine raddr j) m) ->
  handlers (bd (fb (hf s2)) i) p = ADial (hostport (machine raddr j) m) \/ over s2 i.
Proof.
  intros H1. revert s2. induction ls2 as [|l ls2 IH] using rev_ind; intros s2 H2 L Ov Li Hd; [injection H2 as <-; auto|].
  apply exec_split in H2 as (s & H2 & H3). assert (H : exec hstep hinit (ls1 ++ ls2) = Some s) by (rewrite exec_app, H1; exact H2).
  destruct (earlier _ _ _ _ _ _ _ _ _ _ _ H H3) as [_ L1]. specialize (L1 L). cbn [exec] in H3. destruct (hstep s l) as [s'|] eqn:E; [|discriminate]. injection H3 as <-.
  destruct (IH _ H2 L1 Ov Li Hd) as [X|X]; [|right; apply (over_step _ _ _ _ X E)].
  destruct (dialling_step _ _ _ _ _ _ E X) as [Y|[Y|(j' & m' & ->)]]; auto. exfalso.
  refine (no_connect _ _ _ _ _ _ _ _ _ H L1 _ _ X E); [apply (over_stays _ _ _ _ Ov H2)|apply (listed_later _ _ _ _ H2 Li)].
Qed.
End Harbor.
Lemma over_for_good O black raddr wz code (T : nat -> name -> ChanModel.target O gval) s ls s' j : over s j -> exec (hstep black raddr wz code T) s ls = Some s' ->
  bd (fb (hf s')) j = bd (fb (hf s)) j /\ (forall f, feat s' j f = feat s j f) /\ fends (hf s') j = fends (hf s) j /\ over s' j.
Proof. exact (over_stays (fun _ => []) black raddr wz code T (fun i f => ChanModel.object (feat s i f)) s ls s' j). Qed.

Section Live.
Context {O : Type}.
Variables (carried : nat -> list (name * bool)) (black : list Z) (raddr : nat -> name) (wz : option nat -> wsize).
Variable code : name -> nat.
Variable T : nat -> name -> ChanModel.target O gval.
Variable o0 : nat -> name -> O.
Notation hstep := (hstep black raddr wz code T).
Variables (run : nat -> harbor O) (lab : nat -> option hlab).
Hypothesis En : hendless carried black raddr wz code T o0 run lab.
Hypothesis Fa : hfair black raddr wz code T run lab.
Hypothesis Lg : flegitimate wz (fun n => hf (run n)).

Lemma run_to n m : n <= m -> exists ls, exec hstep (run n) ls = Some (run m).
Proof.
  induction 1 as [|m L [ls IH]]; [exists []; reflexivity|]. pose proof (he_step _ _ _ _ _ _ _ _ _ En m) as S. destruct (lab m) as [l|].
  - exists (ls ++ [l]). rewrite exec_app, IH. cbn [exec]. now rewrite S.
  - exists ls. now rewrite S.
Qed.
(* and ends as well *)
Lemma dialler_ends n i p j m : over (run n) j -> In (j, m) (flisteners (hf (run n))) -> handlers (bd (fb (hf (run n))) i) p = ADial (hostport (machine raddr j) m) -> exists k, n <= k /\ over (run k) i.
Proof.
  intros Ov Li Hd. destruct (run_to 0 n) as (ls1 & H1); [lia|]. rewrite (he_start _ _ _ _ _ _ _ _ _ En) in H1.
  destruct (Fa (HtFleet (FtReceive (DockEnd i p))) n) as (k & Lk & X). destruct (run_to n k Lk) as (ls2 & H2).
  destruct (dials_in_vain _ _ _ _ _ _ _ _ _ _ _ _ _ _ _ H1 H2 (Lg k) Ov Li Hd) as [Y|Y]; [|eauto].
  destruct (up i (run k)) eqn:Up; [|exists k; split; auto; now apply over_up].
  assert (Al : state (bd (fb (hf (run k))) i) = Alive /\ dead (run k) (Some i) = false /\ gone (fb (hf (run k))) (Some i) = false).
  { unfold up in Up. destruct (state _); try discriminate. apply andb_prop in Up as [U1 U2]. apply negb_true_iff in U1, U2. auto. }
  destruct Al as (Al & Dd & Go). destruct X as [X|(l & El & l' & -> & Ol)].
  - exfalso. assert (Z : hstep (run k) (HFleet (FFail i p)) = None) by (apply X; exists (FFail i p); split; auto; right; right; cbn; auto).
    cbn [HarborModel.hstep] in Z. unfold allowed in Z. cbn [actor] in Z. rewrite Dd in Z. cbn [negb andb FleetModel.fstep] in Z. rewrite Y in Z. cbn [bstep] in Z. rewrite Go in Z. unfold dock_does in Z. unfold dstep in Z. rewrite Al, Y in Z.
    cbn [hist with_state] in Z. unfold new_events in Z. rewrite skipn_all in Z. discriminate Z.
  - pose proof (he_step _ _ _ _ _ _ _ _ _ En k) as S. rewrite El in S.
    assert (H : exec hstep (hinit carried o0) (ls1 ++ ls2) = Some (run k)) by (rewrite exec_app, H1; exact H2).
    assert (Nc : forall j' m', l' <> FConnect i p j' m').
    { intros j' m' ->. refine (no_connect _ _ _ _ _ _ _ _ _ _ _ _ _ _ _ _ H (Lg k) _ _ Y S); [eapply over_later; solve [exact Ov|exact H2|exact carried|exact o0]|eapply listed_later; solve [exact Li|exact H2|exact carried|exact o0]]. }
    exists (Datatypes.S k). split; [lia|]. left. cbn [HarborModel.hstep] in S. destruct (allowed _ _); [|discriminate]. destruct (FleetModel.fstep _ _ _ _ _) as [x|] eqn:Ex in S; [|discriminate]. injection S as S. rewrite <- S. cbn [hf set_fleet]. clear S.
    destruct Ol as [->|[(r & _ & ->)|Ol]]; cbn [FleetModel.fstep site] in Ex.
    + destruct (there _ _); [|discriminate]. cbn [bstep free] in Ex. rewrite Y in Ex. cbn [negb] in Ex. rewrite !orb_true_r in Ex. discriminate.
    + destruct (there _ _); [|discriminate]. cbn [bstep free] in Ex. destruct (other _ _ _); [|discriminate]. rewrite Y in Ex. cbn [negb] in Ex. rewrite !orb_true_r in Ex. discriminate.
    + cbn [handling] in Ol.
      assert (Dn : forall dl, match dl with HGo p' | HPick p' _ | HCommit p' _ | HSend p' _ _ => p' = p | _ => False end -> dstep (bd (fb (hf (run k))) i) dl = None).
      { intros dl M. unfold dstep. rewrite Al. destruct dl; try destruct M; rewrite ?Y; auto. destruct (reorders _ _); auto. }
      destruct l' as [i' dl| | | |i' p' ok|i' p' j' m'|i' p'|]; try destruct Ol.
      * assert (Z : dock_does i' dl (query_peers (outline (hf (run k))) i') (fb (hf (run k))) = None).
        { unfold dock_does. destruct dl; try destruct Ol; subst; (rewrite Dn; [reflexivity|reflexivity]). }
        exfalso. destruct dl; try destruct Ol; subst i'; cbn [FleetModel.fstep bstep] in Ex; rewrite Go, Z in Ex; discriminate Ex.
      * subst. cbn [FleetModel.fstep] in Ex; rewrite Y in Ex. discriminate.
      * subst. now elim (Nc j' m').
      * subst. cbn [FleetModel.fstep] in Ex; rewrite Y in Ex. cbn [bstep] in Ex. rewrite Go in Ex. destruct (dock_does _ _ _ _) as [b|] eqn:Eb; [|discriminate]. injection Ex as <-. cbn [fb around].
        destruct (does_dock _ _ _ _ _ Eb) as (d & Ed & ->). unfold updp. rewrite Nat.eqb_refl. unfold dstep in Ed. rewrite Al, Y in Ed. injection Ed as <-. cbn. discriminate.
Qed.
End Live.
