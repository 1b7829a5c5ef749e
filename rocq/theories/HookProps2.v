(* Property theorems C84, continued: calls made within OnStart and OnDestroy in docks that go on. *)
From Verif Require Import Lts GoInt GoVal Tables CodecSpec ProtoModel ProtoSpec SysCodec DockModel DockSpec SysModel SysSpec FullModel FullSpec WorldModel WorldSpec WorldProof WorldProps.
From Verif Require Import LiveSpec ByteModel ByteSpec ByteProof3 ByteProps FleetModel FleetSpec FleetProps FleetLiveSpec FleetLiveProof5 FleetLiveProps HarborModel HarborSpec HarborProof HarborProof2 HarborProof3 HarborProof4 HarborProps IsleSpec IsleProof2 IsleProps.
From Verif Require Import HookModel HookSpec HookProof HookProof2 HookProps.
From Verif Require ChanModel ChanSpec HubModel HubSpec FullProof4 IsleProof.
From Coq Require Import Arith Bool List ZArith Lia.
Import ListNotations.
Open Scope nat_scope.

(* -- within OnStart, dock 0's G calls F of dock 1; then the processes of the hub and of another
   dock are ended from outside; then dock 1's G calls F within OnStart *)
Definition J_all : list klab := K_back ++ [KLeave K_0; KAct (HKill None); KAct (HKill (Some 2)); kd 1 (TBegin 0); KEnter K_s kG; KOwn K_s wF wm [f5] true] ++
  map KAct (H_inside (local_id 0) 2 ++ [HLocalReturn 1 0]) ++ [KOwnGot K_s; KLeave K_s; KEnter K_s wF; KLeave K_s].
Definition J_last : harbor Z := hh (K_end J_all).
Lemma J_runs : exec K_step K_init J_all = Some (K_end J_all).
Proof. apply K_ends. vm_compute. reflexivity. Qed.
Definition J_length : nat := Eval vm_compute in length J_all.
Definition J_run (n : nat) : harbor Z := hh (KG_run J_all n).
Definition J_lab (n : nat) : option hlab := match nth_error J_all n with Some l => net_label l | None => None end.
Lemma J_over n : J_length <= n -> KG_run J_all n = K_end J_all.
Proof. intros H. unfold KG_run. rewrite firstn_all2; [reflexivity|exact H]. Qed.
Lemma J_hover n : J_length <= n -> J_run n = J_last.
Proof. intros H. unfold J_run, J_last. rewrite J_over by exact H. reflexivity. Qed.
Lemma J_hruns : exists hl, exec H_step (hh K_init) hl = Some J_last.
Proof. unfold J_last. eexists. exact (hooks_go _ _ _ _ _ _ _ _ J_runs). Qed.
Lemma J_reached n : exists a b, exec F_step (finit K_carried) a = Some (hf (J_run n)) /\ exec F_step (hf (J_run n)) b = Some (hf J_last).
Proof.
  unfold J_run, J_last. destruct (KG_reached _ n J_runs) as [E R]. pose proof (H_traced _ _ _ (hooks_go _ _ _ _ _ _ _ _ E)) as A. pose proof (H_traced _ _ _ (hooks_go _ _ _ _ _ _ _ _ R)) as B.
  eexists. eexists. split; [exact A|exact B].
Qed.
Lemma J_wired : wired (fends (hf J_last)) hub_end.
Proof.
  split.
  - intros [|[|i]] [|[|p]] j q H; vm_compute in H; try discriminate H; injection H as <- <-; vm_compute; reflexivity.
  - intros i p h. split.
    + destruct i as [|[|i]], p as [|[|p]]; intros H; vm_compute in H; try discriminate H; injection H as <-; reflexivity.
    + unfold hub_end. intros [= -> <-]. destruct i as [|[|i]]; vm_compute; reflexivity.
Qed.
Lemma J_legits : Forall (legitimate (across (hf J_last)) B_ws) (handed (fb (hf J_last))).
Proof. apply (legit_checked _ _ _ J_wired). vm_compute. reflexivity. Qed.
Lemma J_healthy : healthy (parts (fb (hf J_last))).
Proof.
  split.
  - intros [|[|i]]; vm_compute; reflexivity.
  - vm_compute; reflexivity.
  - intros [|[|i]] H; vm_compute in H; intuition discriminate.
  - intros [|[|i]] p k H; vm_compute in H; intuition discriminate.
  - intros [|[|i]] k f H; vm_compute in H; intuition (try discriminate); congruence.
  - intros [|[|i]]; vm_compute; repeat constructor; cbn; intuition congruence.
Qed.
Lemma J_unbroken : unbroken (hf J_last).
Proof. split; [intros [o|]; vm_compute; reflexivity|]. intros [[|[|i]] [|[|p]]|[|[|h]]] _; vm_compute; split; reflexivity. Qed.
Lemma J_calm n : Forall (legitimate (across (hf (J_run n))) B_ws) (handed (fb (hf (J_run n)))) /\ unbroken (hf (J_run n)) /\ dropped (fb (hf (J_run n))) = false /\ healthy (parts (fb (hf (J_run n)))).
Proof.
  destruct (J_reached n) as (a & b & A & B). apply (before K_carried [] W_raddr B_ws _ _ _ (hf J_last) A B J_legits J_unbroken); [vm_compute; reflexivity|exact J_healthy].
Qed.
Lemma J_routines n e : ended (out (fb (hf J_last)) e) = false -> reading (inb (fb (hf J_last)) e) = true ->
  ended (out (fb (hf (J_run n))) e) = false /\ reading (inb (fb (hf (J_run n))) e) = true.
Proof.
  intros X Y. destruct (J_reached n) as (_ & b & _ & R). destruct (I_lasts _ _ _ R) as [_ L]. destruct (L e) as [L1 L2].
  split; [destruct (ended (out (fb (hf (J_run n))) e)); auto; rewrite L1 in X by reflexivity; discriminate X|].
  destruct (reading (inb (fb (hf (J_run n))) e)); auto. rewrite L2 in Y by reflexivity. discriminate Y.
Qed.
Lemma J_asked i : I_two i -> accepted (map fst (K_carried i)) (hist (bd (fb (hf J_last)) i)) = match i with 1 => [(1, mkReq 7%Z wF wm [h5] true); (1, mkReq 8%Z wF wm [h5] true)] | _ => [] end /\
  local_calls (hist (bd (fb (hf J_last)) i)) = match i with 1 => [(wF, wm, [f5])] | _ => [] end.
Proof. intros B. I_dock i B; vm_compute; split; reflexivity. Qed.
Lemma J_idle i f : I_two i -> ~ (i = 1 /\ f = wF) -> (forall g, ChanModel.gor (feat J_last i f) g = ChanModel.GIdle) /\ ChanModel.queue (feat J_last i f) = [] /\
  ChanModel.handler (feat J_last i f) = ChanModel.HIdle /\ forall r, ChanModel.timer (feat J_last i f) r = ChanModel.TNone.
Proof.
  intros B N. destruct J_hruns as (hl & E). destruct (chan_runs K_carried _ _ _ _ _ (fun _ _ => 10%Z) _ _ i f E) as (lc & Ec & _). apply (FullProof4.untouched _ _ _ _ Ec).
  intros r g c n args X. destruct (genuine K_carried _ _ _ _ _ (fun _ _ => 10%Z) _ _ _ _ _ _ _ _ _ E X) as (m & _ & _ & A). destruct (J_asked i B) as [E1 E2].
  destruct A as [(k & p & q & _ & Ek & Es & _)|(k & _ & Ek)]; [rewrite E1 in Ek|rewrite E2 in Ek].
  - I_dock i B; [destruct k; discriminate Ek|]. apply N. split; [reflexivity|]. destruct k as [|[|k]]; [injection Ek as <- <-; symmetry; exact Es..|destruct k; discriminate Ek].
  - I_dock i B; [destruct k; discriminate Ek|]. apply N. split; [reflexivity|]. destruct k as [|k]; [injection Ek as <- _ _; reflexivity|destruct k; discriminate Ek].
Qed.
Lemma J_frests t i : owner t = Some i -> I_two i -> fresting [] W_raddr B_ws t (hf J_last).
Proof.
  intros Ow B l Ol. change (F_step (hf J_last) l = None). destruct t as [e|e|j q|i' j|i' c|i' k|i' b|t]; cbn [of_ftask] in Ol; cbn [owner] in Ow; try discriminate Ow; try (destruct e as [i' p|h]; [|discriminate Ow]); injection Ow as ->.
  - destruct Ol as [-> | ->]; I_dock i B; destruct p as [|[|p]]; vm_compute; reflexivity.
  - destruct Ol as [->|[(k & Hk & ->)|Ol]].
    + I_dock i B; destruct p as [|[|[|p]]]; vm_compute; reflexivity.
    + apply F_no_read; [|exact Hk]. I_dock i B; destruct p as [|[|[|p]]]; vm_compute; first [reflexivity|exact I].
    + cbn [handling] in Ol. destruct l as [i' l|l|l|i' ok|i' p' ok|i' p' j m|i' p'|j q]; try (exfalso; exact Ol); [|destruct Ol as [-> ->]; W_two i p..].
      destruct l; try (exfalso; exact Ol); destruct Ol as [-> ->];
      match goal with |- context [HSend ?p ?ns ?acc] => apply (F_no_send (hf J_last) i p ns acc); W_two i p | _ => W_two i p end.
  - subst l. W_one i.
  - destruct Ol as (ns & acc & ->). W_two i j.
  - destruct Ol as (acc & ->). W_two i c.
  - destruct Ol as [(res & err & ->)|(acc & ->)]; W_two i k.
  - subst l. W_two i b.
Qed.
Lemma J_rests t i : howner t = Some i -> I_two i -> hresting [] W_raddr B_ws H_code (fun _ _ => H_counter) t J_last.
Proof.
  assert (F : forall l, F_step (hf J_last) l = None -> H_step J_last (HFleet l) = None).
  { intros l N. unfold H_step. cbn [hstep]. fold F_step. rewrite N. destruct (allowed _ _); reflexivity. }
  intros Ow B. destruct t as [t|i' k|i' n|i' f k]; cbn [howner] in Ow; try (injection Ow as ->); intros l Ol; change (H_step J_last l = None).
  - assert (E : exists l', l = HFleet l' /\ of_ftask t l') by (destruct t; try exact Ol; destruct Ol). destruct E as (l' & -> & Ol'). apply F, (J_frests t i Ow B), Ol'.
  - destruct Ol as [->|[->|(acc & ->)]]; [I_pair i k B|I_pair i k B|]. apply F, (J_frests (FtServe i k) i eq_refl B). right. eauto.
  - cbn in Ol. subst l. I_pair i n B.
  - destruct Ol as (l' & -> & Ol). unfold H_step. cbn [hstep]. destruct (up i J_last && inside l') eqn:U; [|reflexivity]. apply andb_prop in U as [_ U].
    enough (Z : ChanModel.cstep H_counter (feat J_last i f) l' = None) by (rewrite Z; reflexivity).
    assert (D : (i = 1 /\ f = wF) \/ ~ (i = 1 /\ f = wF)) by (destruct (Nat.eq_dec i 1); destruct (list_eq_dec Z.eq_dec f wF); tauto). destruct D as [[-> ->]|D].
    + destruct k as [| |r|g]; destruct l'; try (exfalso; exact Ol); cbn in Ol; try (vm_compute; reflexivity); try discriminate U; destruct r0 as [|[|[|r0]]]; vm_compute; reflexivity.
    + destruct (J_idle i f B D) as (G & Q & Hd & Tm). unfold ChanModel.cstep. destruct (ChanModel.crashed _); [reflexivity|].
      destruct k as [| |r|g]; destruct l'; try (exfalso; exact Ol); try discriminate U; rewrite ?Hd, ?Q, ?Tm; reflexivity.
Qed.
Lemma J_going : going_on [] W_raddr B_ws H_code (fun _ _ => H_counter) I_two J_run J_lab.
Proof.
  split.
  - intros i n B. unfold J_run. apply (KG_up _ _ _ J_runs). I_dock i B; vm_compute; reflexivity.
  - intros t i n Ow B. exists (max n J_length). split; [lia|]. left. rewrite J_hover by lia. exact (J_rests t i Ow B).
  - intros i f g n B. exists (max n J_length). split; [lia|]. right. intros k L. rewrite J_hover by lia. cbn [hstep]. destruct (up i _ && inside _); [|reflexivity].
    enough (Z : ChanModel.cstep H_counter (feat J_last i f) (ChanModel.LEnqueue g) = None) by (rewrite Z; reflexivity).
    assert (D : (i = 1 /\ f = wF) \/ ~ (i = 1 /\ f = wF)) by (destruct (Nat.eq_dec i 1); destruct (list_eq_dec Z.eq_dec f wF); tauto). destruct D as [[-> ->]|D].
    + destruct g as [|[|[|[|g]]]]; vm_compute; reflexivity.
    + destruct (J_idle i f B D) as (G & _). unfold ChanModel.cstep. destruct (ChanModel.crashed _); [reflexivity|]. rewrite G. reflexivity.
Qed.
Lemma J_working i p : ended (out (fb (hf J_last)) (DockEnd i p)) = false -> reading (inb (fb (hf J_last)) (DockEnd i p)) = true -> ~ ranging (handlers (bd (fb (hf J_last)) i) p) -> working J_run i p.
Proof.
  intros X Y Z. split.
  - intros n. apply (J_routines n _ X Y).
  - intros n. apply (J_routines n _ X Y).
  - intros n. exists (max n J_length). split; [lia|]. rewrite J_hover by lia. exact Z.
  - intros n k. destruct (J_calm n) as (_ & _ & _ & H). exact (h_taken _ H i p k).
Qed.
Lemma J_endless : kendless K_carried [] W_raddr B_ws H_code (fun _ _ => H_counter) (fun _ _ => 10%Z) (KG_run J_all) (nth_error J_all).
Proof. exact (KG_endless _ J_runs). Qed.

(* A dock goes on.  Whatever becomes of all the others, an OnStart (OnDestroy) of it that has
   called a feature of the dock gets its answer and goes on. *)
Theorem C84_own_calls_end : forall O carried black raddr wz code (T : nat -> name -> ChanModel.target O gval) o0 run lab D w,
  kendless carried black raddr wz code T o0 run lab ->
  going_on black raddr wz code T D (fun n => hh (run n)) (fun n => match lab n with Some l => net_label l | None => None end) -> D (home w) ->
  own_goes black raddr wz code T run lab w -> forall n f k, at_ (run n) w = WaitsOwn f k -> exists m, n <= m /\ lab m = Some (KOwnGot w) /\ at_ (run (S m)) w = Inside f.
Proof. exact @own_calls_end. Qed.
Print Assumptions C84_own_calls_end.
Example C84_own_calls_end_case : kendless K_carried [] W_raddr B_ws H_code (fun _ _ => H_counter) (fun _ _ => 10%Z) (KG_run J_all) (nth_error J_all) /\
  going_on [] W_raddr B_ws H_code (fun _ _ => H_counter) I_two J_run J_lab /\ I_two (home K_s) /\
  own_goes [] W_raddr B_ws H_code (fun _ _ => H_counter) (KG_run J_all) (nth_error J_all) K_s /\
  at_ (KG_run J_all (length K_back + 6)) K_s = WaitsOwn kG 0 /\ hub_over (J_run (length K_back + 6)) /\ entered K_s J_last = [kG; wF].
Proof.
  split; [exact J_endless|]. split; [exact J_going|]. split; [unfold I_two, K_s; cbn; lia|]. split.
  { intros n. exists (max n J_length). split; [lia|]. left. rewrite J_over by lia. vm_compute. reflexivity. }
  split; [vm_compute; reflexivity|]. split; [right; vm_compute; reflexivity|vm_compute; reflexivity].
Qed.

(* Two docks go on, and each end of a connection between them works.  Then so does an OnStart
   (OnDestroy) of the one that has called a feature which its dock remembers at the other, and
   nowhere else. *)
Theorem C84_known_calls_end : forall O carried black raddr wz code (T : nat -> name -> ChanModel.target O gval) o0 run lab D w,
  kendless carried black raddr wz code T o0 run lab ->
  going_on black raddr wz code T D (fun n => hh (run n)) (fun n => match lab n with Some l => net_label l | None => None end) -> D (home w) ->
  got_goes black raddr wz code T run lab w -> flegitimate wz (fun n => hf (hh (run n))) ->
  forall p j q, D j -> working (fun n => hh (run n)) (home w) p -> working (fun n => hh (run n)) j q ->
  (forall n, ~ cleared (hist (bd (fb (hf (hh (run n)))) j))) -> (forall n, NoDup (map q_index (requests (hist (bd (fb (hf (hh (run n)))) (home w)))))) ->
  forall n0 n f c rq, fends (hf (hh (run n0))) (home w) p = ToDock j q -> In (ECached (q_slot rq) p) (hist (bd (fb (hf (hh (run n0)))) (home w))) ->
  (forall m p', In (ECached (q_slot rq) p') (hist (bd (fb (hf (hh (run m)))) (home w))) -> p' = p) ->
  ~ In (ENew c rq) (hist (bd (fb (hf (hh (run n0)))) (home w))) -> In (ENew c rq) (hist (bd (fb (hf (hh (run n)))) (home w))) ->
  at_ (run n) w = Waits f c -> exists m, n <= m /\ lab m = Some (KGot w) /\ at_ (run (S m)) w = Inside f.
Proof. exact @known_calls_end. Qed.
Print Assumptions C84_known_calls_end.
Lemma J_open i n : ~ cleared (hist (bd (fb (hf (J_run n))) i)) /\ NoDup (map q_index (requests (hist (bd (fb (hf (J_run n))) i)))).
Proof. destruct (J_calm n) as (_ & _ & _ & H). exact (conj (h_open _ H i) (h_ids _ H i)). Qed.
Lemma J_cached m p : In (ECached wF p) (hist (bd (fb (hf (J_run m))) 0)) -> p = 1.
Proof.
  intros X. pose proof (IsleProof.event_stays _ _ _ _ _ _ (f_endless _ _ _ _ _ _ _ _ _ (hooks_endless _ _ _ _ _ _ _ _ _ J_endless)) m (max m J_length) 0 _ (Nat.le_max_l _ _) X) as Y. unfold frun in Y.
  rewrite J_over in Y by lia.
  assert (Z : forallb (fun e => match e with ECached _ p => p =? 1 | _ => true end) (hist (bd (fb (hf (hh (K_end J_all)))) 0)) = true) by (vm_compute; reflexivity).
  rewrite forallb_forall in Z. apply Nat.eqb_eq. exact (Z _ Y).
Qed.
Definition J_pre : nat := Eval vm_compute in length K_pre.
Definition J_far : nat := Eval vm_compute in length K_far.
Example C84_known_calls_end_case : kendless K_carried [] W_raddr B_ws H_code (fun _ _ => H_counter) (fun _ _ => 10%Z) (KG_run J_all) (nth_error J_all) /\
  going_on [] W_raddr B_ws H_code (fun _ _ => H_counter) I_two J_run J_lab /\ I_two (home K_0) /\
  got_goes [] W_raddr B_ws H_code (fun _ _ => H_counter) (KG_run J_all) (nth_error J_all) K_0 /\ flegitimate B_ws (fun n => hf (J_run n)) /\
  I_two 1 /\ working J_run (home K_0) 1 /\ working J_run 1 1 /\
  (forall n, ~ cleared (hist (bd (fb (hf (J_run n))) 1))) /\ (forall n, NoDup (map q_index (requests (hist (bd (fb (hf (J_run n))) (home K_0)))))) /\
  fends (hf (J_run J_pre)) (home K_0) 1 = ToDock 1 1 /\ In (ECached wF 1) (hist (bd (fb (hf (J_run J_pre))) (home K_0))) /\
  (forall m p', In (ECached wF p') (hist (bd (fb (hf (J_run m))) (home K_0))) -> p' = 1) /\
  ~ In (ENew 1 (mkReq 8%Z wF wm [f5] true)) (hist (bd (fb (hf (J_run J_pre))) (home K_0))) /\ In (ENew 1 (mkReq 8%Z wF wm [f5] true)) (hist (bd (fb (hf (J_run J_far))) (home K_0))) /\
  at_ (KG_run J_all J_far) K_0 = Waits kG 1.
Proof.
  change (home K_0) with 0. split; [exact J_endless|]. split; [exact J_going|]. split; [unfold I_two; lia|]. split.
  { intros n. exists (max n J_length). split; [lia|]. left. rewrite J_over by lia. vm_compute. reflexivity. }
  split; [intros n; apply J_calm|]. split; [unfold I_two; lia|].
  split; [apply J_working; [vm_compute; reflexivity|vm_compute; reflexivity|vm_compute; intros []]|]. split; [apply J_working; [vm_compute; reflexivity|vm_compute; reflexivity|vm_compute; intros []]|].
  split; [intros n; apply J_open|]. split; [intros n; apply J_open|]. split; [vm_compute; reflexivity|]. split; [vm_compute; tauto|]. split; [exact J_cached|].
  split; [vm_compute; intuition discriminate|]. split; [vm_compute; tauto|vm_compute; reflexivity].
Qed.
