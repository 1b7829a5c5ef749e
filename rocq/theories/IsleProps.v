(* Property theorems C82: docks that go on whatever becomes of the others and of the hub. *)
From Verif Require Import Lts GoInt GoVal Tables CodecSpec ProtoModel ProtoSpec SysCodec DockModel DockSpec SysModel SysSpec FullModel FullSpec WorldModel WorldSpec WorldProof WorldProps.
From Verif Require Import LiveSpec ByteModel ByteSpec ByteProof3 ByteProps FleetModel FleetSpec FleetProps FleetLiveSpec FleetLiveProof5 FleetLiveProps HarborModel HarborSpec HarborProof HarborProof2 HarborProof3 HarborProof4 HarborProps IsleSpec IsleProof2.
From Verif Require ChanModel ChanSpec ChanLiveSpec HubModel HubSpec FullProof4 IsleProof.
From Coq Require Import Arith Bool List ZArith Lia.
Import ListNotations.
Open Scope nat_scope.

(* -- the run of the examples of C78; between the two calls the processes of the hub and of
   another dock are ended from outside; then dock 1 calls its own feature *)
Definition I_all : list hlab := H_all ++ [HKill None; HKill (Some 2)] ++ H_more ++ [HLocal 1 wF wm [f5] true] ++ H_inside (local_id 0) 2 ++ [HLocalReturn 1 0].
Lemma I_runs : exec H_step H_init I_all = Some (H_end I_all).
Proof. apply H_ends. vm_compute. reflexivity. Qed.
Lemma I_wired : wired (fends (hf (H_end I_all))) hub_end.
Proof.
  split.
  - intros [|[|i]] [|[|p]] j q H; vm_compute in H; try discriminate H; injection H as <- <-; vm_compute; reflexivity.
  - intros i p h. split.
    + destruct i as [|[|i]], p as [|[|p]]; intros H; vm_compute in H; try discriminate H; injection H as <-; reflexivity.
    + unfold hub_end. intros [= -> <-]. destruct i as [|[|i]]; vm_compute; reflexivity.
Qed.
Lemma I_legits : Forall (legitimate (across (hf (H_end I_all))) B_ws) (handed (fb (hf (H_end I_all)))).
Proof. apply (legit_checked _ _ _ I_wired). vm_compute. reflexivity. Qed.
Lemma I_healthy : healthy (parts (fb (hf (H_end I_all)))).
Proof.
  split.
  - intros [|[|i]]; vm_compute; reflexivity.
  - vm_compute; reflexivity.
  - intros [|[|i]] H; vm_compute in H; intuition discriminate.
  - intros [|[|i]] p k H; vm_compute in H; intuition discriminate.
  - intros [|[|i]] k f H; vm_compute in H; intuition (try discriminate); congruence.
  - intros [|[|i]]; vm_compute; repeat constructor; cbn; intuition congruence.
Qed.
Lemma I_unbroken : unbroken (hf (H_end I_all)).
Proof. split; [intros [o|]; vm_compute; reflexivity|]. intros [[|[|i]] [|[|p]]|[|[|h]]] _; vm_compute; split; reflexivity. Qed.
Lemma I_calm n : Forall (legitimate (across (hf (HG_run I_all n))) B_ws) (handed (fb (hf (HG_run I_all n)))) /\ unbroken (hf (HG_run I_all n)) /\ dropped (fb (hf (HG_run I_all n))) = false /\ healthy (parts (fb (hf (HG_run I_all n)))).
Proof.
  destruct (HG_reached _ n I_runs) as [E R]. pose proof (H_traced _ _ _ E) as A. pose proof (H_traced _ _ _ R) as B.
  apply (before W_carried [] W_raddr B_ws _ _ _ (hf (H_end I_all)) A B I_legits I_unbroken); [vm_compute; reflexivity|exact I_healthy].
Qed.
Lemma I_lasts ls : forall n n', exec F_step n ls = Some n' -> lasts (fb n) (fb n').
Proof.
  induction ls as [|l ls IH]; intros n n' E; [injection E as <-; apply lasts_refl|]. cbn [exec] in E. destruct (F_step n l) as [n1|] eqn:E1; [|discriminate].
  eapply lasts_trans; [exact (lasts_fleet _ _ _ _ _ _ E1)|exact (IH _ _ E)].
Qed.
Lemma I_routines n e : ended (out (fb (hf (H_end I_all))) e) = false -> reading (inb (fb (hf (H_end I_all))) e) = true ->
  ended (out (fb (hf (HG_run I_all n))) e) = false /\ reading (inb (fb (hf (HG_run I_all n))) e) = true.
Proof.
  intros X Y. destruct (HG_reached _ n I_runs) as [_ R]. destruct (I_lasts _ _ _ (H_traced _ _ _ R)) as [_ L]. destruct (L e) as [L1 L2].
  split; [destruct (ended (out (fb (hf (HG_run I_all n))) e)); auto; rewrite L1 in X by reflexivity; discriminate X|].
  destruct (reading (inb (fb (hf (HG_run I_all n))) e)); auto. rewrite L2 in Y by reflexivity. discriminate Y.
Qed.
Definition I_two (i : nat) : Prop := i < 2.
Ltac I_dock i B := destruct i as [|[|i]]; [| |exfalso; unfold I_two in B; lia].
Ltac I_pair i p B := I_dock i B; destruct p as [|[|[|p]]]; vm_compute; reflexivity.
Lemma I_asked i : I_two i -> accepted (map fst (W_carried i)) (hist (bd (fb (hf (H_end I_all))) i)) = match i with 1 => [(1, mkReq 7%Z wF wm [h5] true); (1, mkReq 8%Z wF wm [h5] true)] | _ => [] end /\
  local_calls (hist (bd (fb (hf (H_end I_all))) i)) = match i with 1 => [(wF, wm, [f5])] | _ => [] end.
Proof. intros B. I_dock i B; vm_compute; split; reflexivity. Qed.
Lemma I_untouched i f : I_two i -> ~ (i = 1 /\ f = wF) -> forall r g c n args, ~ In (ChanModel.EIssue r g c n args) (deeds (H_end I_all) i f).
Proof.
  intros B N r g c n args X. destruct (genuine _ _ _ _ _ _ _ _ _ _ _ _ _ _ _ _ I_runs X) as (m & _ & _ & A). destruct (I_asked i B) as [E1 E2].
  destruct A as [(k & p & q & _ & Ek & Es & _)|(k & _ & Ek)]; [rewrite E1 in Ek|rewrite E2 in Ek].
  - I_dock i B; [destruct k; discriminate Ek|]. apply N. split; [reflexivity|]. destruct k as [|[|k]]; [injection Ek as <- <-; symmetry; exact Es..|destruct k; discriminate Ek].
  - I_dock i B; [destruct k; discriminate Ek|]. apply N. split; [reflexivity|]. destruct k as [|k]; [injection Ek as <- _ _; reflexivity|destruct k; discriminate Ek].
Qed.
Lemma I_idle i f : I_two i -> ~ (i = 1 /\ f = wF) -> (forall g, ChanModel.gor (feat (H_end I_all) i f) g = ChanModel.GIdle) /\ ChanModel.queue (feat (H_end I_all) i f) = [] /\
  ChanModel.handler (feat (H_end I_all) i f) = ChanModel.HIdle /\ forall r, ChanModel.timer (feat (H_end I_all) i f) r = ChanModel.TNone.
Proof. intros B N. exact (H_idle (H_end I_all) I_all i f I_runs (I_untouched i f B N)). Qed.
Lemma I_frests t i : owner t = Some i -> I_two i -> fresting [] W_raddr B_ws t (hf (H_end I_all)).
Proof.
  intros Ow B l Ol. change (F_step (hf (H_end I_all)) l = None). destruct t as [e|e|j q|i' j|i' c|i' k|i' b|t]; cbn [of_ftask] in Ol; cbn [owner] in Ow; try discriminate Ow; try (destruct e as [i' p|h]; [|discriminate Ow]); injection Ow as ->.
  - destruct Ol as [-> | ->]; I_dock i B; destruct p as [|[|p]]; vm_compute; reflexivity.
  - destruct Ol as [->|[(k & Hk & ->)|Ol]].
    + I_dock i B; destruct p as [|[|[|p]]]; vm_compute; reflexivity.
    + apply F_no_read; [|exact Hk]. I_dock i B; destruct p as [|[|[|p]]]; vm_compute; first [reflexivity|exact I].
    + cbn [handling] in Ol. destruct l as [i' l|l|l|i' ok|i' p' ok|i' p' j m|i' p'|j q]; try (exfalso; exact Ol); [|destruct Ol as [-> ->]; W_two i p..].
      destruct l; try (exfalso; exact Ol); destruct Ol as [-> ->];
      match goal with |- context [HSend ?p ?ns ?acc] => apply (F_no_send (hf (H_end I_all)) i p ns acc); W_two i p | _ => W_two i p end.
  - subst l. W_one i.
  - destruct Ol as (ns & acc & ->). W_two i j.
  - destruct Ol as (acc & ->). W_two i c.
  - destruct Ol as [(res & err & ->)|(acc & ->)]; W_two i k.
  - subst l. W_two i b.
Qed.
Lemma I_rests t i : howner t = Some i -> I_two i -> hresting [] W_raddr B_ws H_code (fun _ _ => H_counter) t (H_end I_all).
Proof.
  assert (F : forall l, F_step (hf (H_end I_all)) l = None -> H_step (H_end I_all) (HFleet l) = None).
  { intros l N. unfold H_step. cbn [hstep]. fold F_step. rewrite N. destruct (allowed _ _); reflexivity. }
  intros Ow B. destruct t as [t|i' k|i' n|i' f k]; cbn [howner] in Ow; try (injection Ow as ->); intros l Ol; change (H_step (H_end I_all) l = None).
  - assert (E : exists l', l = HFleet l' /\ of_ftask t l') by (destruct t; try exact Ol; destruct Ol). destruct E as (l' & -> & Ol'). apply F, (I_frests t i Ow B), Ol'.
  - destruct Ol as [->|[->|(acc & ->)]]; [I_pair i k B|I_pair i k B|]. apply F, (I_frests (FtServe i k) i eq_refl B). right. eauto.
  - cbn in Ol. subst l. I_pair i n B.
  - destruct Ol as (l' & -> & Ol). unfold H_step. cbn [hstep]. destruct (up i (H_end I_all) && inside l') eqn:U; [|reflexivity]. apply andb_prop in U as [_ U].
    enough (Z : ChanModel.cstep H_counter (feat (H_end I_all) i f) l' = None) by (rewrite Z; reflexivity).
    assert (D : (i = 1 /\ f = wF) \/ ~ (i = 1 /\ f = wF)) by (destruct (Nat.eq_dec i 1); destruct (list_eq_dec Z.eq_dec f wF); tauto). destruct D as [[-> ->]|D].
    + destruct k as [| |r|g]; destruct l'; try (exfalso; exact Ol); cbn in Ol; try (vm_compute; reflexivity); try discriminate U; destruct r0 as [|[|[|r0]]]; vm_compute; reflexivity.
    + destruct (I_idle i f B D) as (G & Q & Hd & Tm). unfold ChanModel.cstep. destruct (ChanModel.crashed _); [reflexivity|].
      destruct k as [| |r|g]; destruct l'; try (exfalso; exact Ol); try discriminate U; rewrite ?Hd, ?Q, ?Tm; reflexivity.
Qed.
Definition I_length : nat := Eval vm_compute in length I_all.
Lemma I_over n : I_length <= n -> HG_run I_all n = H_end I_all.
Proof. intros H. apply HG_over. change (length I_all) with I_length. exact H. Qed.
Lemma I_going : going_on [] W_raddr B_ws H_code (fun _ _ => H_counter) I_two (HG_run I_all) (HG_lab I_all).
Proof.
  split.
  - intros i n B. destruct (I_calm n) as (_ & [Gn _] & _ & H). intros [X|[X|X]]; [apply X, (h_alive _ H i)|rewrite Gn in X; discriminate X|].
    destruct (HG_reached _ n I_runs) as [_ R]. rewrite (H_alive _ _ _ (Some i) R) in X; [discriminate X|]. I_dock i B; vm_compute; reflexivity.
  - intros t i n Ow B. exists (max n I_length). split; [lia|]. left. rewrite I_over by lia. exact (I_rests t i Ow B).
  - intros i f g n B. exists (max n I_length). split; [lia|]. right. intros k L. rewrite I_over by lia. cbn [hstep]. destruct (up i _ && inside _); [|reflexivity].
    enough (Z : ChanModel.cstep H_counter (feat (H_end I_all) i f) (ChanModel.LEnqueue g) = None) by (rewrite Z; reflexivity).
    assert (D : (i = 1 /\ f = wF) \/ ~ (i = 1 /\ f = wF)) by (destruct (Nat.eq_dec i 1); destruct (list_eq_dec Z.eq_dec f wF); tauto). destruct D as [[-> ->]|D].
    + destruct g as [|[|[|[|g]]]]; vm_compute; reflexivity.
    + destruct (I_idle i f B D) as (G & _). unfold ChanModel.cstep. destruct (ChanModel.crashed _); [reflexivity|]. rewrite G. reflexivity.
Qed.
Lemma I_working i p : ended (out (fb (hf (H_end I_all))) (DockEnd i p)) = false -> reading (inb (fb (hf (H_end I_all))) (DockEnd i p)) = true -> ~ ranging (handlers (bd (fb (hf (H_end I_all))) i) p) -> working (HG_run I_all) i p.
Proof.
  intros X Y Z. split.
  - intros n. apply (I_routines n _ X Y).
  - intros n. apply (I_routines n _ X Y).
  - intros n. exists (max n I_length). split; [lia|]. rewrite I_over by lia. exact Z.
  - intros n k. destruct (I_calm n) as (_ & _ & _ & H). exact (h_taken _ H i p k).
Qed.

(* Two docks go on, and each end of a connection between them works.  Whatever becomes of the
   hub and of the other docks, a call that the one has committed to this connection returns
   once, with what the object of the feature, at the other, made of it, or the error of a call
   that timed out; *)
Theorem C82_committed_calls_return : forall O carried black raddr wz code (T : nat -> name -> ChanModel.target O gval) o0 run lab D,
  hendless carried black raddr wz code T o0 run lab -> going_on black raddr wz code T D run lab -> flegitimate wz (fun n => hf (run n)) ->
  forall i p j q, D i -> D j -> working run i p -> working run j q ->
  (forall n, ~ cleared (hist (bd (fb (hf (run n))) j))) -> (forall n, NoDup (map q_index (requests (hist (bd (fb (hf (run n))) i))))) ->
  forall n c, fends (hf (run n)) i p = ToDock j q -> In (ECommit c p true) (hist (bd (fb (hf (run n))) i)) ->
  exists m x rq k r, n <= m /\ returns c (hist (bd (fb (hf (run m))) i)) = [x] /\ In (ENew c rq) (hist (bd (fb (hf (run m))) i)) /\ performed carried code (run m) i rq j k r x.
Proof. exact @isle_committed. Qed.
Print Assumptions C82_committed_calls_return.

(* so does each call it makes once it remembers the feature there, and nowhere else; *)
Theorem C82_known_calls_return : forall O carried black raddr wz code (T : nat -> name -> ChanModel.target O gval) o0 run lab D,
  hendless carried black raddr wz code T o0 run lab -> going_on black raddr wz code T D run lab -> flegitimate wz (fun n => hf (run n)) ->
  forall i p j q, D i -> D j -> working run i p -> working run j q ->
  (forall n, ~ cleared (hist (bd (fb (hf (run n))) j))) -> (forall n, NoDup (map q_index (requests (hist (bd (fb (hf (run n))) i))))) ->
  forall n0 n c rq, fends (hf (run n0)) i p = ToDock j q -> In (ECached (q_slot rq) p) (hist (bd (fb (hf (run n0))) i)) ->
  (forall m p', In (ECached (q_slot rq) p') (hist (bd (fb (hf (run m))) i)) -> p' = p) ->
  ~ In (ENew c rq) (hist (bd (fb (hf (run n0))) i)) -> In (ENew c rq) (hist (bd (fb (hf (run n))) i)) ->
  exists m x k r, n <= m /\ returns c (hist (bd (fb (hf (run m))) i)) = [x] /\ performed carried code (run m) i rq j k r x.
Proof. exact @isle_known. Qed.
Print Assumptions C82_known_calls_return.
Lemma I_open i n : ~ cleared (hist (bd (fb (hf (HG_run I_all n))) i)) /\ NoDup (map q_index (requests (hist (bd (fb (hf (HG_run I_all n))) i)))).
Proof. destruct (I_calm n) as (_ & _ & _ & H). exact (conj (h_open _ H i) (h_ids _ H i)). Qed.
Lemma I_cached m p : In (ECached wF p) (hist (bd (fb (hf (HG_run I_all m))) 0)) -> p = 1.
Proof.
  intros X. pose proof (IsleProof.event_stays _ _ _ _ _ _ (f_endless _ _ _ _ _ _ _ _ _ (HG_endless _ I_runs)) m (max m I_length) 0 _ (Nat.le_max_l _ _) X) as Y. unfold frun in Y. rewrite I_over in Y by lia.
  assert (Z : forallb (fun e => match e with ECached _ p => p =? 1 | _ => true end) (hist (bd (fb (hf (H_end I_all))) 0)) = true) by (vm_compute; reflexivity).
  rewrite forallb_forall in Z. apply Nat.eqb_eq. exact (Z _ Y).
Qed.
Example C82_calls_case : hendless W_carried [] W_raddr B_ws H_code (fun _ _ => H_counter) (fun _ _ => 10%Z) (HG_run I_all) (HG_lab I_all) /\
  going_on [] W_raddr B_ws H_code (fun _ _ => H_counter) I_two (HG_run I_all) (HG_lab I_all) /\ flegitimate B_ws (fun n => hf (HG_run I_all n)) /\
  I_two 0 /\ I_two 1 /\ working (HG_run I_all) 0 1 /\ working (HG_run I_all) 1 1 /\
  (forall n, ~ cleared (hist (bd (fb (hf (HG_run I_all n))) 1))) /\ (forall n, NoDup (map q_index (requests (hist (bd (fb (hf (HG_run I_all n))) 0))))) /\
  fends (hf (HG_run I_all 133)) 0 1 = ToDock 1 1 /\ In (ECached wF 1) (hist (bd (fb (hf (HG_run I_all 133))) 0)) /\
  (forall m p', In (ECached wF p') (hist (bd (fb (hf (HG_run I_all m))) 0)) -> p' = 1) /\
  ~ In (ENew 1 (mkReq 8%Z wF wm [f5] true)) (hist (bd (fb (hf (HG_run I_all 133))) 0)) /\ In (ENew 1 (mkReq 8%Z wF wm [f5] true)) (hist (bd (fb (hf (HG_run I_all 134))) 0)) /\
  In (ECommit 1 1 true) (hist (bd (fb (hf (HG_run I_all 136))) 0)) /\
  (* and meanwhile *) hub_over (HG_run I_all 133) /\ over (HG_run I_all 133) 2.
Proof.
  split; [exact (HG_endless _ I_runs)|]. split; [exact I_going|]. split; [intros n; apply I_calm|]. split; [unfold I_two; lia|]. split; [unfold I_two; lia|].
  split; [apply I_working; [vm_compute; reflexivity|vm_compute; reflexivity|vm_compute; intros []]|]. split; [apply I_working; [vm_compute; reflexivity|vm_compute; reflexivity|vm_compute; intros []]|].
  split; [intros n; apply I_open|]. split; [intros n; apply I_open|]. split; [vm_compute; reflexivity|]. split; [vm_compute; tauto|]. split; [exact I_cached|].
  split; [vm_compute; intuition discriminate|]. split; [vm_compute; tauto|]. split; [vm_compute; tauto|]. split; [right; vm_compute; reflexivity|]. right. right. vm_compute. reflexivity.
Qed.

(* and each call of a feature of its own, whatever becomes of all the others. *)
Theorem C82_local_calls_return : forall O carried black raddr wz code (T : nat -> name -> ChanModel.target O gval) o0 run lab D,
  hendless carried black raddr wz code T o0 run lab -> going_on black raddr wz code T D run lab ->
  forall i, D i -> forall n k f m args, nth_error (local_calls (hist (bd (fb (hf (run n))) i))) k = Some (f, m, args) ->
  exists n' r a, n <= n' /\ issued code (run n') i f m (local_id k) args r /\ In (ChanModel.EReturn (local_id k) r r a) (deeds (run n') i f) /\
    came_to (run n') i f m r (fst (outcome m a)) (snd (outcome m a)).
Proof. exact @isle_local. Qed.
Print Assumptions C82_local_calls_return.
Example C82_local_case : hendless W_carried [] W_raddr B_ws H_code (fun _ _ => H_counter) (fun _ _ => 10%Z) (HG_run I_all) (HG_lab I_all) /\
  going_on [] W_raddr B_ws H_code (fun _ _ => H_counter) I_two (HG_run I_all) (HG_lab I_all) /\ I_two 1 /\
  nth_error (local_calls (hist (bd (fb (hf (HG_run I_all 163))) 1))) 0 = Some (wF, wm, [f5]) /\ In (ChanModel.EReturn (local_id 0) 2 2 (ChanModel.AResult [f300])) (deeds (H_end I_all) 1 wF) /\ hub_over (HG_run I_all 163).
Proof.
  split; [exact (HG_endless _ I_runs)|]. split; [exact I_going|]. split; [unfold I_two; lia|]. split; [vm_compute; reflexivity|]. split; [vm_compute; tauto|]. right. vm_compute. reflexivity.
Qed.
