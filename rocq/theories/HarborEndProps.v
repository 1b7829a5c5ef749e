(* Property theorems C79: what becomes of calls to a process that has ended. *)
From Verif Require Import Lts GoInt GoVal Tables CodecSpec ProtoModel ProtoSpec SysCodec DockModel DockSpec SysModel SysSpec FullModel FullSpec WorldModel WorldSpec WorldProof WorldProps.
From Verif Require Import LiveSpec ByteModel ByteSpec ByteProof3 ByteProps FleetModel FleetSpec FleetProps FleetLiveSpec FleetLiveProof5 FleetLiveProps HarborModel HarborSpec HarborProof HarborProof2 HarborProof3 HarborProof4 HarborProof5 HarborProps.
From Verif Require ChanModel ChanSpec ChanLiveSpec HubModel HubSpec FullProof4.
From Coq Require Import Arith Bool List ZArith Lia.
Import ListNotations.
Open Scope nat_scope.

(* -- the network of the examples of C78: after a call of dock 0 has returned, dock 0 calls a
   method of "F" that panics; then it calls "F" once more *)
Definition en : name := [110]%Z. (* "n" *)
Definition E_sent : list flab := Eval vm_compute in F_run (F_end F_all) (fd 0 [LCall wF en [f5] true 8; CStep 1 true; CStep 1 true] ++ [WDeliver 1 1]).
Definition E_panic : list hlab := H_all ++ map HFleet E_sent ++ [HBegin 1 1] ++ map (HFeat 1 wF) [ChanModel.LEnqueue (server_id 1); ChanModel.LPick; ChanModel.LEnd].
Definition E_after : list hlab := map HFleet [FDock 0 (LCall wF wm [f5] true 9); FDock 0 (CStep 2 true); FDock 0 (CStep 2 true); FRoutine (BPop (DockEnd 0 1)); FRoutine (BWrite (DockEnd 0 1))].
Lemma E_runs : exec H_step H_init E_panic = Some (H_end E_panic).
Proof. apply H_ends. vm_compute. reflexivity. Qed.
Lemma E_runs2 : exec H_step H_init (E_panic ++ E_after) = Some (H_end (E_panic ++ E_after)).
Proof. apply H_ends. vm_compute. reflexivity. Qed.
Lemma E_then ls ls' : exec H_step H_init ls = Some (H_end ls) -> exec H_step H_init (ls ++ ls') = Some (H_end (ls ++ ls')) -> exec H_step (H_end ls) ls' = Some (H_end (ls ++ ls')).
Proof. generalize (H_end ls) (H_end (ls ++ ls')). intros a b A B. rewrite exec_app, A in B. exact B. Qed.
Lemma E_wired : wired (fends (hf (H_end (E_panic ++ E_after)))) hub_end.
Proof.
  split.
  - intros [|[|i]] [|[|p]] j q H; vm_compute in H; try discriminate H; injection H as <- <-; vm_compute; reflexivity.
  - intros i p h. split.
    + destruct i as [|[|i]], p as [|[|p]]; intros H; vm_compute in H; try discriminate H; injection H as <-; reflexivity.
    + unfold hub_end. intros [= -> <-]. destruct i as [|[|i]]; vm_compute; reflexivity.
Qed.
Lemma E_legits : Forall (legitimate (across (hf (H_end (E_panic ++ E_after)))) B_ws) (handed (fb (hf (H_end (E_panic ++ E_after))))).
Proof. apply (legit_checked _ _ _ E_wired). vm_compute. reflexivity. Qed.
Lemma E_over : over (H_end E_panic) 1.
Proof. right. right. vm_compute. reflexivity. Qed.

(* A process that has ended does nothing any more: its dock, its features and its connections
   stay as they are, whatever the others do; *)
Theorem C79_ended_for_good : forall O black raddr wz code (T : nat -> name -> ChanModel.target O gval) s ls s' j,
  over s j -> exec (hstep black raddr wz code T) s ls = Some s' ->
  bd (fb (hf s')) j = bd (fb (hf s)) j /\ (forall f, feat s' j f = feat s j f) /\ fends (hf s') j = fends (hf s) j /\ over s' j.
Proof. exact @over_for_good. Qed.
Print Assumptions C79_ended_for_good.
Example C79_ended_case : over (H_end E_panic) 1 /\ exec H_step (H_end E_panic) E_after = Some (H_end (E_panic ++ E_after)) /\
  state (bd (fb (hf (H_end E_panic))) 1) = Alive /\ length (hist (bd (fb (hf (H_end E_panic))) 0)) < length (hist (bd (fb (hf (H_end (E_panic ++ E_after)))) 0)).
Proof. split; [exact E_over|]. split; [exact (E_then _ _ E_runs E_runs2)|]. split; [vm_compute; reflexivity|]. apply Nat.ltb_lt. vm_compute. reflexivity. Qed.

(* a method that panics ends its process. *)
Theorem C79_panic_ends_process : forall O carried black raddr wz code (T : nat -> name -> ChanModel.target O gval) o0 ls s j f,
  exec (hstep black raddr wz code T) (hinit carried o0) ls = Some s -> ChanModel.crashed (feat s j f) = true -> over s j.
Proof. exact @panic_over. Qed.
Print Assumptions C79_panic_ends_process.
Example C79_panic_case : exec H_step H_init E_panic = Some (H_end E_panic) /\ ChanModel.crashed (feat (H_end E_panic) 1 wF) = true.
Proof. split; [exact E_runs|vm_compute; reflexivity]. Qed.

(* A call that went out to a process which ended before it executed the call never returns. *)
Theorem C79_unfinished_calls_hang : forall O carried black raddr wz code (T : nat -> name -> ChanModel.target O gval) o0 ls1 s1 ls2 s2 i c q p b j p',
  exec (hstep black raddr wz code T) (hinit carried o0) ls1 = Some s1 -> exec (hstep black raddr wz code T) s1 ls2 = Some s2 ->
  Forall (legitimate (across (hf s2)) wz) (handed (fb (hf s2))) -> NoDup (map q_index (requests (hist (bd (fb (hf s2)) i)))) -> over s1 j ->
  In (ENew c q) (hist (bd (fb (hf s2)) i)) -> In (ECommit c p b) (hist (bd (fb (hf s2)) i)) -> fends (hf s2) i p = ToDock j p' ->
  (forall k req, served carried (fends (hf s1)) (parts (fb (hf s1))) i j k req -> q_index req = q_index q -> runs k (hist (bd (fb (hf s1)) j)) = []) ->
  forall x, ~ In (EReturn c x) (hist (bd (fb (hf s2)) i)).
Proof. exact @unfinished_hangs. Qed.
Print Assumptions C79_unfinished_calls_hang.
Lemma E_served (s : harbor Z) l k req : accepted (map fst (W_carried 1)) (hist (bd (fb (hf s)) 1)) = l -> served W_carried (fends (hf s)) (parts (fb (hf s))) 0 1 k req -> exists p, nth_error l k = Some (p, req).
Proof. intros <- (p & r & _ & E). eauto. Qed.
Lemma E_serves (s : harbor Z) l k req p r : accepted (map fst (W_carried 1)) (hist (bd (fb (hf s)) 1)) = l -> nth_error l k = Some (p, req) -> fends (hf s) 1 p = ToDock 0 r -> served W_carried (fends (hf s)) (parts (fb (hf s))) 0 1 k req.
Proof. intros <- E L. exists p, r. auto. Qed.
Lemma E_accepted : accepted (map fst (W_carried 1)) (hist (bd (fb (hf (H_end E_panic))) 1)) = [(1, mkReq 7%Z wF wm [h5] true); (1, mkReq 8%Z wF en [h5] true)].
Proof. vm_compute. reflexivity. Qed.
Lemma E_unserved k req : served W_carried (fends (hf (H_end E_panic))) (parts (fb (hf (H_end E_panic)))) 0 1 k req -> q_index req = 8%Z -> runs k (hist (bd (fb (hf (H_end E_panic))) 1)) = [].
Proof.
  intros S Ix. destruct (E_served _ _ _ _ E_accepted S) as (p & Ek). clear S. destruct k as [|[|k]]; [|vm_compute; reflexivity|destruct k; discriminate Ek]. injection Ek as _ <-. discriminate Ix.
Qed.
Lemma E_fresh : NoDup (map q_index (requests (hist (bd (fb (hf (H_end (E_panic ++ E_after)))) 0)))).
Proof. replace (map q_index _) with [7%Z; 8%Z; 9%Z] by (vm_compute; reflexivity). repeat constructor; cbn; intuition discriminate. Qed.
Example C79_unfinished_case : 
  exec H_step H_init E_panic = Some (H_end E_panic) /\ exec H_step (H_end E_panic) E_after = Some (H_end (E_panic ++ E_after)) /\
  Forall (legitimate (across (hf (H_end (E_panic ++ E_after)))) B_ws) (handed (fb (hf (H_end (E_panic ++ E_after))))) /\ NoDup (map q_index (requests (hist (bd (fb (hf (H_end (E_panic ++ E_after)))) 0)))) /\ over (H_end E_panic) 1 /\
  In (ENew 1 (mkReq 8%Z wF en [f5] true)) (hist (bd (fb (hf (H_end (E_panic ++ E_after)))) 0)) /\ In (ECommit 1 1 true) (hist (bd (fb (hf (H_end (E_panic ++ E_after)))) 0)) /\ fends (hf (H_end (E_panic ++ E_after))) 0 1 = ToDock 1 1 /\
  (forall k req, served W_carried (fends (hf (H_end E_panic))) (parts (fb (hf (H_end E_panic)))) 0 1 k req -> q_index req = 8%Z -> runs k (hist (bd (fb (hf (H_end E_panic))) 1)) = []) /\
  served W_carried (fends (hf (H_end E_panic))) (parts (fb (hf (H_end E_panic)))) 0 1 1 (mkReq 8%Z wF en [h5] true).
Proof.
  split; [exact E_runs|]. split; [exact (E_then _ _ E_runs E_runs2)|]. split; [exact E_legits|]. split; [exact E_fresh|].
  split; [exact E_over|]. split; [vm_compute; tauto|]. split; [vm_compute; tauto|]. split; [vm_compute; reflexivity|]. split; [exact E_unserved|].
  apply (E_serves _ _ _ _ 1 1 E_accepted); vm_compute; reflexivity.
Qed.

(* Nor does any call made later to a feature that the caller knows on its connection to the
   process: it is not asked for again, and no timeout ends the call. *)
Theorem C79_cached_calls_hang : forall O carried black raddr wz code (T : nat -> name -> ChanModel.target O gval) o0 ls1 s1 ls2 s2 es i c q p j p' f,
  exec (hstep black raddr wz code T) (hinit carried o0) ls1 = Some s1 -> exec (hstep black raddr wz code T) s1 ls2 = Some s2 ->
  Forall (legitimate (across (hf s2)) wz) (handed (fb (hf s2))) -> NoDup (map q_index (requests (hist (bd (fb (hf s2)) i)))) -> over s1 j ->
  latest f (hist (bd (fb (hf s1)) i)) p -> fends (hf s1) i p = ToDock j p' ->
  hist (bd (fb (hf s2)) i) = hist (bd (fb (hf s1)) i) ++ es -> (forall p2, In (ECached f p2) es -> p2 = p) ->
  In (ENew c q) es -> q_slot q = f -> forall x, ~ In (EReturn c x) (hist (bd (fb (hf s2)) i)).
Proof. exact @cached_hangs. Qed.
Print Assumptions C79_cached_calls_hang.
Lemma E_latest : latest wF (hist (bd (fb (hf (H_end E_panic))) 0)) 1.
Proof.
  exists (firstn 12 (hist (bd (fb (hf (H_end E_panic))) 0))), (skipn 13 (hist (bd (fb (hf (H_end E_panic))) 0))). split; [vm_compute; reflexivity|].
  intros p'. vm_compute. intuition discriminate.
Qed.
Definition E_new : list (event gval) := [ENew 2 (mkReq 9%Z wF wm [f5] true); ECommit 2 1 true; ESend 1 (KRequest (mkReq 9%Z wF wm [f5] true)) true].
Example C79_cached_case :
  exec H_step H_init E_panic = Some (H_end E_panic) /\ exec H_step (H_end E_panic) E_after = Some (H_end (E_panic ++ E_after)) /\
  Forall (legitimate (across (hf (H_end (E_panic ++ E_after)))) B_ws) (handed (fb (hf (H_end (E_panic ++ E_after))))) /\ NoDup (map q_index (requests (hist (bd (fb (hf (H_end (E_panic ++ E_after)))) 0)))) /\ over (H_end E_panic) 1 /\
  latest wF (hist (bd (fb (hf (H_end E_panic))) 0)) 1 /\ fends (hf (H_end E_panic)) 0 1 = ToDock 1 1 /\
  hist (bd (fb (hf (H_end (E_panic ++ E_after)))) 0) = hist (bd (fb (hf (H_end E_panic))) 0) ++ E_new /\ (forall p2, In (ECached wF p2) E_new -> p2 = 1) /\ In (ENew 2 (mkReq 9%Z wF wm [f5] true)) E_new.
Proof.
  split; [exact E_runs|]. split; [exact (E_then _ _ E_runs E_runs2)|]. split; [exact E_legits|]. split; [exact E_fresh|].
  split; [exact E_over|]. split; [exact E_latest|]. split; [vm_compute; reflexivity|]. split; [vm_compute; reflexivity|]. split; [intros p2 [X|[X|[X|[]]]]; discriminate X|left; reflexivity].
Qed.

(* -- dock 0 is about to dial dock 1, in whose process a local call panics *)
Definition D_panic : list hlab := map HFleet F_talk ++ [HLocal 1 wF en [f5] true] ++ map (HFeat 1 wF) [ChanModel.LEnqueue (local_id 0); ChanModel.LPick; ChanModel.LEnd].
Definition D_all : list hlab := D_panic ++ [HFleet (FFail 0 0)].
Lemma D_runs : exec H_step H_init D_panic = Some (H_end D_panic).
Proof. apply H_ends. vm_compute. reflexivity. Qed.
Lemma D_runs2 : exec H_step H_init D_all = Some (H_end D_all).
Proof. apply H_ends. vm_compute. reflexivity. Qed.
Lemma D_over : over (H_end D_panic) 1.
Proof. right. right. vm_compute. reflexivity. Qed.
Lemma D_wired : wired (fends (hf (H_end D_all))) hub_end.
Proof.
  split.
  - intros [|[|i]] [|[|p]] j q H; vm_compute in H; discriminate H.
  - intros i p h. split.
    + destruct i as [|[|i]], p as [|[|p]]; intros H; vm_compute in H; try discriminate H; injection H as <-; reflexivity.
    + unfold hub_end. intros [= -> <-]. destruct i as [|[|i]]; vm_compute; reflexivity.
Qed.
Lemma D_legits : Forall (legitimate (across (hf (H_end D_all))) B_ws) (handed (fb (hf (H_end D_all)))).
Proof. apply (legit_checked _ _ _ D_wired). vm_compute. reflexivity. Qed.

(* A handler sent to the address of a process that has ended (the hub hands it out still)
   gets no connection: it stays as it is until the process of its dock ends too; *)
Theorem C79_dials_in_vain : forall O carried black raddr wz code (T : nat -> name -> ChanModel.target O gval) o0 ls1 s1 ls2 s2 i p j m,
  exec (hstep black raddr wz code T) (hinit carried o0) ls1 = Some s1 -> exec (hstep black raddr wz code T) s1 ls2 = Some s2 ->
  Forall (legitimate (across (hf s2)) wz) (handed (fb (hf s2))) ->
  over s1 j -> In (j, m) (flisteners (hf s1)) -> handlers (bd (fb (hf s1)) i) p = ADial (hostport (machine raddr j) m) ->
  handlers (bd (fb (hf s2)) i) p = ADial (hostport (machine raddr j) m) \/ over s2 i.
Proof. exact @dials_in_vain. Qed.
Print Assumptions C79_dials_in_vain.
Example C79_dials_case : exec H_step H_init D_panic = Some (H_end D_panic) /\ exec H_step (H_end D_panic) [HFleet (FFail 0 0)] = Some (H_end D_all) /\
  Forall (legitimate (across (hf (H_end D_all))) B_ws) (handed (fb (hf (H_end D_all)))) /\
  over (H_end D_panic) 1 /\ In (1, 20001%Z) (flisteners (hf (H_end D_panic))) /\ handlers (bd (fb (hf (H_end D_panic))) 0) 0 = ADial (hostport (machine W_raddr 1) 20001%Z) /\
  state (bd (fb (hf (H_end D_panic))) 0) = Alive /\ state (bd (fb (hf (H_end D_all))) 0) = Exited.
Proof.
  split; [exact D_runs|]. split; [exact (E_then _ _ D_runs D_runs2)|]. split; [exact D_legits|]. split; [exact D_over|]. split; [vm_compute; tauto|]. repeat split; vm_compute; reflexivity.
Qed.

(* and it does end, on every endless fair run: the end of a process spreads to each dock that
   is given its address. *)
Theorem C79_diallers_end : forall O carried black raddr wz code (T : nat -> name -> ChanModel.target O gval) o0 run lab,
  hendless carried black raddr wz code T o0 run lab -> hfair black raddr wz code T run lab -> flegitimate wz (fun n => hf (run n)) ->
  forall n i p j m, over (run n) j -> In (j, m) (flisteners (hf (run n))) -> handlers (bd (fb (hf (run n))) i) p = ADial (hostport (machine raddr j) m) ->
  exists k, n <= k /\ over (run k) i.
Proof. exact @dialler_ends. Qed.
Print Assumptions C79_diallers_end.
Lemma D_asked i : accepted (map fst (W_carried i)) (hist (bd (fb (hf (H_end D_all))) i)) = [] /\ local_calls (hist (bd (fb (hf (H_end D_all))) i)) = match i with 1 => [(wF, en, [f5])] | _ => [] end.
Proof. destruct i as [|[|i]]; vm_compute; split; reflexivity. Qed.
Lemma D_idle i f : i <> 1 -> (forall g, ChanModel.gor (feat (H_end D_all) i f) g = ChanModel.GIdle) /\ ChanModel.queue (feat (H_end D_all) i f) = [] /\
  ChanModel.handler (feat (H_end D_all) i f) = ChanModel.HIdle /\ forall r, ChanModel.timer (feat (H_end D_all) i f) r = ChanModel.TNone.
Proof.
  intros N. apply (H_idle (H_end D_all) D_all i f D_runs2). intros r g c n args X. destruct (genuine _ _ _ _ _ _ _ _ _ _ _ _ _ _ _ _ D_runs2 X) as (m & _ & _ & A). destruct (D_asked i) as [E1 E2].
  destruct A as [(k & p & q & _ & Ek & _)|(k & _ & Ek)]; [rewrite E1 in Ek; destruct k; discriminate Ek|rewrite E2 in Ek]. destruct i as [|[|i]]; [destruct k; discriminate Ek|exfalso; exact (N eq_refl)|destruct k; discriminate Ek].
Qed.
Lemma D_no_connect (n : fleet) i p j m : state (bd (fb n) i) = Exited -> F_step n (FConnect i p j m) = None.
Proof.
  intros St. unfold F_step. cbn [fstep]. destruct (handlers _ _); try reflexivity. destruct (_ && _); [|reflexivity]. cbn [exec bstep].
  destruct (gone _ _); [reflexivity|]. unfold dock_does at 1. unfold dstep. rewrite St. reflexivity.
Qed.
Lemma D_fleet (s : harbor Z) l : F_step (hf s) l = None -> H_step s (HFleet l) = None.
Proof. intros N. unfold H_step. cbn [hstep]. fold F_step. rewrite N. destruct (allowed _ _); reflexivity. Qed.
Lemma D_dead (s : harbor Z) l i : actor l = Some i -> dead s (Some i) = true -> H_step s (HFleet l) = None.
Proof. intros A D. unfold H_step. cbn [hstep]. unfold allowed. rewrite A, D, andb_false_r. reflexivity. Qed.
Lemma D_frests T l : of_ftask T l -> H_step (H_end D_all) (HFleet l) = None.
Proof.
  intros O. destruct T as [e|e|j q|i j|i c|i k|i b|t]; cbn [of_ftask] in O.
  - destruct O as [-> | ->]; (destruct e as [i p|h]; [destruct i as [|[|i]]; destruct p as [|p]|destruct h as [|[|h]]]); vm_compute; reflexivity.
  - destruct O as [->|[(k & Hk & ->)|O]].
    + destruct e as [i p|h]; [destruct i as [|[|i]]; destruct p as [|[|[|p]]]|destruct h as [|[|h]]]; vm_compute; reflexivity.
    + unfold H_step. cbn [hstep]. fold F_step. destruct (allowed _ _) eqn:Al; [|reflexivity]. rewrite F_no_read; [reflexivity| |exact Hk].
      destruct e as [i p|h]; [destruct i as [|[|i]]; destruct p as [|[|[|p]]]|destruct h as [|[|h]]]; vm_compute; first [reflexivity|exact I].
    + destruct e as [i p|h]; cbn [handling] in O; [|subst l; W_one h].
      destruct l as [i' l|l|l|i' ok|i' p' ok|i' p' j m|i' p'|j q]; try (exfalso; exact O); 
        [|destruct O as [-> ->]; try (W_two i p)..].
      * destruct l; try (exfalso; exact O); destruct O as [-> ->]; match goal with |- context [HSend ?p ?ns ?acc] => idtac | _ => W_two i p end.
        destruct i as [|[|i]]; [destruct p as [|p]; vm_compute; reflexivity|vm_compute; reflexivity|]. apply D_fleet, F_no_send. vm_compute. reflexivity.
      * destruct i as [|[|i]]; [apply D_fleet, D_no_connect; vm_compute; reflexivity|apply (D_dead _ _ 1); vm_compute; reflexivity|apply D_fleet; destruct p as [|[|[|p]]]; vm_compute; reflexivity].
  - subst l. W_one j.
  - destruct O as (ns & acc & ->). W_two i j.
  - destruct O as (acc & ->). W_two i c.
  - destruct O as [(res & err & ->)|(acc & ->)]; W_two i k.
  - subst l. W_two i b.
  - subst l. vm_compute. do 20 (destruct t; [reflexivity|]). reflexivity.
Qed.
Lemma D_rests t : hresting [] W_raddr B_ws H_code (fun _ _ => H_counter) t (H_end D_all).
Proof.
  destruct t as [t|i k|i n|i f k]; intros l Ol; change (H_step (H_end D_all) l = None).
  - assert (E : exists l', l = HFleet l' /\ of_ftask t l') by (destruct t; try exact Ol; destruct Ol). destruct E as (l' & -> & Ol'). exact (D_frests t l' Ol').
  - destruct Ol as [->|[->|(acc & ->)]]; [W_two i k|W_two i k|]. apply (D_frests (FtServe i k)). right. eauto.
  - cbn in Ol. subst l. W_two i n.
  - destruct Ol as (l' & -> & Ol). unfold H_step. cbn [hstep]. destruct (up i (H_end D_all)) eqn:Ui; [|reflexivity]. destruct (Nat.eq_dec i 1) as [->|N]; [vm_compute in Ui; discriminate Ui|]. destruct (inside l') eqn:U; [|reflexivity]. cbn [andb].
    enough (Z : ChanModel.cstep H_counter (feat (H_end D_all) i f) l' = None) by (rewrite Z; reflexivity).
    destruct (D_idle i f N) as (G & Q & Hd & Tm). unfold ChanModel.cstep. destruct (ChanModel.crashed _); [reflexivity|].
    destruct k as [| |r|g]; destruct l'; try (exfalso; exact Ol); try discriminate U; rewrite ?Hd, ?Q, ?Tm; reflexivity.
Qed.
Lemma D_calm n : Forall (legitimate (across (hf (HG_run D_all n))) B_ws) (handed (fb (hf (HG_run D_all n)))).
Proof. destruct (HG_reached _ n D_runs2) as [E R]. exact (proj2 (earlier _ _ _ _ _ _ _ _ _ _ _ E R) D_legits). Qed.
Example C79_diallers_case : hendless W_carried [] W_raddr B_ws H_code (fun _ _ => H_counter) (fun _ _ => 10%Z) (HG_run D_all) (HG_lab D_all) /\
  hfair [] W_raddr B_ws H_code (fun _ _ => H_counter) (HG_run D_all) (HG_lab D_all) /\ flegitimate B_ws (fun n => hf (HG_run D_all n)) /\
  over (HG_run D_all 72) 1 /\ In (1, 20001%Z) (flisteners (hf (HG_run D_all 72))) /\ handlers (bd (fb (hf (HG_run D_all 72))) 0) 0 = ADial (hostport (machine W_raddr 1) 20001%Z) /\ up 0 (HG_run D_all 72) = true.
Proof.
  split; [exact (HG_endless _ D_runs2)|]. split; [intros t n; exists (max n 73); split; [lia|]; left; rewrite HG_over by (change (length D_all) with 73; lia); apply D_rests|].
  split; [exact D_calm|]. split; [right; right; vm_compute; reflexivity|]. split; [vm_compute; tauto|]. split; vm_compute; reflexivity.
Qed.
