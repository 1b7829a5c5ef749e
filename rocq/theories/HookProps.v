(* Property theorems C84: OnStart and OnDestroy, which take time and may call features. *)
From Verif Require Import Lts GoInt GoVal Tables CodecSpec ProtoModel ProtoSpec SysCodec DockModel DockSpec SysModel SysSpec FullModel FullSpec WorldModel WorldSpec WorldProof WorldProps.
From Verif Require Import LiveSpec ByteModel ByteSpec ByteProof3 ByteProps FleetModel FleetSpec FleetProps HarborModel HarborSpec HarborProps HookModel HookSpec HookProof.
From Verif Require ChanModel ChanSpec HarborProof5.
From Coq Require Import Arith Bool List ZArith Lia Permutation.
Import ListNotations.
Open Scope nat_scope.

(* -- the network and the run of the examples of C78; both docks have a feature "G" too, which
   is not discoverable *)
Definition kG : name := [71%Z].
Definition kX : name := [88%Z]. (* a feature no dock has *)
Definition K_carried (i : nat) : list (name * bool) := match i with 0 => [(kG, false)] | 1 => [(wF, true); (kG, false)] | _ => [] end.
Definition K_step := kstep [] W_raddr B_ws H_code (fun _ _ => H_counter).
Definition K_init : hooked Z := kinit K_carried (fun _ _ => 10%Z).
Definition K_end (ls : list klab) : hooked Z := match exec K_step K_init ls with Some s => s | None => K_init end.
Lemma K_ends ls : match exec K_step K_init ls with Some _ => true | None => false end = true -> exec K_step K_init ls = Some (K_end ls).
Proof. unfold K_end. destruct (exec K_step K_init ls); [reflexivity|discriminate]. Qed.
Lemma K_goes a b : match exec K_step K_init (a ++ b) with Some _ => true | None => false end = true -> exec K_step (K_end a) b = Some (K_end (a ++ b)).
Proof. unfold K_end. rewrite exec_app. destruct (exec K_step K_init a) as [s|]; [destruct (exec K_step s b); [reflexivity|discriminate]|discriminate]. Qed.
Lemma K_single s l s' : exec K_step s [l] = Some s' -> K_step s l = Some s'.
Proof. cbn [exec]. destruct (K_step s l); auto. Qed.
Definition kd (i : nat) (l : label gval) : klab := KAct (HFleet (FDock i l)).
Definition K_s : who := Starter 1 0.
Definition K_pre : list klab := map KAct H_all.
(* the goroutine that starts the features calls G's OnStart, which calls a feature no dock has *)
Definition K_asks : list klab := K_pre ++ [kd 1 (TBegin 0); KEnter K_s kG].
Definition K_more : list klab := [kd 1 (CStep 0 true); kd 1 (CStep 0 true)] ++ map KAct H_more.
(* it calls F and returns; then F's is called; then the dock is closed *)
Definition K_starts : list klab := K_pre ++ [kd 1 (TBegin 0); KEnter K_s kG; KOwn K_s wF wm [f5] true] ++ map KAct (H_inside (local_id 0) 1 ++ [HLocalReturn 1 0]) ++ [KOwnGot K_s; KLeave K_s; KEnter K_s wF; KLeave K_s].
Definition K_closes : list klab := [kd 1 LClose; KEnter (Closer 1) wF; KLeave (Closer 1); KEnter (Closer 1) kG; KLeave (Closer 1); kd 1 KStep].
Definition K_all : list klab := K_starts ++ K_closes.
Lemma K_runs : exec K_step K_init K_all = Some (K_end K_all).
Proof. apply K_ends. vm_compute. reflexivity. Qed.

(* Each run of the network with these goroutines is one of the network without them (so that
   C78-C80 hold of it). *)
Theorem C84_runs : forall O carried black raddr wz code (T : nat -> name -> ChanModel.target O gval) o0 ls s,
  exec (kstep black raddr wz code T) (kinit carried o0) ls = Some s -> exists ls', exec (hstep black raddr wz code T) (hinit carried o0) ls' = Some (hh s).
Proof. exact @hooks_run. Qed.
Print Assumptions C84_runs.
Example C84_runs_case : exec K_step K_init K_all = Some (K_end K_all) /\ ChanModel.object (feat (hh (K_end K_all)) 1 wF) = 20%Z /\
  slots (bd (fb (hf (hh (K_end K_all)))) 1) = [] /\ slots (bd (fb (hf (hh K_init))) 1) <> [].
Proof. split; [exact K_runs|]. split; [vm_compute; reflexivity|]. split; vm_compute; [reflexivity|discriminate]. Qed.

(* The dock's record of OnStart (OnDestroy) calls is that of the calls that each goroutine
   makes, in their order. *)
Theorem C84_entered : forall O black raddr wz code (T : nat -> name -> ChanModel.target O gval) ls w s s',
  exec (kstep black raddr wz code T) s ls = Some s' ->
  entered w (hh s') = entered w (hh s) ++ flat_map (fun l => match l with KEnter w' f => if who_eq w' w then [f] else [] | _ => [] end) ls.
Proof. exact @hooks_entered. Qed.
Print Assumptions C84_entered.
Example C84_entered_case : exec K_step K_init K_all = Some (K_end K_all) /\ entered K_s (hh (K_end K_all)) = [kG; wF] /\ entered (Closer 1) (hh (K_end K_all)) = [wF; kG] /\
  entered (Closer 0) (hh (K_end K_all)) = [].
Proof. split; [exact K_runs|]. split; [vm_compute; reflexivity|]. split; vm_compute; reflexivity. Qed.

(* One goroutine calls them one after another: between two calls the first returns. *)
Theorem C84_one_at_a_time : forall O black raddr wz code (T : nat -> name -> ChanModel.target O gval) s0 a w f b f' c s,
  exec (kstep black raddr wz code T) s0 (a ++ KEnter w f :: b ++ KEnter w f' :: c) = Some s -> In (KLeave w) b.
Proof. exact @one_at_a_time. Qed.
Print Assumptions C84_one_at_a_time.
Example C84_one_at_a_time_case : exists a b c, K_all = a ++ KEnter K_s kG :: b ++ KEnter K_s wF :: c /\ length b = 13 /\ exec K_step K_init K_all = Some (K_end K_all).
Proof.
  exists (K_pre ++ [kd 1 (TBegin 0)]), ([KOwn K_s wF wm [f5] true] ++ map KAct (H_inside (local_id 0) 1 ++ [HLocalReturn 1 0]) ++ [KOwnGot K_s; KLeave K_s]), ([KLeave K_s] ++ K_closes).
  split; [vm_compute; reflexivity|]. split; [reflexivity|exact K_runs].
Qed.

(* While a call made within OnStart (OnDestroy) has not returned, the goroutine is at it: it
   calls no further OnStart (OnDestroy); what it has still to do is as it was (the features
   after that one are not started; Close does not go on to close the sockets). *)
Theorem C84_waits : forall O carried black raddr wz code (T : nat -> name -> ChanModel.target O gval) o0 w f c ls2 ls1 s1 s2,
  exec (kstep black raddr wz code T) (kinit carried o0) ls1 = Some s1 -> at_ s1 w = Waits f c -> exec (kstep black raddr wz code T) s1 ls2 = Some s2 ->
  (forall x, ~ In (EReturn c x) (hist (bd (fb (hf (hh s2))) (home w)))) ->
  at_ s2 w = Waits f c /\ entered w (hh s2) = entered w (hh s1) /\ ahead w (hh s2) = ahead w (hh s1).
Proof. exact @hooks_wait. Qed.
Print Assumptions C84_waits.
Definition K_call : klab := KCall K_s kX wm [f5] true 9.
Definition K_asked : hooked Z := K_end (K_asks ++ [K_call]).
Definition K_hung : hooked Z := K_end ((K_asks ++ [K_call]) ++ K_more).
Lemma K_hangs : exec K_step K_asked K_more = Some K_hung.
Proof. apply K_goes. vm_compute. reflexivity. Qed.
Example C84_waits_case : exec K_step K_init (K_asks ++ [K_call]) = Some K_asked /\ at_ K_asked K_s = Waits kG 0 /\ exec K_step K_asked K_more = Some K_hung /\
  (forall x, ~ In (EReturn 0 x) (hist (bd (fb (hf (hh K_hung))) 1))) /\ entered K_s (hh K_hung) = [kG] /\ ahead K_s (hh K_hung) = (Some (TRun [wF]), None) /\
  ChanModel.object (feat (hh K_hung) 1 wF) = 20%Z.
Proof.
  split; [apply K_ends; vm_compute; reflexivity|]. split; [vm_compute; reflexivity|]. split; [exact K_hangs|].
  split; [intros x H; vm_compute in H; intuition discriminate|]. split; [vm_compute; reflexivity|]. split; vm_compute; reflexivity.
Qed.

(* The same for a call of a feature of the dock itself, until its caller has the answer. *)
Theorem C84_waits_own : forall O carried black raddr wz code (T : nat -> name -> ChanModel.target O gval) o0 ls1 s1 w g m args res s2 ls2 s3,
  exec (kstep black raddr wz code T) (kinit carried o0) ls1 = Some s1 -> kstep black raddr wz code T s1 (KOwn w g m args res) = Some s2 -> exec (kstep black raddr wz code T) s2 ls2 = Some s3 ->
  (forall r o a, ~ In (ChanModel.EReturn (local_id (length (locals (hh s1) (home w)))) r o a) (deeds (hh s3) (home w) g)) ->
  exists f, at_ s1 w = Inside f /\ at_ s3 w = WaitsOwn f (length (locals (hh s1) (home w))) /\ entered w (hh s3) = entered w (hh s1) /\ ahead w (hh s3) = ahead w (hh s1).
Proof. exact @hooks_wait_own. Qed.
Print Assumptions C84_waits_own.
Definition K_own : klab := KOwn K_s wF wm [f5] true.
Definition K_busy : list klab := map KAct (H_inside (local_id 0) 1). (* executed and answered, but the answer not yet taken *)
Example C84_waits_own_case : exec K_step K_init K_asks = Some (K_end K_asks) /\ K_step (K_end K_asks) K_own = Some (K_end (K_asks ++ [K_own])) /\
  exec K_step (K_end (K_asks ++ [K_own])) K_busy = Some (K_end ((K_asks ++ [K_own]) ++ K_busy)) /\
  (forall r o a, ~ In (ChanModel.EReturn (local_id 0) r o a) (deeds (hh (K_end ((K_asks ++ [K_own]) ++ K_busy))) 1 wF)) /\ length (locals (hh (K_end K_asks)) 1) = 0 /\
  at_ (K_end ((K_asks ++ [K_own]) ++ K_busy)) K_s = WaitsOwn kG 0 /\ ChanModel.object (feat (hh (K_end ((K_asks ++ [K_own]) ++ K_busy))) 1 wF) = 20%Z.
Proof.
  split; [apply K_ends; vm_compute; reflexivity|]. split; [apply K_single, K_goes; vm_compute; reflexivity|]. split; [apply K_goes; vm_compute; reflexivity|].
  split; [intros r o a H; vm_compute in H; intuition discriminate|]. split; [vm_compute; reflexivity|]. split; vm_compute; reflexivity.
Qed.

(* It is so for ever if the call is of a feature that no dock has as discoverable. *)
Theorem C84_uncarried : forall O carried black raddr wz code (T : nat -> name -> ChanModel.target O gval) o0 ls1 s1 w g m args res x s2 ls2 s3,
  exec (kstep black raddr wz code T) (kinit carried o0) ls1 = Some s1 -> kstep black raddr wz code T s1 (KCall w g m args res x) = Some s2 -> (forall j, ~ carries (carried j) g true) ->
  exec (kstep black raddr wz code T) s2 ls2 = Some s3 -> Forall (legitimate (across (hf (hh s3))) wz) (handed (fb (hf (hh s3)))) -> NoDup (map q_index (requests (hist (bd (fb (hf (hh s3))) (home w))))) ->
  exists f c, at_ s1 w = Inside f /\ at_ s3 w = Waits f c /\ entered w (hh s3) = entered w (hh s1) /\ ahead w (hh s3) = ahead w (hh s1).
Proof. exact @hooks_hang. Qed.
Print Assumptions C84_uncarried.
Lemma K_wired : wired (fends (hf (hh K_hung))) hub_end.
Proof.
  split.
  - intros [|[|i]] [|[|p]] j q H; vm_compute in H; try discriminate H; injection H as <- <-; vm_compute; reflexivity.
  - intros i p h. split.
    + destruct i as [|[|i]], p as [|[|p]]; intros H; vm_compute in H; try discriminate H; injection H as <-; reflexivity.
    + unfold hub_end. intros [= -> <-]. destruct i as [|[|i]]; vm_compute; reflexivity.
Qed.
Example C84_uncarried_case : exec K_step K_init K_asks = Some (K_end K_asks) /\ K_step (K_end K_asks) K_call = Some K_asked /\ (forall j, ~ carries (K_carried j) kX true) /\
  exec K_step K_asked K_more = Some K_hung /\ Forall (legitimate (across (hf (hh K_hung))) B_ws) (handed (fb (hf (hh K_hung)))) /\ NoDup (map q_index (requests (hist (bd (fb (hf (hh K_hung))) 1)))) /\
  length (handed (fb (hf (hh K_hung)))) = 17.
Proof.
  split; [apply K_ends; vm_compute; reflexivity|]. split.
  { apply K_single, K_goes. vm_compute. reflexivity. }
  split; [intros [|[|j]] ([|[? ?] [|[? ?] [|? ?]]] & l2 & E & _); vm_compute in E; discriminate E|]. split; [exact K_hangs|].
  split; [apply (legit_checked _ _ _ K_wired); vm_compute; reflexivity|]. split; [vm_compute; constructor; [intros []|constructor]|vm_compute; reflexivity].
Qed.

(* Otherwise it goes on: along every endless run in which the goroutine is not held up for
   ever when it can go on, each OnStart (OnDestroy) it calls returns and the dock's process
   goes on, it calls that of every feature that was still to come, once, and is then done. *)
Theorem C84_goes_on : forall O carried black raddr wz code (T : nat -> name -> ChanModel.target O gval) o0 run lab w,
  kendless carried black raddr wz code T o0 run lab -> hook_goes black raddr wz code T run lab w -> hooks_return run w -> (forall n, ~ over (hh (run n)) (home w)) ->
  forall k n todo, length todo = k -> rest w (hh (run n)) = Some todo ->
  exists m, n <= m /\ at_ (run m) w = Between /\ rest w (hh (run m)) = Some [] /\ Permutation (entered w (hh (run m))) (entered w (hh (run n)) ++ todo).
Proof. exact @hooks_go_on. Qed.
Print Assumptions C84_goes_on.
(* So every feature the dock carries is started (unless Close has cleared the table
   meanwhile) or destroyed, once by each such goroutine. *)
Theorem C84_every_feature : forall O carried black raddr wz code (T : nat -> name -> ChanModel.target O gval) o0 run lab w,
  kendless carried black raddr wz code T o0 run lab -> hook_goes black raddr wz code T run lab w -> hooks_return run w -> (forall n, ~ over (hh (run n)) (home w)) ->
  forall n todo, rest w (hh (run n)) = Some todo -> exists m, n <= m /\ at_ (run m) w = Between /\ NoDup (entered w (hh (run m))) /\
  (match w with Starter i _ => ~ cleared (hist (bd (fb (hf (hh (run m)))) i)) | Closer _ => True end -> forall f, In f (entered w (hh (run m))) <-> In f (map fst (carried (home w)))).
Proof. exact @hooks_every. Qed.
Print Assumptions C84_every_feature.
Definition KG_run (ls : list klab) (n : nat) : hooked Z := K_end (firstn n ls).
Lemma KG_endless ls : exec K_step K_init ls = Some (K_end ls) -> kendless K_carried [] W_raddr B_ws H_code (fun _ _ => H_counter) (fun _ _ => 10%Z) (KG_run ls) (nth_error ls).
Proof.
  intros R. split; [reflexivity|]. intros n. unfold KG_run. destruct (nth_error ls n) as [l|] eqn:N; [|apply nth_error_None in N; rewrite !firstn_all2 by lia; reflexivity].
  apply nth_error_split in N as (a & b & -> & <-). rewrite exec_app in R. destruct (exec K_step K_init a) as [w1|] eqn:E1; [|discriminate]. cbn [exec] in R. destruct (K_step w1 l) as [w2|] eqn:E2; [|discriminate].
  replace (firstn (length a) (a ++ l :: b)) with a by (rewrite firstn_app, Nat.sub_diag, firstn_all, app_nil_r; reflexivity).
  replace (firstn (S (length a)) (a ++ l :: b)) with (a ++ [l]) by (rewrite firstn_app, Nat.sub_succ_l, Nat.sub_diag, firstn_all2 by lia; reflexivity).
  unfold K_end. rewrite exec_app, E1. cbn [exec]. rewrite E2. exact E2.
Qed.
Definition K_length : nat := Eval vm_compute in length K_all.
Lemma K_over n : K_length <= n -> KG_run K_all n = K_end K_all.
Proof. intros H. unfold KG_run. rewrite firstn_all2; [reflexivity|exact H]. Qed.
Lemma up_not_over (s : harbor Z) i : up i s = true -> ~ over s i.
Proof.
  unfold up, over. destruct (state _); try discriminate. destruct (dead s (Some i)), (gone (fb (hf s)) (Some i)); try discriminate. intros _ [H|[H|H]]; [apply H; reflexivity|discriminate H|discriminate H].
Qed.
Lemma KG_reached ls n : exec K_step K_init ls = Some (K_end ls) -> exec K_step K_init (firstn n ls) = Some (KG_run ls n) /\ exec K_step (KG_run ls n) (skipn n ls) = Some (K_end ls).
Proof.
  generalize (K_end ls). intros e R. rewrite <- (firstn_skipn n ls), exec_app in R. unfold KG_run, K_end. destruct (exec K_step K_init (firstn n ls)) as [s|]; [auto|discriminate].
Qed.
Lemma KG_up ls i n : exec K_step K_init ls = Some (K_end ls) -> up i (hh (K_end ls)) = true -> ~ over (hh (KG_run ls n)) i.
Proof.
  intros R U X. destruct (KG_reached ls n R) as [_ E]. destruct (HarborProof5.over_for_good _ _ _ _ _ _ _ _ _ i X (hooks_go _ _ _ _ _ _ _ _ E)) as (_ & _ & _ & Y). exact (up_not_over _ _ U Y).
Qed.
Example C84_goes_on_case : kendless K_carried [] W_raddr B_ws H_code (fun _ _ => H_counter) (fun _ _ => 10%Z) (KG_run K_all) (nth_error K_all) /\
  (forall w, w = K_s \/ w = Closer 1 -> hook_goes [] W_raddr B_ws H_code (fun _ _ => H_counter) (KG_run K_all) (nth_error K_all) w /\ hooks_return (KG_run K_all) w /\
     forall n, ~ over (hh (KG_run K_all n)) (home w)) /\
  rest K_s (hh (KG_run K_all 132)) = Some [wF; kG] /\ rest (Closer 1) (hh (KG_run K_all (S (length K_starts)))) = Some [wF; kG].
Proof.
  split; [exact (KG_endless _ K_runs)|]. split; [|split; vm_compute; reflexivity].
  intros w Hw. split; [|split].
  - intros n. exists (max n K_length). split; [lia|]. left. intros f. rewrite K_over by lia. destruct Hw as [-> | ->]; vm_compute; reflexivity.
  - intros n. exists (max n K_length). split; [lia|]. rewrite K_over by lia. destruct Hw as [-> | ->]; vm_compute; reflexivity.
  - intros n. replace (home w) with 1 by (destruct Hw as [-> | ->]; reflexivity). apply (KG_up _ _ _ K_runs). vm_compute. reflexivity.
Qed.

(* The network's part of such a run is an endless run of the network without these goroutines
   (so that what C78 and C82 say of these holds of it); *)
Theorem C84_endless : forall O carried black raddr wz code (T : nat -> name -> ChanModel.target O gval) o0 run lab,
  kendless carried black raddr wz code T o0 run lab ->
  hendless carried black raddr wz code T o0 (fun n => hh (run n)) (fun n => match lab n with Some l => net_label l | None => None end).
Proof. exact @hooks_endless. Qed.
Print Assumptions C84_endless.
(* and once the call made within OnStart (OnDestroy) has returned there, that goes on. *)
Theorem C84_wakes : forall O carried black raddr wz code (T : nat -> name -> ChanModel.target O gval) o0 run lab w,
  kendless carried black raddr wz code T o0 run lab -> got_goes black raddr wz code T run lab w -> (forall n, ~ over (hh (run n)) (home w)) ->
  forall n f c n0 x, at_ (run n) w = Waits f c -> In (EReturn c x) (hist (bd (fb (hf (hh (run n0)))) (home w))) ->
  exists m, n <= m /\ lab m = Some (KGot w) /\ at_ (run (S m)) w = Inside f.
Proof. exact @hooks_wake. Qed.
Print Assumptions C84_wakes.
(* dock 0's G calls F of dock 1 within its OnStart *)
Definition K_0 : who := Starter 0 0.
Definition K_far : list klab := K_pre ++ [kd 0 (TBegin 0); KEnter K_0 kG; KCall K_0 wF wm [f5] true 8].
Definition K_back : list klab := K_far ++ map KAct (tl H_more) ++ [KGot K_0].
Definition K_back_length : nat := Eval vm_compute in length K_back.
Lemma K_back_over n : K_back_length <= n -> KG_run K_back n = K_end K_back.
Proof. intros H. unfold KG_run. rewrite firstn_all2; [reflexivity|exact H]. Qed.
Lemma K_back_runs : exec K_step K_init K_back = Some (K_end K_back).
Proof. apply K_ends. vm_compute. reflexivity. Qed.
Example C84_wakes_case : kendless K_carried [] W_raddr B_ws H_code (fun _ _ => H_counter) (fun _ _ => 10%Z) (KG_run K_back) (nth_error K_back) /\
  got_goes [] W_raddr B_ws H_code (fun _ _ => H_counter) (KG_run K_back) (nth_error K_back) K_0 /\ (forall n, ~ over (hh (KG_run K_back n)) 0) /\
  at_ (KG_run K_back (length K_far)) K_0 = Waits kG 1 /\ (exists x, In (EReturn 1 x) (hist (bd (fb (hf (hh (KG_run K_back K_back_length)))) 0))) /\ ChanModel.object (feat (hh (K_end K_back)) 1 wF) = 20%Z /\
  (forall x, ~ In (EReturn 1 x) (hist (bd (fb (hf (hh (K_end K_far)))) 0))).
Proof.
  split; [exact (KG_endless _ K_back_runs)|]. split.
  { intros n. exists (max n K_back_length). split; [lia|]. left. rewrite K_back_over by lia. vm_compute. reflexivity. }
  split; [intros n; apply (KG_up _ _ _ K_back_runs); vm_compute; reflexivity|]. split; [vm_compute; reflexivity|]. split; [eexists; vm_compute; intuition reflexivity|].
  split; [vm_compute; reflexivity|]. intros x H; vm_compute in H; intuition discriminate.
Qed.
(* The same for a call of a feature of the dock itself. *)
Theorem C84_wakes_own : forall O carried black raddr wz code (T : nat -> name -> ChanModel.target O gval) o0 run lab w,
  kendless carried black raddr wz code T o0 run lab -> own_goes black raddr wz code T run lab w -> (forall n, ~ over (hh (run n)) (home w)) ->
  forall n f k n0 g r o a, at_ (run n) w = WaitsOwn f k -> In (ChanModel.EReturn (local_id k) r o a) (deeds (hh (run n0)) (home w) g) ->
  exists m, n <= m /\ lab m = Some (KOwnGot w) /\ at_ (run (S m)) w = Inside f.
Proof. exact @hooks_wake_own. Qed.
Print Assumptions C84_wakes_own.
Example C84_wakes_own_case : kendless K_carried [] W_raddr B_ws H_code (fun _ _ => H_counter) (fun _ _ => 10%Z) (KG_run K_all) (nth_error K_all) /\
  own_goes [] W_raddr B_ws H_code (fun _ _ => H_counter) (KG_run K_all) (nth_error K_all) K_s /\ (forall n, ~ over (hh (KG_run K_all n)) 1) /\
  at_ (KG_run K_all (S (length K_asks))) K_s = WaitsOwn kG 0 /\ exists r o a, In (ChanModel.EReturn (local_id 0) r o a) (deeds (hh (KG_run K_all K_length)) 1 wF).
Proof.
  split; [exact (KG_endless _ K_runs)|]. split.
  { intros n. exists (max n K_length). split; [lia|]. left. rewrite K_over by lia. vm_compute. reflexivity. }
  split; [intros n; apply (KG_up _ _ _ K_runs); vm_compute; reflexivity|]. split; [vm_compute; reflexivity|]. do 3 eexists. vm_compute. intuition reflexivity.
Qed.

(* Nothing keeps these calls apart from the rest.  A method of a feature may run before its
   OnStart is called; *)
Theorem C84_methods_after_start_refuted : exists O carried black raddr wz code (T : nat -> name -> ChanModel.target O gval) o0 ls s i f,
  exec (kstep black raddr wz code T) (kinit carried o0) ls = Some s /\ ChanSpec.ended (deeds (hh s) i f) <> [] /\ forall j, entered (Starter i j) (hh s) = [].
Proof.
  exists Z, K_carried, [], W_raddr, B_ws, H_code, (fun _ _ => H_counter), (fun _ _ => 10%Z), K_pre, (K_end K_pre), 1, wF.
  split; [apply K_ends; vm_compute; reflexivity|]. split; [vm_compute; discriminate|]. intros j. vm_compute. reflexivity.
Qed.
Print Assumptions C84_methods_after_start_refuted.
(* or while it runs; *)
Theorem C84_methods_apart_from_start_refuted : exists O carried black raddr wz code (T : nat -> name -> ChanModel.target O gval) o0 ls1 s1 ls2 s2 i j f r,
  exec (kstep black raddr wz code T) (kinit carried o0) ls1 = Some s1 /\ exec (kstep black raddr wz code T) s1 ls2 = Some s2 /\ ~ In (KLeave (Starter i j)) ls2 /\
  at_ s1 (Starter i j) = Inside f /\ at_ s2 (Starter i j) = Inside f /\
  ~ In r (ChanSpec.started (deeds (hh s1) i f)) /\ In r (map fst (ChanSpec.ended (deeds (hh s2) i f))).
Proof.
  exists Z, K_carried, [], W_raddr, B_ws, H_code, (fun _ _ => H_counter), (fun _ _ => 10%Z), (K_pre ++ [kd 1 (TBegin 0); KEnter K_s wF]), (K_end (K_pre ++ [kd 1 (TBegin 0); KEnter K_s wF])), (map KAct H_more), (K_end ((K_pre ++ [kd 1 (TBegin 0); KEnter K_s wF]) ++ map KAct H_more)), 1, 0, wF, 1.
  split; [apply K_ends; vm_compute; reflexivity|]. split; [apply K_goes; vm_compute; reflexivity|]. split; [intros H; apply in_map_iff in H as (? & H & _); discriminate H|].
  split; [vm_compute; reflexivity|]. split; [vm_compute; reflexivity|]. split; [vm_compute; intuition discriminate|vm_compute; tauto].
Qed.
Print Assumptions C84_methods_apart_from_start_refuted.
(* OnDestroy of a feature may be called while its OnStart, and a method of it, runs. *)
Theorem C84_start_before_destroy_refuted : exists O carried black raddr wz code (T : nat -> name -> ChanModel.target O gval) o0 ls s i j f r,
  exec (kstep black raddr wz code T) (kinit carried o0) ls = Some s /\ at_ s (Starter i j) = Inside f /\ at_ s (Closer i) = Inside f /\
  In r (ChanSpec.started (deeds (hh s) i f)) /\ ~ In r (map fst (ChanSpec.ended (deeds (hh s) i f))).
Proof.
  set (ls := K_pre ++ [kd 1 (TBegin 0); KEnter K_s wF; KAct (HLocal 1 wF wm [f5] true)] ++ map KAct (firstn 3 (H_inside (local_id 0) 1)) ++ [kd 1 LClose; KEnter (Closer 1) wF]).
  exists Z, K_carried, [], W_raddr, B_ws, H_code, (fun _ _ => H_counter), (fun _ _ => 10%Z), ls, (K_end ls), 1, 0, wF, 1.
  split; [apply K_ends; vm_compute; reflexivity|]. split; [vm_compute; reflexivity|]. split; [vm_compute; reflexivity|]. split; [vm_compute; tauto|vm_compute; intuition discriminate].
Qed.
Print Assumptions C84_start_before_destroy_refuted.
