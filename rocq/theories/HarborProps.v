(* Property theorems C78: networks down to the bytes together with the features of the docks. *)
From Verif Require Import Lts GoInt GoVal Tables CodecSpec ProtoModel ProtoSpec SysCodec DockModel DockSpec SysModel SysSpec FullModel FullSpec WorldModel WorldSpec WorldProof WorldProps.
From Verif Require Import LiveSpec ByteModel ByteSpec ByteProof3 ByteProps FleetModel FleetSpec FleetProps FleetLiveSpec FleetLiveProof5 FleetLiveProps HarborModel HarborSpec HarborProof HarborProof2 HarborProof3 HarborProof4.
From Verif Require ChanModel ChanSpec ChanLiveSpec HubModel HubSpec FullProof4.
From Coq Require Import Arith Bool List ZArith Lia.
Import ListNotations.
Open Scope nat_scope.

(* -- the network of the examples of C73; feature "F" of dock 1 is a counter whose method "m"
   adds its argument and returns 300; any other method panics *)
Definition h5 : gval := VInt 0 I8 5%Z. (* 5 as it arrives *)
Definition H_code (m : name) : nat := if zlist_eqb m wm then 0 else 1.
Definition H_counter : ChanModel.target Z gval := ChanModel.mkTarget (fun n => n <? 2)
  (fun o n args => match n, args with 0, VInt _ _ d :: _ => Some ((o + d)%Z, [f300]) | _, _ => None end).
Definition H_step := hstep [] W_raddr B_ws H_code (fun _ _ => H_counter).
Definition H_init : harbor Z := hinit W_carried (fun _ _ => 10%Z).
Definition H_inside (g r : nat) : list hlab :=
  map (HFeat 1 wF) [ChanModel.LEnqueue g; ChanModel.LPick; ChanModel.TSleep r; ChanModel.LEnd; ChanModel.LLock; ChanModel.LCheck; ChanModel.LDone; ChanModel.LRespond; ChanModel.LUnlock].
Definition H_lift (l : flab) : list hlab :=
  match l with FDock 1 (SExec k _ _) => [HBegin 1 k] ++ H_inside (server_id k) k ++ [HReturn 1 k] | _ => [HFleet l] end.
Definition H_all : list hlab := Eval vm_compute in flat_map H_lift F_all.
(* a second call *)
Definition F_again : list (wlab gval) :=
  fd 0 [LCall wF wm [f5] true 8; CStep 1 true; CStep 1 true] ++ [WDeliver 1 1] ++ fd 1 [SExec 1 [f300] None; SSend 1 true] ++ [WDeliver 0 1] ++ fd 0 [BStep 1; CStep 1 true; CStep 1 true; BStep 1].
Definition F_more : list flab := Eval vm_compute in F_run (F_end F_all) F_again.
Definition H_more : list hlab := Eval vm_compute in flat_map H_lift F_more.
Definition H_end (ls : list hlab) : harbor Z := match exec H_step H_init ls with Some s => s | None => H_init end.
Lemma H_ends ls : match exec H_step H_init ls with Some _ => true | None => false end = true -> exec H_step H_init ls = Some (H_end ls).
Proof. unfold H_end. destruct (exec H_step H_init ls); [reflexivity|discriminate]. Qed.
Lemma H_runs : exec H_step H_init H_all = Some (H_end H_all).
Proof. apply H_ends. vm_compute. reflexivity. Qed.
Lemma H_runs2 : exec H_step H_init (H_all ++ H_more) = Some (H_end (H_all ++ H_more)).
Proof. apply H_ends. vm_compute. reflexivity. Qed.
Definition H_last : harbor Z := H_end (H_all ++ H_more).
Lemma H_wired : wired (fends (hf H_last)) hub_end.
Proof.
  split.
  - intros [|[|i]] [|[|p]] j q H; vm_compute in H; try discriminate H; injection H as <- <-; vm_compute; reflexivity.
  - intros i p h. split.
    + destruct i as [|[|i]], p as [|[|p]]; intros H; vm_compute in H; try discriminate H; injection H as <-; reflexivity.
    + unfold hub_end. intros [= -> <-]. destruct i as [|[|i]]; vm_compute; reflexivity.
Qed.
Lemma H_legits : Forall (legitimate (across (hf H_last)) B_ws) (handed (fb (hf H_last))).
Proof. apply (legit_checked _ _ _ H_wired). vm_compute. reflexivity. Qed.

(* Whatever a feature executes was asked for: by a request the dock accepted, or by a local
   call, with these arguments; *)
Theorem C78_genuine : forall O carried black raddr wz code (T : nat -> name -> ChanModel.target O gval) o0 ls s i f r g c n args,
  exec (hstep black raddr wz code T) (hinit carried o0) ls = Some s ->
  In (ChanModel.EIssue r g c n args) (deeds s i f) -> exists m, n = code m /\ c = g /\ asked carried s i f m g args.
Proof. exact @genuine. Qed.
Print Assumptions C78_genuine.
(* and once. *)
Theorem C78_asked_once : forall O carried black raddr wz code (T : nat -> name -> ChanModel.target O gval) o0 ls s i f g r c n args r' c' n' args',
  exec (hstep black raddr wz code T) (hinit carried o0) ls = Some s ->
  In (ChanModel.EIssue r g c n args) (deeds s i f) -> In (ChanModel.EIssue r' g c' n' args') (deeds s i f) -> r = r'.
Proof. exact @asked_once. Qed.
Print Assumptions C78_asked_once.
Example C78_genuine_case : exec H_step H_init (H_all ++ H_more) = Some H_last /\ length (deeds H_last 1 wF) = 12 /\
  In (ChanModel.EIssue 0 0 0 0 [h5]) (deeds H_last 1 wF) /\ In (ChanModel.EIssue 1 2 2 0 [h5]) (deeds H_last 1 wF) /\
  length (accepted (map fst (W_carried 1)) (hist (bd (fb (hf H_last)) 1))) = 2.
Proof. split; [exact H_runs2|]. split; [vm_compute; reflexivity|]. split; [vm_compute; tauto|]. split; [vm_compute; tauto|vm_compute; reflexivity]. Qed.

(* A remote call returns only if the object of its feature, at a dock that carries it, was
   asked for that method once, on the arguments as the codec carries them; what comes back is
   the result of that execution, as the codec carries it, or the error of a call that timed
   out.  No other feature of any dock is asked for anything by a request with its
   identifier. *)
Theorem C78_remote_call : forall O carried black raddr wz code (T : nat -> name -> ChanModel.target O gval) o0 ls s i c x,
  exec (hstep black raddr wz code T) (hinit carried o0) ls = Some s -> Forall (legitimate (across (hf s)) wz) (handed (fb (hf s))) ->
  NoDup (map q_index (requests (hist (bd (fb (hf s)) i)))) -> In (EReturn c x) (hist (bd (fb (hf s)) i)) ->
  exists q j k r, In (ENew c q) (hist (bd (fb (hf s)) i)) /\ performed carried code s i q j k r x /\
    forall j' k' q' f' r' n args, served carried (fends (hf s)) (parts (fb (hf s))) i j' k' q' -> q_index q' = q_index q ->
      In (ChanModel.EIssue r' (server_id k') (server_id k') n args) (deeds s j' f') -> j' = j /\ f' = q_slot q /\ r' = r.
Proof. exact @remote_call. Qed.
Print Assumptions C78_remote_call.
Example C78_remote_call_case : exec H_step H_init (H_all ++ H_more) = Some H_last /\ Forall (legitimate (across (hf H_last)) B_ws) (handed (fb (hf H_last))) /\
  map q_index (requests (hist (bd (fb (hf H_last)) 0))) = [7%Z; 8%Z] /\ In (EReturn 1 (mkRet [f300] None)) (hist (bd (fb (hf H_last)) 0)) /\
  ChanSpec.ended (deeds H_last 1 wF) = [(0, [f300]); (1, [f300])] /\ ChanModel.object (feat H_last 1 wF) = 20%Z.
Proof. split; [exact H_runs2|]. split; [exact H_legits|]. split; [vm_compute; reflexivity|]. split; [vm_compute; tauto|]. split; vm_compute; reflexivity. Qed.

(* The object of a feature is what its methods made of it, run one after another in the
   order in which they ended, each once; *)
Theorem C78_object : forall O carried black raddr wz code (T : nat -> name -> ChanModel.target O gval) o0 ls s i f,
  exec (hstep black raddr wz code T) (hinit carried o0) ls = Some s ->
  ChanSpec.replay (T i f) (deeds s i f) (o0 i f) (ChanSpec.ended (deeds s i f)) (ChanModel.object (feat s i f)) /\ NoDup (map fst (ChanSpec.ended (deeds s i f))).
Proof. exact @object_replay. Qed.
Print Assumptions C78_object.
(* at most one runs at a time, in the order in which they started. *)
Theorem C78_one_at_a_time : forall O carried black raddr wz code (T : nat -> name -> ChanModel.target O gval) o0 ls s i f,
  exec (hstep black raddr wz code T) (hinit carried o0) ls = Some s ->
  exists cur, ChanSpec.started (deeds s i f) = map fst (ChanSpec.ended (deeds s i f)) ++ cur /\ length cur <= 1 /\ NoDup (ChanSpec.started (deeds s i f)).
Proof. exact @one_at_a_time. Qed.
Print Assumptions C78_one_at_a_time.
Example C78_object_case : exec H_step H_init (H_all ++ H_more) = Some H_last /\ ChanSpec.started (deeds H_last 1 wF) = [0; 1] /\ ChanModel.object (feat H_last 1 wF) = 20%Z /\ ChanModel.object (feat H_init 1 wF) = 10%Z.
Proof. split; [exact H_runs2|]. split; [vm_compute; reflexivity|]. split; vm_compute; reflexivity. Qed.

(* Calls by whatever docks take effect in the order of time: a call made after another one of
   the same feature at the same dock has returned starts there after it. *)
Theorem C78_real_time : forall O carried black raddr wz code (T : nat -> name -> ChanModel.target O gval) o0 ls1 s1 ls2 s2 i c x i' c' x' q' j k' r',
  exec (hstep black raddr wz code T) (hinit carried o0) ls1 = Some s1 -> exec (hstep black raddr wz code T) s1 ls2 = Some s2 -> Forall (legitimate (across (hf s2)) wz) (handed (fb (hf s2))) ->
  NoDup (map q_index (requests (hist (bd (fb (hf s2)) i)))) -> NoDup (map q_index (requests (hist (bd (fb (hf s2)) i')))) ->
  In (EReturn c x) (hist (bd (fb (hf s1)) i)) ->
  (forall q, ~ In (ENew c' q) (hist (bd (fb (hf s1)) i'))) -> In (ENew c' q') (hist (bd (fb (hf s2)) i')) -> performed carried code s2 i' q' j k' r' x' ->
  exists q j1 k r, In (ENew c q) (hist (bd (fb (hf s1)) i)) /\ performed carried code s1 i q j1 k r x /\
    (q_slot q' = q_slot q -> j = j1 -> exists a b d, ChanSpec.started (deeds s2 j (q_slot q)) = a ++ r :: b ++ r' :: d).
Proof. exact @real_time. Qed.
Print Assumptions C78_real_time.
Lemma H_second : exec H_step (H_end H_all) H_more = Some H_last.
Proof. unfold H_last, H_end at 2. rewrite exec_app, H_runs. destruct (exec H_step (H_end H_all) H_more) eqn:E; [reflexivity|]. exfalso. revert E. vm_compute. discriminate. Qed.
Example C78_real_time_case : exec H_step H_init H_all = Some (H_end H_all) /\ exec H_step (H_end H_all) H_more = Some H_last /\ Forall (legitimate (across (hf H_last)) B_ws) (handed (fb (hf H_last))) /\
  map q_index (requests (hist (bd (fb (hf H_last)) 0))) = [7%Z; 8%Z] /\
  In (EReturn 0 (mkRet [f300] None)) (hist (bd (fb (hf (H_end H_all))) 0)) /\ (forall q, ~ In (ENew 1 q) (hist (bd (fb (hf (H_end H_all))) 0))) /\
  In (ENew 1 (mkReq 8%Z wF wm [f5] true)) (hist (bd (fb (hf H_last)) 0)) /\ performed W_carried H_code H_last 0 (mkReq 8%Z wF wm [f5] true) 1 1 1 (mkRet [f300] None).
Proof.
  split; [exact H_runs|]. split; [exact H_second|]. split; [exact H_legits|]. split; [vm_compute; reflexivity|]. split; [vm_compute; tauto|].
  split; [intros q H; vm_compute in H; intuition discriminate|]. split; [vm_compute; tauto|].
  split; [exists [], []; split; [reflexivity|intros []]|]. exists [h5], [f300], None. split; [vm_compute; reflexivity|]. split; [exists 1, 1; split; vm_compute; reflexivity|].
  split; [vm_compute; tauto|]. split; [left; split; [reflexivity|vm_compute; tauto]|]. split; vm_compute; reflexivity.
Qed.

(* Every call returns, features included: along every endless run in which no goroutine that
   can go on is held up for ever (routines, handlers, calls, those that serve requests, the
   callees of the features and their methods), none is passed over for ever at the queue of a
   feature, every range over the waiting calls ends, no method panics, no process or routine
   ends, no queue overflows and nothing breaks, each call of a feature carried by some dock
   that connects to the hub returns once, with what the object of the feature, at a dock that
   carries it, made of it, or the error of a call that timed out. *)
Theorem C78_calls_return : forall O carried black raddr wz code (T : nat -> name -> ChanModel.target O gval) o0 run lab,
  hendless carried black raddr wz code T o0 run lab -> hfair black raddr wz code T run lab -> hturns black raddr wz code T run lab -> hno_panic run ->
  fundisturbed (fun n => hf (run n)) -> flegitimate wz (fun n => hf (run n)) -> franges_end (fun n => hf (run n)) ->
  forall n i c q j n', In (ENew c q) (hist (bd (fb (hf (run n))) i)) -> lab n' = Some (HFleet (FDial j true)) -> carries (carried j) (q_slot q) true ->
  exists m x j' k r, n <= m /\ returns c (hist (bd (fb (hf (run m))) i)) = [x] /\ performed carried code (run m) i q j' k r x.
Proof. exact @harbor_call. Qed.
Print Assumptions C78_calls_return.
(* So does each local call, in a dock whose process runs on. *)
Theorem C78_local_calls_return : forall O carried black raddr wz code (T : nat -> name -> ChanModel.target O gval) o0 run lab,
  hendless carried black raddr wz code T o0 run lab -> hfair black raddr wz code T run lab -> hturns black raddr wz code T run lab ->
  forall i, (forall n, up i (run n) = true) ->
  forall n k f m args, nth_error (local_calls (hist (bd (fb (hf (run n))) i))) k = Some (f, m, args) ->
  exists n' r a, n <= n' /\ issued code (run n') i f m (local_id k) args r /\ In (ChanModel.EReturn (local_id k) r r a) (deeds (run n') i f) /\
    came_to (run n') i f m r (fst (outcome m a)) (snd (outcome m a)).
Proof. intros O carried black raddr wz code T o0 run lab En Fa Tn. exact (local_call_returns carried black raddr wz code T o0 run lab En Fa Tn). Qed.
Print Assumptions C78_local_calls_return.
(* -- the run of the first call, after which nothing happens *)
Definition HG_run (ls : list hlab) (n : nat) : harbor Z := H_end (firstn n ls).
Definition HG_lab (ls : list hlab) (n : nat) : option hlab := nth_error ls n.
Lemma HG_over ls n : length ls <= n -> HG_run ls n = H_end ls.
Proof. intros H. unfold HG_run. rewrite firstn_all2; [reflexivity|exact H]. Qed.
Lemma HG_endless ls : exec H_step H_init ls = Some (H_end ls) -> hendless W_carried [] W_raddr B_ws H_code (fun _ _ => H_counter) (fun _ _ => 10%Z) (HG_run ls) (HG_lab ls).
Proof.
  intros R. split; [reflexivity|]. intros n. unfold HG_lab, HG_run. destruct (nth_error ls n) as [l|] eqn:N; [|apply nth_error_None in N; rewrite !firstn_all2 by lia; reflexivity].
  apply nth_error_split in N as (a & b & -> & <-). rewrite exec_app in R. destruct (exec H_step H_init a) as [w1|] eqn:E1; [|discriminate]. cbn [exec] in R. destruct (H_step w1 l) as [w2|] eqn:E2; [|discriminate].
  replace (firstn (length a) (a ++ l :: b)) with a by (rewrite firstn_app, Nat.sub_diag, firstn_all, app_nil_r; reflexivity).
  replace (firstn (S (length a)) (a ++ l :: b)) with (a ++ [l]) by (rewrite firstn_app, Nat.sub_succ_l, Nat.sub_diag, firstn_all2 by lia; reflexivity).
  unfold H_end. rewrite exec_app, E1. cbn [exec]. rewrite E2. exact E2.
Qed.
(* what the network does in it *)
Fixpoint H_trace (s : harbor Z) (ls : list hlab) : list flab :=
  match ls with
  | [] => []
  | l :: ls => match fleet_label s l with Some x => [x] | None => [] end ++ match H_step s l with Some s' => H_trace s' ls | None => [] end
  end.
Lemma H_traced ls : forall s s', exec H_step s ls = Some s' -> exec F_step (hf s) (H_trace s ls) = Some (hf s').
Proof.
  induction ls as [|l ls IH]; intros s s' E; [injection E as <-; reflexivity|]. cbn [exec] in E. cbn [H_trace]. destruct (H_step s l) as [s1|] eqn:E1; [|discriminate].
  destruct (hstep_inv _ _ _ _ _ _ _ _ E1) as (Fs & _). specialize (IH _ _ E). destruct (fleet_label s l); cbn [optstep app exec] in *; [fold F_step in Fs; rewrite Fs|rewrite Fs in IH]; exact IH.
Qed.
Lemma H_all_traced : H_trace H_init H_all = F_all.
Proof. vm_compute. reflexivity. Qed.
Lemma H_end_fleet : hf (H_end H_all) = F_end F_all.
Proof.
  assert (X : exec F_step (finit W_carried) F_all = Some (hf (H_end H_all))) by (rewrite <- H_all_traced at 1; exact (H_traced _ _ _ H_runs)).
  assert (J : forall (A : Type) (x y z : option A) (a b : A), x = Some a -> x = Some b -> a = b) by (intros; congruence). exact (J _ _ None None _ _ X F_runs).
Qed.
Lemma HG_reached ls n : exec H_step H_init ls = Some (H_end ls) -> exec H_step H_init (firstn n ls) = Some (HG_run ls n) /\ exec H_step (HG_run ls n) (skipn n ls) = Some (H_end ls).
Proof.
  generalize (H_end ls). intros e R. rewrite <- (firstn_skipn n ls), exec_app in R. unfold HG_run, H_end. destruct (exec H_step H_init (firstn n ls)) as [s|]; [auto|discriminate].
Qed.
Lemma HG_calm n : Forall (legitimate (across (hf (HG_run H_all n))) B_ws) (handed (fb (hf (HG_run H_all n)))) /\ unbroken (hf (HG_run H_all n)) /\ dropped (fb (hf (HG_run H_all n))) = false /\ healthy (parts (fb (hf (HG_run H_all n)))).
Proof.
  destruct (HG_reached _ n H_runs) as [E R]. pose proof (H_traced _ _ _ E) as A. pose proof (H_traced _ _ _ R) as B. rewrite H_end_fleet in B.
  apply (before W_carried [] W_raddr B_ws _ _ _ (F_end F_all) A B F_legits F_unbroken); [vm_compute; reflexivity|exact F_healthy].
Qed.
Lemma F_rests T : fresting [] W_raddr B_ws T (F_end F_all).
Proof.
  intros l O. destruct F_settled as [St _]. destruct T; cbn [of_ftask] in O.
  - apply St. destruct O as [-> | ->]; exact I.
  - apply St. destruct O as [->|[(k & Hk & ->)|O]]; [exact I|exact Hk|]. destruct e as [i p|h]; cbn [handling] in O; [|subst l; exact I].
    destruct l as [i' l| | | | | | |]; try (exfalso; exact O); try exact I. destruct l; try (exfalso; exact O); exact I.
  - apply St. subst l. exact I.
  - apply St. destruct O as (ns & acc & ->). exact I.
  - apply St. destruct O as (acc & ->). exact I.
  - apply St. destruct O as [(res & err & ->)|(acc & ->)]; exact I.
  - apply St. subst l. exact I.
  - subst l. do 24 (destruct t as [|t]; [vm_compute; reflexivity|]). vm_compute. reflexivity.
Qed.
Lemma H_fleet_none l : F_step (F_end F_all) l = None -> H_step (H_end H_all) (HFleet l) = None.
Proof. intros N. unfold H_step. cbn [hstep]. rewrite H_end_fleet. fold F_step. rewrite N. destruct (allowed _ _); reflexivity. Qed.
(* the features nobody called *)
Lemma H_accepted i : accepted (map fst (W_carried i)) (hist (bd (fb (hf (H_end H_all))) i)) = match i with 1 => [(1, mkReq 7%Z wF wm [h5] true)] | _ => [] end /\ local_calls (hist (bd (fb (hf (H_end H_all))) i)) = [].
Proof. destruct i as [|[|i]]; vm_compute; split; reflexivity. Qed.
Lemma H_untouched i f : ~ (i = 1 /\ f = wF) -> forall r g c n args, ~ In (ChanModel.EIssue r g c n args) (deeds (H_end H_all) i f).
Proof.
  intros N r g c n args X. destruct (genuine _ _ _ _ _ _ _ _ _ _ _ _ _ _ _ _ H_runs X) as (m & _ & _ & A). destruct (H_accepted i) as [E1 E2].
  destruct A as [(k & p & q & _ & Ek & Es & _)|(k & _ & Ek)]; [rewrite E1 in Ek|rewrite E2 in Ek; destruct k; discriminate Ek].
  destruct i as [|[|i]]; [destruct k; discriminate Ek| |destruct k; discriminate Ek]. destruct k as [|k]; [|destruct k; discriminate Ek]. apply N. split; [reflexivity|]. injection Ek as <- <-. symmetry. exact Es.
Qed.
Lemma H_idle s ls i f : exec H_step H_init ls = Some s -> (forall r g c n args, ~ In (ChanModel.EIssue r g c n args) (deeds s i f)) ->
  (forall g, ChanModel.gor (feat s i f) g = ChanModel.GIdle) /\ ChanModel.queue (feat s i f) = [] /\ ChanModel.handler (feat s i f) = ChanModel.HIdle /\ forall r, ChanModel.timer (feat s i f) r = ChanModel.TNone.
Proof. intros R N. destruct (chan_runs _ _ _ _ _ _ _ _ _ i f R) as (lc & E & _). exact (FullProof4.untouched _ _ _ _ E N). Qed.
Lemma H_feat_idle i f : ~ (i = 1 /\ f = wF) -> (forall g, ChanModel.gor (feat (H_end H_all) i f) g = ChanModel.GIdle) /\ ChanModel.queue (feat (H_end H_all) i f) = [] /\
  ChanModel.handler (feat (H_end H_all) i f) = ChanModel.HIdle /\ forall r, ChanModel.timer (feat (H_end H_all) i f) r = ChanModel.TNone.
Proof. intros N. exact (H_idle (H_end H_all) H_all i f H_runs (H_untouched i f N)). Qed.
Lemma H_feat_rests i f k : hresting [] W_raddr B_ws H_code (fun _ _ => H_counter) (HtFeat i f k) (H_end H_all).
Proof.
  intros l (l' & -> & Ol). cbn [hstep]. destruct (up i (H_end H_all) && inside l') eqn:U; [|reflexivity]. apply andb_prop in U as [_ U].
  enough (Z : ChanModel.cstep H_counter (feat (H_end H_all) i f) l' = None) by (rewrite Z; reflexivity).
  assert (D : (i = 1 /\ f = wF) \/ ~ (i = 1 /\ f = wF)) by (destruct (Nat.eq_dec i 1); destruct (list_eq_dec Z.eq_dec f wF); tauto). destruct D as [[-> ->]|D].
  - destruct k as [| |r|g]; destruct l'; try (exfalso; exact Ol); cbn in Ol; try (vm_compute; reflexivity); try discriminate U; destruct r0 as [|r0]; vm_compute; reflexivity.
  - destruct (H_feat_idle i f D) as (G & Q & Hd & Tm). unfold ChanModel.cstep. destruct (ChanModel.crashed _); [reflexivity|].
    destruct k as [| |r|g]; destruct l'; try (exfalso; exact Ol); try discriminate U; rewrite ?Hd, ?Q, ?Tm; reflexivity.
Qed.
Lemma H_rests t : hresting [] W_raddr B_ws H_code (fun _ _ => H_counter) t (H_end H_all).
Proof.
  destruct t as [t|i k|i n|i f k]; [| | |apply H_feat_rests]; intros l Ol; change (H_step (H_end H_all) l = None).
  - assert (E : exists l', l = HFleet l' /\ of_ftask t l') by (destruct t; try exact Ol; destruct Ol). destruct E as (l' & -> & Ol'). apply H_fleet_none, (F_rests t), Ol'.
  - destruct Ol as [->|[->|(acc & ->)]]; [W_two i k|W_two i k|]. apply H_fleet_none, (F_rests (FtServe i k)). right. eauto.
  - cbn in Ol. subst l. W_two i n.
Qed.
Lemma HG_fair : hfair [] W_raddr B_ws H_code (fun _ _ => H_counter) (HG_run H_all) (HG_lab H_all).
Proof. intros t n. exists (max n 131). split; [lia|]. left. rewrite HG_over by (change (length H_all) with 131; lia). apply H_rests. Qed.
Lemma HG_turns : hturns [] W_raddr B_ws H_code (fun _ _ => H_counter) (HG_run H_all) (HG_lab H_all).
Proof.
  intros i f g n. exists (max n 131). split; [lia|]. right. intros k L. rewrite HG_over by (change (length H_all) with 131; lia). cbn [hstep]. destruct (up i _ && inside _); [|reflexivity].
  enough (Z : ChanModel.cstep H_counter (feat (H_end H_all) i f) (ChanModel.LEnqueue g) = None) by (rewrite Z; reflexivity).
  assert (D : (i = 1 /\ f = wF) \/ ~ (i = 1 /\ f = wF)) by (destruct (Nat.eq_dec i 1); destruct (list_eq_dec Z.eq_dec f wF); tauto). destruct D as [[-> ->]|D].
  - destruct g; vm_compute; reflexivity.
  - destruct (H_feat_idle i f D) as (G & _). unfold ChanModel.cstep. destruct (ChanModel.crashed _); [reflexivity|]. rewrite G. reflexivity.
Qed.
Lemma H_alive ls : forall s s' o, exec H_step s ls = Some s' -> dead s' o = false -> dead s o = false.
Proof.
  induction ls as [|l ls IH]; intros s s' o E D; [injection E as <-; exact D|]. cbn [exec] in E. destruct (H_step s l) as [s1|] eqn:E1; [|discriminate].
  pose proof (IH _ _ _ E D) as D1. destruct (dead s o) eqn:X; [|reflexivity]. rewrite (dead_stays _ _ _ _ _ _ _ _ _ E1 X) in D1. discriminate D1.
Qed.
Lemma HG_no_panic : hno_panic (HG_run H_all).
Proof. intros n o. destruct (HG_reached _ n H_runs) as [_ R]. apply (H_alive _ _ _ o R). destruct o as [[|[|i]]|]; vm_compute; reflexivity. Qed.
Lemma HG_undisturbed : fundisturbed (fun n => hf (HG_run H_all n)) /\ flegitimate B_ws (fun n => hf (HG_run H_all n)).
Proof. split; intros n; destruct (HG_calm n) as (A & B & C & D); auto. Qed.
Lemma HG_ranges : franges_end (fun n => hf (HG_run H_all n)).
Proof. intros i p n. exists (max n 131). split; [lia|]. rewrite HG_over by (change (length H_all) with 131; lia). destruct i as [|[|i]]; destruct p as [|[|[|p]]]; vm_compute; auto. Qed.
Example C78_calls_return_case : hendless W_carried [] W_raddr B_ws H_code (fun _ _ => H_counter) (fun _ _ => 10%Z) (HG_run H_all) (HG_lab H_all) /\
  hfair [] W_raddr B_ws H_code (fun _ _ => H_counter) (HG_run H_all) (HG_lab H_all) /\ hturns [] W_raddr B_ws H_code (fun _ _ => H_counter) (HG_run H_all) (HG_lab H_all) /\ hno_panic (HG_run H_all) /\
  fundisturbed (fun n => hf (HG_run H_all n)) /\ flegitimate B_ws (fun n => hf (HG_run H_all n)) /\ franges_end (fun n => hf (HG_run H_all n)) /\
  In (ENew 0 (mkReq 7%Z wF wm [f5] true)) (hist (bd (fb (hf (HG_run H_all 60))) 0)) /\ HG_lab H_all 0 = Some (HFleet (FDial 1 true)) /\ carries (W_carried 1) wF true.
Proof.
  split; [exact (HG_endless _ H_runs)|]. split; [exact HG_fair|]. split; [exact HG_turns|]. split; [exact HG_no_panic|]. split; [exact (proj1 HG_undisturbed)|]. split; [exact (proj2 HG_undisturbed)|].
  split; [exact HG_ranges|]. split; [vm_compute; tauto|]. split; [reflexivity|]. exists [], []. split; [reflexivity|intros []].
Qed.
(* -- a local call before dock 1 has dialled anybody *)
Definition H_local : list hlab := [HLocal 1 wF wm [f5] true] ++ H_inside (local_id 0) 0 ++ [HLocalReturn 1 0].
Lemma L_runs : exec H_step H_init H_local = Some (H_end H_local).
Proof. apply H_ends. vm_compute. reflexivity. Qed.
Lemma L_frests T : fresting [] W_raddr B_ws T (hf (H_end H_local)).
Proof.
  intros l O. change (F_step (hf (H_end H_local)) l = None). destruct T as [e|e|j q|i j|i c|i k|i b|t]; cbn [of_ftask] in O.
  - destruct O as [-> | ->]; (destruct e as [i p|h]; [destruct i as [|[|i]]; destruct p as [|p]|destruct h as [|[|h]]]); vm_compute; reflexivity.
  - destruct O as [->|[(k & Hk & ->)|O]].
    + destruct e as [i p|h]; [destruct i as [|[|i]]; destruct p as [|[|[|p]]]|destruct h as [|[|h]]]; vm_compute; reflexivity.
    + apply F_no_read; [|exact Hk]. destruct e as [i p|h]; [destruct i as [|[|i]]; destruct p as [|[|[|p]]]|destruct h as [|[|h]]]; vm_compute; first [reflexivity|exact I].
    + destruct e as [i p|h]; cbn [handling] in O; [|subst l; W_one h].
      destruct l as [i' l|l|l|i' ok|i' p' ok|i' p' j m|i' p'|j q]; try (exfalso; exact O); [|destruct O as [-> ->]; W_two i p..].
      destruct l; try (exfalso; exact O); destruct O as [-> ->];
      match goal with |- context [HSend ?p ?ns ?acc] => apply (F_no_send (hf (H_end H_local)) i p ns acc); W_two i p | _ => W_two i p end.
  - subst l. W_one j.
  - destruct O as (ns & acc & ->). W_two i j.
  - destruct O as (acc & ->). W_two i c.
  - destruct O as [(res & err & ->)|(acc & ->)]; W_two i k.
  - subst l. W_two i b.
  - subst l. vm_compute. destruct t; reflexivity.
Qed.
Lemma L_asked i : accepted (map fst (W_carried i)) (hist (bd (fb (hf (H_end H_local))) i)) = [] /\ local_calls (hist (bd (fb (hf (H_end H_local))) i)) = match i with 1 => [(wF, wm, [f5])] | _ => [] end.
Proof. destruct i as [|[|i]]; vm_compute; split; reflexivity. Qed.
Lemma L_untouched i f : ~ (i = 1 /\ f = wF) -> forall r g c n args, ~ In (ChanModel.EIssue r g c n args) (deeds (H_end H_local) i f).
Proof.
  intros N r g c n args X. destruct (genuine _ _ _ _ _ _ _ _ _ _ _ _ _ _ _ _ L_runs X) as (m & _ & _ & A). destruct (L_asked i) as [E1 E2].
  destruct A as [(k & p & q & _ & Ek & Es & _)|(k & _ & Ek)]; [rewrite E1 in Ek; destruct k; discriminate Ek|rewrite E2 in Ek].
  destruct i as [|[|i]]; [destruct k; discriminate Ek| |destruct k; discriminate Ek]. destruct k as [|k]; [|destruct k; discriminate Ek]. apply N. split; [reflexivity|]. injection Ek as <- _ _. reflexivity.
Qed.
Lemma L_idle i f : ~ (i = 1 /\ f = wF) -> (forall g, ChanModel.gor (feat (H_end H_local) i f) g = ChanModel.GIdle) /\ ChanModel.queue (feat (H_end H_local) i f) = [] /\
  ChanModel.handler (feat (H_end H_local) i f) = ChanModel.HIdle /\ forall r, ChanModel.timer (feat (H_end H_local) i f) r = ChanModel.TNone.
Proof. intros N. exact (H_idle (H_end H_local) H_local i f L_runs (L_untouched i f N)). Qed.
Lemma L_rests t : hresting [] W_raddr B_ws H_code (fun _ _ => H_counter) t (H_end H_local).
Proof.
  assert (F : forall l, F_step (hf (H_end H_local)) l = None -> H_step (H_end H_local) (HFleet l) = None).
  { intros l N. unfold H_step. cbn [hstep]. fold F_step. rewrite N. destruct (allowed _ _); reflexivity. }
  destruct t as [t|i k|i n|i f k]; intros l Ol; change (H_step (H_end H_local) l = None).
  - assert (E : exists l', l = HFleet l' /\ of_ftask t l') by (destruct t; try exact Ol; destruct Ol). destruct E as (l' & -> & Ol'). apply F, (L_frests t), Ol'.
  - destruct Ol as [->|[->|(acc & ->)]]; [W_two i k|W_two i k|]. apply F, (L_frests (FtServe i k)). right. eauto.
  - cbn in Ol. subst l. W_two i n.
  - destruct Ol as (l' & -> & Ol). unfold H_step. cbn [hstep]. destruct (up i (H_end H_local) && inside l') eqn:U; [|reflexivity]. apply andb_prop in U as [_ U].
    enough (Z : ChanModel.cstep H_counter (feat (H_end H_local) i f) l' = None) by (rewrite Z; reflexivity).
    assert (D : (i = 1 /\ f = wF) \/ ~ (i = 1 /\ f = wF)) by (destruct (Nat.eq_dec i 1); destruct (list_eq_dec Z.eq_dec f wF); tauto). destruct D as [[-> ->]|D].
    + destruct k as [| |r|g]; destruct l'; try (exfalso; exact Ol); cbn in Ol; try (vm_compute; reflexivity); try discriminate U; destruct r0 as [|r0]; vm_compute; reflexivity.
    + destruct (L_idle i f D) as (G & Q & Hd & Tm). unfold ChanModel.cstep. destruct (ChanModel.crashed _); [reflexivity|].
      destruct k as [| |r|g]; destruct l'; try (exfalso; exact Ol); try discriminate U; rewrite ?Hd, ?Q, ?Tm; reflexivity.
Qed.
Lemma L_up n : up 1 (HG_run H_local n) = true.
Proof. do 11 (destruct n as [|n]; [vm_compute; reflexivity|]). rewrite HG_over by (change (length H_local) with 11; lia). vm_compute. reflexivity. Qed.
Lemma L_turns : hturns [] W_raddr B_ws H_code (fun _ _ => H_counter) (HG_run H_local) (HG_lab H_local).
Proof.
  intros i f g n. exists (max n 11). split; [lia|]. right. intros k L. rewrite HG_over by (change (length H_local) with 11; lia). cbn [hstep]. destruct (up i _ && inside _); [|reflexivity].
  enough (Z : ChanModel.cstep H_counter (feat (H_end H_local) i f) (ChanModel.LEnqueue g) = None) by (rewrite Z; reflexivity).
  assert (D : (i = 1 /\ f = wF) \/ ~ (i = 1 /\ f = wF)) by (destruct (Nat.eq_dec i 1); destruct (list_eq_dec Z.eq_dec f wF); tauto). destruct D as [[-> ->]|D].
  - destruct g as [|[|g]]; vm_compute; reflexivity.
  - destruct (L_idle i f D) as (G & _). unfold ChanModel.cstep. destruct (ChanModel.crashed _); [reflexivity|]. rewrite G. reflexivity.
Qed.
Example C78_local_calls_case : hendless W_carried [] W_raddr B_ws H_code (fun _ _ => H_counter) (fun _ _ => 10%Z) (HG_run H_local) (HG_lab H_local) /\
  hfair [] W_raddr B_ws H_code (fun _ _ => H_counter) (HG_run H_local) (HG_lab H_local) /\ hturns [] W_raddr B_ws H_code (fun _ _ => H_counter) (HG_run H_local) (HG_lab H_local) /\ (forall n, up 1 (HG_run H_local n) = true) /\
  nth_error (local_calls (hist (bd (fb (hf (HG_run H_local 1))) 1))) 0 = Some (wF, wm, [f5]) /\ In (ChanModel.EReturn (local_id 0) 0 0 (ChanModel.AResult [f300])) (deeds (HG_run H_local 11) 1 wF).
Proof.
  split; [exact (HG_endless _ L_runs)|]. split; [intros t n; exists (max n 11); split; [lia|]; left; rewrite HG_over by (change (length H_local) with 11; lia); apply L_rests|]. split; [exact L_turns|].
  split; [exact L_up|]. split; [vm_compute; reflexivity|vm_compute; tauto].
Qed.
