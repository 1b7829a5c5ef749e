(* Property theorems C77: endless runs of package chancall.  [T] is the target object's
   methods, [o] its first state; [run] and [lab] are the state at each moment and the step
   then taken, of callers, handler, timers, clock and SetTimeout. *)
From Verif Require Import Lts GoInt GoFloat ChanModel ChanSpec ChanProof3 ChanProps ChanLiveSpec ChanLiveProof.
From Coq Require Import Arith Bool List ZArith Lia.
Import ListNotations.
Open Scope nat_scope.

(* Along an endless run in which methods end, no goroutine is held up for ever and none is
   passed over at the queue, every call returns, with an answer of its own. *)
Theorem C77_calls_return : forall O V (T : target O V) o run lab,
  endless T o run lab -> disciplined lab -> no_panic run -> (forall k, goes_on T run lab k) -> turns T run lab ->
  forall n r g c m args, In (EIssue r g c m args) (hist (run n)) -> exists n' a, n <= n' /\ In (EReturn g r r a) (hist (run n')).
Proof. exact @call_returns. Qed.
Print Assumptions C77_calls_return.

(* Even when methods do not end: a call whose execution has begun returns, if time passes. *)
Theorem C77_started_calls_return : forall O V (T : target O V) o run lab,
  endless T o run lab -> disciplined lab -> no_panic run -> (forall k, k <> KMethod -> goes_on T run lab k) -> clock_advances run ->
  forall n r g c m args t x, In (EIssue r g c m args) (hist (run n)) -> In (EStart r t x) (hist (run n)) ->
  exists n' a, n <= n' /\ In (EReturn g r r a) (hist (run n')).
Proof. exact @started_call_returns. Qed.
Print Assumptions C77_started_calls_return.

(* Examples: a finite schedule after which only time passes. *)
Definition tick : label nat := LTick 1%Z.
Definition F_lab (ls : list (label nat)) (n : nat) : option (label nat) := Some (nth n ls tick).
Definition F_sched (ls : list (label nat)) (n : nat) : list (label nat) := firstn n ls ++ repeat tick (n - length ls).
Definition F_run (ls : list (label nat)) (n : nat) : chan nat nat :=
  match exec (cstep counter) (new_chan 7) (F_sched ls n) with Some s => s | None => new_chan 7 end.
(* s, d nanoseconds later *)
Definition later (d : Z) (s : chan nat nat) : chan nat nat :=
  mkChan (reqs s) (nreqs s) (queue s) (handler s) (timer s) (responses s) (gor s) (settings s) (object s) (now s + d)%Z false (hist s).
Lemma F_sched_S ls n : F_sched ls (S n) = F_sched ls n ++ [nth n ls tick].
Proof.
  unfold F_sched. revert n. induction ls as [|l ls IH]; intros n.
  - rewrite !firstn_nil. cbn [app length]. rewrite !Nat.sub_0_r. destruct n; [reflexivity|]. replace (nth (S n) [] tick) with tick by reflexivity.
    rewrite <- repeat_cons. reflexivity.
  - destruct n as [|n]; [cbn [firstn length app nth]; rewrite Nat.sub_0_l; cbn [Nat.sub repeat]; now rewrite ?app_nil_r|].
    cbn [firstn length app nth]. f_equal. exact (IH n).
Qed.
Lemma F_schedule ls n : schedule (F_lab ls) n = F_sched ls n.
Proof.
  induction n as [|n IH]; [reflexivity|]. rewrite F_sched_S, <- IH. unfold schedule. rewrite seq_S, flat_map_app. reflexivity.
Qed.
Lemma ticks s k : crashed s = false -> exec (cstep counter) s (repeat tick k) = Some (later (Z.of_nat k) s).
Proof.
  revert s. induction k as [|k IH]; intros s C.
  - cbn [repeat exec]. unfold later. destruct s; cbn in *. subst. f_equal. f_equal. lia.
  - cbn [repeat exec]. unfold cstep at 1. rewrite C. cbn [tick Z.ltb Z.compare]. rewrite IH by reflexivity. unfold later; cbn. do 2 f_equal. lia.
Qed.
Section F.
Variables (ls : list (label nat)) (e : chan nat nat).
Hypotheses (E : exec (cstep counter) (new_chan 7) ls = Some e) (C : crashed e = false).
Lemma F_exec n : exec (cstep counter) (new_chan 7) (F_sched ls n) = Some (F_run ls n).
Proof.
  unfold F_run. destruct (exec _ _ (F_sched ls n)) eqn:X; [reflexivity|exfalso]. unfold F_sched in X. rewrite exec_app in X.
  rewrite <- (firstn_skipn n ls), exec_app in E. destruct (exec _ _ (firstn n ls)) as [s|] eqn:Y; [|discriminate].
  destruct (Nat.le_gt_cases n (length ls)).
  - replace (n - length ls) with 0 in X by lia. discriminate.
  - rewrite skipn_all2 in E by lia. injection E as ->. rewrite ticks in X by exact C. discriminate.
Qed.
Lemma F_endless : endless counter 7 (F_run ls) (F_lab ls).
Proof.
  split; [reflexivity|]. intros n. cbn. pose proof (F_exec (S n)) as X. rewrite F_sched_S, exec_app, F_exec in X. cbn in X.
  destruct (cstep counter (F_run ls n) (nth n ls tick)); [exact X|discriminate].
Qed.
Lemma F_over n : length ls <= n -> F_run ls n = later (Z.of_nat (n - length ls)) e.
Proof.
  intros H. pose proof (F_exec n) as X. unfold F_sched in X. rewrite firstn_all2, exec_app, E, ticks in X by auto. injection X as ->. reflexivity.
Qed.
Lemma F_sane : no_panic (F_run ls).
Proof.
  intros n. destruct (Nat.le_gt_cases (length ls) n) as [H|H]; [rewrite F_over by exact H; reflexivity|].
  pose proof (F_exec n) as X. unfold F_sched in X. replace (n - length ls) with 0 in X by lia. cbn [repeat] in X. rewrite app_nil_r in X.
  rewrite <- (firstn_skipn n ls), exec_app, X in E. destruct (crashed (F_run ls n)) eqn:Y; [|reflexivity]. exfalso.
  destruct (skipn n ls) as [|l r] eqn:Z.
  - apply (f_equal (@length _)) in Z. rewrite skipn_length in Z. cbn in Z. lia.
  - cbn in E. unfold cstep in E at 1. rewrite Y in E. discriminate.
Qed.
Lemma F_clock : (0 <= now e)%Z -> clock_advances (F_run ls).
Proof. intros P z. exists (length ls + Z.to_nat z). rewrite F_over by lia. cbn. lia. Qed.
Lemma F_disciplined : one_goroutine_per_caller ls -> disciplined (F_lab ls).
Proof.
  intros D n. rewrite F_schedule. unfold F_sched. intros a g c m args b X g'.
  assert (exists b', ls = a ++ LCall g c m args :: b') as [b' ->]; [|exact (D a g c m args b' eq_refl g')].
  rewrite <- (firstn_skipn n ls). generalize dependent (firstn n ls). clear. intros l X. revert l X.
  induction a as [|x a IH]; intros [|y l] X; cbn in *.
  - destruct (n - length ls); discriminate.
  - injection X as -> X. eauto.
  - exfalso. revert X. generalize (n - length ls). intros k X. assert (In (LCall g c m args) (repeat tick k)) by (rewrite X; right; apply in_or_app; right; left; reflexivity).
    apply repeat_spec in H. discriminate.
  - injection X as -> X. apply IH in X as [b' X]. exists b'. now rewrite <- X.
Qed.
Lemma F_turns : (forall g, match gor e g with GSending _ => False | _ => True end) -> turns counter (F_run ls) (F_lab ls).
Proof.
  intros G g n. exists (max n (length ls)). split; [lia|]. right. intros k H. rewrite F_over by lia. cbn. specialize (G g). destruct (gor e g); auto. destruct G.
Qed.
Lemma F_goes_on k : (forall d, resting counter k (later d e)) -> goes_on counter (F_run ls) (F_lab ls) k.
Proof. intros R n. exists (max n (length ls)). split; [lia|]. left. rewrite F_over by lia. apply R. Qed.
Lemma F_hist ev n : In ev (hist (F_run ls n)) -> In ev (hist e).
Proof.
  intros H. replace (hist e) with (hist (F_run ls (max n (length ls)))) by (rewrite F_over by lia; reflexivity).
  apply (in_mono counter 7 (F_run ls) (F_lab ls) F_endless ev n); [lia|exact H].
Qed.
End F.
Ltac rests := intros ? l O; destruct l as [| |g c m args|g|g| | | | | | | |r|r|r|r|r|r]; try contradiction O; cbn in O; subst;
  try match goal with r : nat |- _ => destruct r as [|[|[|r]]] end; vm_compute; reflexivity.

(* Three goroutines call at once, the third waiting for room in the queue; the first call
   times out while its method runs, the others get their results. *)
Definition C77_busy : list (label nat) :=
  put 0 0 0 [1] ++ [LCall 1 1 0 [2]; LCall 2 2 1 []; LPick] ++ [LEnqueue 1; LEnqueue 2] ++
  [TSleep 0; LTick 1000000000%Z; TLock 0; TCheck 0; TDone 0; TRespond 0; TRelease 0; LReceive 0] ++
  [LEnd; LLock; LCheck; LUnlock] ++ serve ++ [LReceive 1] ++ serve ++ [LReceive 2] ++
  [TSleep 1; TSleep 2; LTick 1000000000%Z; TLock 1; TCheck 1; TRelease 1; TLock 2; TCheck 2; TRelease 2].
Definition C77_end : chan nat nat := match exec (cstep counter) (new_chan 7) C77_busy with Some s => s | None => new_chan 7 end.
Lemma C77_reached : exec (cstep counter) (new_chan 7) C77_busy = Some C77_end.
Proof. vm_compute. reflexivity. Qed.
Lemma C77_rests k d : resting counter k (later d C77_end).
Proof. revert d. destruct k as [| |q|q]; rests. Qed.
Example C77_case : endless counter 7 (F_run C77_busy) (F_lab C77_busy) /\ disciplined (F_lab C77_busy) /\ no_panic (F_run C77_busy) /\
  (forall k, goes_on counter (F_run C77_busy) (F_lab C77_busy) k) /\ turns counter (F_run C77_busy) (F_lab C77_busy) /\ clock_advances (F_run C77_busy) /\
  In (EIssue 2 2 2 1 []) (hist (F_run C77_busy 4)) /\ In (EReturn 2 2 2 (AResult [20])) (hist (F_run C77_busy 50)) /\
  In (EReturn 0 0 0 (ATimeout 0)) (hist (F_run C77_busy 50)).
Proof.
  split; [exact (F_endless _ _ C77_reached eq_refl)|]. split; [apply (F_disciplined _ C77_end C77_reached); discipline|]. split; [exact (F_sane _ _ C77_reached eq_refl)|].
  split; [intros k; exact (F_goes_on _ _ C77_reached eq_refl k (C77_rests k))|].
  split; [apply (F_turns _ _ C77_reached eq_refl); intros [|[|[|g]]]; vm_compute; exact I|].
  split; [apply (F_clock _ _ C77_reached eq_refl); vm_compute; discriminate|].
  vm_compute. repeat split; repeat first [left; reflexivity|right].
Qed.

(* The method of the first call never ends; the second call waits in the queue. *)
Definition C77_stuck : list (label nat) :=
  put 0 0 0 [1] ++ put 1 1 0 [2] ++ [LPick; TSleep 0; LTick 1000000000%Z; TLock 0; TCheck 0; TDone 0; TRespond 0; TRelease 0; LReceive 0].
Definition C77_hung : chan nat nat := match exec (cstep counter) (new_chan 7) C77_stuck with Some s => s | None => new_chan 7 end.
Lemma C77_hangs : exec (cstep counter) (new_chan 7) C77_stuck = Some C77_hung.
Proof. vm_compute. reflexivity. Qed.
Definition C77_history : list (event nat) := ltac:(let x := eval vm_compute in (hist C77_hung) in exact x).
Lemma C77_hist : hist C77_hung = C77_history.
Proof. vm_compute. reflexivity. Qed.
Lemma C77_waits k d : k <> KMethod -> resting counter k (later d C77_hung).
Proof. intros N. revert d. destruct k as [| |q|q]; [contradiction|rests..]. Qed.
Example C77_started_case : endless counter 7 (F_run C77_stuck) (F_lab C77_stuck) /\ disciplined (F_lab C77_stuck) /\ no_panic (F_run C77_stuck) /\
  (forall k, k <> KMethod -> goes_on counter (F_run C77_stuck) (F_lab C77_stuck) k) /\ clock_advances (F_run C77_stuck) /\
  In (EIssue 0 0 0 0 [1]) (hist (F_run C77_stuck 5)) /\ In (EStart 0 0%Z 0x3f800000%Z) (hist (F_run C77_stuck 5)) /\
  In (EReturn 0 0 0 (ATimeout 0)) (hist (F_run C77_stuck 13)) /\ forall n x, ~ In (EEnd 0 x) (hist (F_run C77_stuck n)).
Proof.
  split; [exact (F_endless _ _ C77_hangs eq_refl)|]. split; [apply (F_disciplined _ C77_hung C77_hangs); discipline|]. split; [exact (F_sane _ _ C77_hangs eq_refl)|].
  split; [intros k N; exact (F_goes_on _ _ C77_hangs eq_refl k (fun d => C77_waits k d N))|].
  split; [apply (F_clock _ _ C77_hangs eq_refl); vm_compute; discriminate|].
  do 3 (split; [vm_compute; repeat first [left; reflexivity|right]|]).
  intros n x H. apply (F_hist _ _ C77_hangs eq_refl) in H. rewrite C77_hist in H. cbn in H. repeat (destruct H as [H|H]; [discriminate H|]). exact H.
Qed.

(* The timeout does not protect the calls behind: while a method does not end, a call
   waiting in the queue does not return, however long it waits. *)
Definition C77_timeout_frees_queue : Prop := forall O V (T : target O V) o run lab,
  endless T o run lab -> disciplined lab -> no_panic run -> (forall k, k <> KMethod -> goes_on T run lab k) -> turns T run lab -> clock_advances run ->
  forall n r g c m args, In (EIssue r g c m args) (hist (run n)) -> exists n' a, n <= n' /\ In (EReturn g r r a) (hist (run n')).
Theorem C77_timeout_frees_queue_refuted : ~ C77_timeout_frees_queue.
Proof.
  intros P. destruct C77_started_case as (A & B & D & G & Cl & _).
  destruct (P _ _ _ _ _ _ A B D G) with (n := 4) (r := 1) (g := 1) (c := 1) (m := 0) (args := [2]) as (n' & a & _ & H); auto.
  - apply (F_turns _ _ C77_hangs eq_refl). intros [|[|[|g]]]; vm_compute; exact I.
  - vm_compute. repeat first [left; reflexivity|right].
  - apply (F_hist _ _ C77_hangs eq_refl) in H. rewrite C77_hist in H. cbn in H. repeat (destruct H as [H|H]; [discriminate H|]). exact H.
Qed.
Print Assumptions C77_timeout_frees_queue_refuted.
