(* Property theorems C25-C29: package chancall.  [T] is the target object's methods, [o]
   its first state, [ls] any schedule of callers, handler, timers, clock and SetTimeout. *)
From Verif Require Import Lts GoInt GoFloat ChanModel ChanSpec ChanProof ChanProof2 ChanProof3 ChanProof4.
From Coq Require Import Arith Bool.
Open Scope nat_scope.

(* A counter with methods 0 (add the arguments, return the sum) and 1 (double it). *)
Definition counter : target nat nat := mkTarget (fun m => m <? 2)
  (fun o m args => if m =? 0 then Some (o + list_sum args, [o + list_sum args]) else Some (2 * o, [2 * o])).
(* goroutine g calls m on caller c and the request enters the queue *)
Definition put (g c m : nat) (args : list nat) : list (label nat) := [LCall g c m args; LEnqueue g].
(* the handler's path for one request *)
Definition serve : list (label nat) := [LPick; LEnd; LLock; LCheck; LDone; LRespond; LUnlock].
(* the timer's path *)
Definition expire (r : nat) : list (label nat) := [TSleep r; TLock r; TCheck r; TDone r; TRespond r; TRelease r].

(* C25 *)
Theorem C25_one_answer : forall O V (T : target O V) o ls s r, exec (cstep T) (new_chan o) ls = Some s ->
  length (answers r (hist s)) <= 1.
Proof. exact @one_answer. Qed.
Print Assumptions C25_one_answer.
(* the race: the timer's answer comes first, then the method's result is dropped; and the reverse *)
Example C25_case_timeout : exists s, exec (cstep counter) (new_chan 7)
  (put 0 0 0 [1; 2] ++ [LPick; TSleep 0; LTick 1000000000%Z; TLock 0; TCheck 0; LEnd; TDone 0; TRespond 0; TRelease 0; LLock; LCheck; LUnlock; LReceive 0]) = Some s /\
  answers 0 (hist s) = [ATimeout 0] /\ object s = 10.
Proof. eexists. split; [vm_compute; reflexivity|]. split; reflexivity. Qed.
Example C25_case_result : exists s, exec (cstep counter) (new_chan 7)
  (put 0 0 0 [1; 2] ++ [LPick; TSleep 0; LTick 1000000000%Z; LEnd; LLock; LCheck; LDone; LRespond; LUnlock; TLock 0; TCheck 0; TRelease 0]) = Some s /\
  answers 0 (hist s) = [AResult [10]].
Proof. eexists. split; [vm_compute; reflexivity|]. reflexivity. Qed.

(* C26: executions never overlap, begin in queue order, run at most once, and the object
   is what the calls applied one after the other make of it. *)
Theorem C26_one_at_a_time : forall O V (T : target O V) o ls s, exec (cstep T) (new_chan o) ls = Some s ->
  exists cur, serial None (hist s) = Some cur /\ started (hist s) = map fst (ended (hist s)) ++ match cur with Some r => [r] | None => [] end.
Proof. exact @serial_execution. Qed.
Print Assumptions C26_one_at_a_time.
Theorem C26_arrival_order : forall O V (T : target O V) o ls s, exec (cstep T) (new_chan o) ls = Some s ->
  exists rest, enqueued (hist s) = started (hist s) ++ rest /\ NoDup (enqueued (hist s)).
Proof. exact @arrival_order. Qed.
Print Assumptions C26_arrival_order.
Theorem C26_sequential_state : forall O V (T : target O V) o ls s, exec (cstep T) (new_chan o) ls = Some s ->
  replay T (hist s) o (ended (hist s)) (object s).
Proof. exact @replay_exec. Qed.
Print Assumptions C26_sequential_state.
Theorem C26_request_is_one_call : forall O V (T : target O V) o ls s r g c m args g' c' m' args',
  exec (cstep T) (new_chan o) ls = Some s ->
  In (EIssue r g c m args) (hist s) -> In (EIssue r g' c' m' args') (hist s) -> g = g' /\ c = c' /\ m = m' /\ args = args'.
Proof. exact @one_issue. Qed.
Print Assumptions C26_request_is_one_call.
Example C26_case : exists s, exec (cstep counter) (new_chan 7)
  ([LCall 0 0 0 [1]; LCall 1 1 1 []; LEnqueue 1; LEnqueue 0] ++ serve ++ serve) = Some s /\
  started (hist s) = [1; 0] /\ ended (hist s) = [(1, [14]); (0, [15])] /\ object s = 15.
Proof. eexists. split; [vm_compute; reflexivity|]. repeat split. Qed.

(* C27: [EReturn g r origin a]: goroutine g's call r received the answer a made for
   request [origin]. *)
Theorem C27_own_answer : forall O V (T : target O V) o ls s g r origin a,
  exec (cstep T) (new_chan o) ls = Some s -> one_goroutine_per_caller ls -> In (EReturn g r origin a) (hist s) ->
  origin = r /\ exists c m args, In (EIssue r g c m args) (hist s) /\
    match a with AResult l => In (EEnd r l) (hist s) | ATimeout m' => m' = m end.
Proof. exact @own_answer. Qed.
Print Assumptions C27_own_answer.
(* neither the handler nor a timer ever blocks on a response channel *)
Theorem C27_never_blocked : forall O V (T : target O V) o ls s,
  exec (cstep T) (new_chan o) ls = Some s -> one_goroutine_per_caller ls ->
  (forall r l, handler s = HSend r l -> crashed s = false -> cstep T s LRespond <> None) /\
  (forall r, timer s r = TSend -> crashed s = false -> cstep T s (TRespond r) <> None).
Proof. exact @never_blocked. Qed.
Print Assumptions C27_never_blocked.
(* a timed-out call followed by another on the same caller, the late result in between *)
Definition C27_late : list (label nat) :=
  put 0 0 0 [1] ++ [LPick; TSleep 0; LTick 1000000000%Z; TLock 0; TCheck 0; TDone 0; TRespond 0; TRelease 0; LReceive 0] ++
  put 0 0 1 [] ++ [LEnd; LLock; LCheck; LUnlock] ++ serve ++ [LReceive 0].
Ltac discipline := 
  let a := fresh "a" in let E := fresh "E" in let g' := fresh "g" in
  intros a ? ? ? ? ? E g'; vm_compute in E;
  repeat (destruct a as [|? a]; cbn [app] in E;
    [first [discriminate E | injection E as <- <- <- <- _; cbn; repeat match goal with |- context [match g' with _ => _ end] => destruct g' end; discriminate]
    |first [discriminate E | injection E as <- E]]).
Example C27_case : one_goroutine_per_caller C27_late /\ exists s, exec (cstep counter) (new_chan 7) C27_late = Some s /\
  In (EReturn 0 1 1 (AResult [16])) (hist s) /\ In (EReturn 0 0 0 (ATimeout 0)) (hist s).
Proof.
  split; [discipline|]. eexists. split; [vm_compute; reflexivity|].
  split; cbn; repeat first [left; reflexivity|right].
Qed.
(* with a caller object shared by two goroutines the answers are swapped *)
Definition C27_shared_caller : Prop := forall ls s g r origin a,
  exec (cstep counter) (new_chan 7) ls = Some s -> In (EReturn g r origin a) (hist s) -> origin = r.
Theorem C27_shared_caller_refuted : ~ C27_shared_caller.
Proof.
  intros H. concrete (cstep counter) (new_chan 7 : chan nat nat) (put 0 0 0 [1] ++ put 1 0 1 [] ++ serve ++ [LReceive 1]) s E.
  specialize (H _ _ 1 1 0 (AResult [8]) E). vm_compute in E. injection E as <-.
  assert (X : 0 = 1) by (apply H; cbn; repeat first [left; reflexivity|right]). discriminate X.
Qed.
Print Assumptions C27_shared_caller_refuted.

(* C28: [EStart r t0 x]: execution of r began at t0 under the float32 setting x. *)
Theorem C28_not_before_whole_seconds : forall O V (T : target O V) o ls s r m t t0 x k, exec (cstep T) (new_chan o) ls = Some s ->
  In (EStart r t0 x) (hist s) -> In (ERespond r (ATimeout m) t) (hist s) ->
  in_u 32 x -> f32_finite x -> truncated x k -> (-9223372036 <= k <= 9223372036)%Z -> (t0 + Z.max 0 (k * 1000000000) <= t)%Z.
Proof. exact @timeout_seconds. Qed.
Print Assumptions C28_not_before_whole_seconds.
Theorem C28_truncated_total : forall x, in_u 32 x -> f32_finite x -> exists! k, truncated x k.
Proof. exact truncated_total. Qed.
Print Assumptions C28_truncated_total.
(* the setting used is the last one made for that method by then, 1.0 when none was made
   or the name is unknown *)
Theorem C28_setting_used : forall O V (T : target O V) o ls s, exec (cstep T) (new_chan o) (ls ++ [LPick]) = Some s ->
  exists h r t g c m args, hist s = h ++ [EStart r t (if known T m then setting ls m else 0x3f800000%Z)] /\ In (EIssue r g c m args) h.
Proof. exact @pick_setting. Qed.
Print Assumptions C28_setting_used.
(* a setting that truncates to zero can fire at once, while the method runs *)
Theorem C28_zero_fires_at_once : forall O V (T : target O V) o ls s r q x k, exec (cstep T) (new_chan o) ls = Some s -> crashed s = false ->
  one_goroutine_per_caller ls -> handler s = HIdle -> queue s = r :: q ->
  x = (if known T (rq_method (reqs s r)) then setting ls (rq_method (reqs s r)) else 0x3f800000%Z) ->
  in_u 32 x -> f32_finite x -> truncated x k -> (-9223372036 <= k <= 0)%Z ->
  exists s', exec (cstep T) s [LPick; TSleep r; TLock r; TCheck r; TDone r; TRespond r] = Some s' /\ now s' = now s /\
    answers r (hist s') = [ATimeout (rq_method (reqs s r))] /\ handler s' = HRun r.
Proof. exact @zero_setting. Qed.
Print Assumptions C28_zero_fires_at_once.
Example C28_case : exists s, exec (cstep counter) (new_chan 7)
  ([LSetTimeout 0 0x40200000%Z] ++ put 0 0 0 [1] ++ [LTick 5%Z; LPick; TSleep 0; LTick 2000000000%Z; TLock 0; TCheck 0; TDone 0; TRespond 0]) = Some s /\
  In (EStart 0 5%Z 0x40200000%Z) (hist s) /\ In (ERespond 0 (ATimeout 0) 2000000005%Z) (hist s) /\
  in_u 32 0x40200000%Z /\ f32_finite 0x40200000%Z /\ truncated 0x40200000%Z 2.
Proof.
  eexists. split; [vm_compute; reflexivity|]. split; [cbn; repeat first [left; reflexivity|right]|].
  split; [cbn; repeat first [left; reflexivity|right]|]. split; [vm_compute; split; congruence|]. split; [vm_compute; discriminate|].
  vm_compute. intuition congruence.
Qed.
(* the second setting made for method 0 is the one used; method 1 has none *)
Example C28_setting_case : exists s, exec (cstep counter) (new_chan 7) ([LSetTimeout 0 0x40200000%Z; LSetTimeout 0 0x3f000000%Z] ++ put 0 0 0 [1] ++ [LPick]) = Some s /\
  setting ([LSetTimeout 0 0x40200000%Z; LSetTimeout 0 0x3f000000%Z] ++ put 0 0 0 [1]) 0 = 0x3f000000%Z /\ In (EStart 0 0%Z 0x3f000000%Z) (hist s) /\
  setting ([LSetTimeout 0 0x40200000%Z; LSetTimeout 0 0x3f000000%Z] ++ put 0 0 0 [1]) 1 = 0x3f800000%Z.
Proof. eexists. split; [vm_compute; reflexivity|]. split; [reflexivity|]. split; [vm_compute; intuition|reflexivity]. Qed.
(* a request waiting for a method with half a second *)
Example C28_zero_case : one_goroutine_per_caller ([LSetTimeout 0 0x3f000000%Z] ++ put 0 0 0 [1]) /\
  exists s, exec (cstep counter) (new_chan 7) ([LSetTimeout 0 0x3f000000%Z] ++ put 0 0 0 [1]) = Some s /\ crashed s = false /\ handler s = HIdle /\ queue s = [0] /\
  setting ([LSetTimeout 0 0x3f000000%Z] ++ put 0 0 0 [1]) (rq_method (reqs s 0)) = 0x3f000000%Z /\
  in_u 32 0x3f000000%Z /\ f32_finite 0x3f000000%Z /\ truncated 0x3f000000%Z 0.
Proof.
  split; [discipline|]. eexists. split; [vm_compute; reflexivity|]. do 4 (split; [vm_compute; reflexivity|]). split; [vm_compute; split; congruence|]. split; [vm_compute; discriminate|].
  vm_compute. intuition congruence.
Qed.
(* "not before the configured time" fails below one second, for fractions, and, by
   overflow, above 9223372036 seconds *)
Definition C28_never_early : Prop := forall ls s r m t t0 x, exec (cstep counter) (new_chan 7) ls = Some s ->
  In (EStart r t0 x) (hist s) -> In (ERespond r (ATimeout m) t) (hist s) -> in_u 32 x -> f32_finite x ->
  (t0 * 2 ^ 1074 + f32_scaled x * 1000000000 <= t * 2 ^ 1074)%Z.
Definition C28_early (x : Z) : list (label nat) := [LSetTimeout 0 x] ++ put 0 0 0 [1] ++ [LPick] ++ expire 0.
Theorem C28_half_second_refuted : ~ C28_never_early.
Proof.
  intros H. concrete (cstep counter) (new_chan 7 : chan nat nat) (C28_early 0x3f000000) s E.
  specialize (H _ _ 0 0 0%Z 0%Z 0x3f000000%Z E). vm_compute in E. injection E as <-.
  lapply H; [clear H; intros H|cbn; repeat first [left; reflexivity|right]].
  lapply H; [clear H; intros H|cbn; repeat first [left; reflexivity|right]].
  lapply H; [clear H; intros H|vm_compute; split; congruence]. lapply H; [clear H; intros H|vm_compute; discriminate].
  vm_compute in H. apply H. reflexivity.
Qed.
Print Assumptions C28_half_second_refuted.
Theorem C28_ten_billion_seconds_refuted : ~ C28_never_early.
Proof.
  intros H. concrete (cstep counter) (new_chan 7 : chan nat nat) (C28_early 0x501502f9) s E.
  specialize (H _ _ 0 0 0%Z 0%Z 0x501502f9%Z E). vm_compute in E. injection E as <-.
  lapply H; [clear H; intros H|cbn; repeat first [left; reflexivity|right]].
  lapply H; [clear H; intros H|cbn; repeat first [left; reflexivity|right]].
  lapply H; [clear H; intros H|vm_compute; split; congruence]. lapply H; [clear H; intros H|vm_compute; discriminate].
  vm_compute in H. apply H. reflexivity.
Qed.
Print Assumptions C28_ten_billion_seconds_refuted.

(* C29 *)
Theorem C29_stuck_behind : forall O V (T : target O V) o ls1 ls2 s1 s2 r, exec (cstep T) (new_chan o) ls1 = Some s1 ->
  handler s1 = HRun r -> exec (cstep T) s1 ls2 = Some s2 -> ~ In LEnd ls2 ->
  started (hist s2) = started (hist s1) /\ forall q, ~ In q (started (hist s1)) -> answers q (hist s2) = [].
Proof. exact @stuck_behind. Qed.
Print Assumptions C29_stuck_behind.
(* a method that runs for five seconds with another call waiting behind it *)
Example C29_stuck_case : exists s1 s2, exec (cstep counter) (new_chan 7) (put 0 0 0 [1] ++ put 1 1 0 [2] ++ [LPick]) = Some s1 /\ handler s1 = HRun 0 /\
  exec (cstep counter) s1 [TSleep 0; LTick 5000000000%Z; TLock 0; TCheck 0; TDone 0; TRespond 0; TRelease 0; LReceive 0] = Some s2 /\
  enqueued (hist s2) = [0; 1] /\ started (hist s1) = [0] /\ answers 0 (hist s2) = [ATimeout 0].
Proof. eexists. eexists. split; [vm_compute; reflexivity|]. split; [reflexivity|]. split; [vm_compute; reflexivity|]. repeat split. Qed.
(* "a call is answered within its timeout": when a request entered the queue more than
   the whole-second timeout ago and no timer has a step left, it has an answer *)
Definition C29_answered_in_time : Prop := forall ls1 ls2 s1 s2 r,
  exec (cstep counter) (new_chan 7) ls1 = Some s1 -> In r (enqueued (hist s1)) ->
  exec (cstep counter) (new_chan 7) (ls1 ++ ls2) = Some s2 -> (now s1 + 1000000000 < now s2)%Z ->
  (forall l, match l with LTick _ | LSetTimeout _ _ | LCall _ _ _ _ | LEnd => True | _ => cstep counter s2 l = None end) ->
  answers r (hist s2) <> [].
Theorem C29_answered_in_time_refuted : ~ C29_answered_in_time.
Proof.
  intros H. concrete (cstep counter) (new_chan 7 : chan nat nat) (put 0 0 0 [1] ++ put 1 1 0 [2] ++ [LPick]) s1 E1.
  concrete (cstep counter) (new_chan 7 : chan nat nat) ((put 0 0 0 [1] ++ put 1 1 0 [2] ++ [LPick]) ++
    [TSleep 0; LTick 5000000000%Z; TLock 0; TCheck 0; TDone 0; TRespond 0; TRelease 0; LReceive 0]) s2 E2.
  specialize (H _ [TSleep 0; LTick 5000000000%Z; TLock 0; TCheck 0; TDone 0; TRespond 0; TRelease 0; LReceive 0] s1 s2 1 E1). vm_compute in E1. injection E1 as <-.
  lapply H; [clear H; intros H|cbn; repeat first [left; reflexivity|right]].
  specialize (H E2). vm_compute in E2. injection E2 as <-.
  lapply H; [clear H; intros H|vm_compute; reflexivity].
  apply H; [|reflexivity]. intros l. destruct l as [| |g c m args|g|g| | | | | | | |r|r|r|r|r|r]; auto;
    try destruct g as [|[|g]]; try destruct r as [|[|r]]; reflexivity.
Qed.
Print Assumptions C29_answered_in_time_refuted.
(* As long as methods return, nothing gets stuck: when no step is left to any goroutine,
   every call has returned. *)
Theorem C29_all_calls_return : forall O V (T : target O V) o ls s, exec (cstep T) (new_chan o) ls = Some s ->
  one_goroutine_per_caller ls -> crashed s = false ->
  (forall l, match l with LTick _ | LSetTimeout _ _ | LCall _ _ _ _ => True | _ => cstep T s l = None end) ->
  forall g, gor s g = GIdle.
Proof. exact @quiet_all_returned. Qed.
Print Assumptions C29_all_calls_return.
Example C29_case : one_goroutine_per_caller (C27_late ++ [TSleep 1; LTick 1000000000%Z; TLock 1; TCheck 1; TRelease 1]) /\
  exists s, exec (cstep counter) (new_chan 7) (C27_late ++ [TSleep 1; LTick 1000000000%Z; TLock 1; TCheck 1; TRelease 1]) = Some s /\ crashed s = false /\
  forall l, match l with LTick _ | LSetTimeout _ _ | LCall _ _ _ _ => True | _ => cstep counter s l = None end.
Proof.
  split; [discipline|]. eexists. split; [vm_compute; reflexivity|]. split; [reflexivity|].
  intros l. destruct l as [| |g c m args|g|g| | | | | | | |r|r|r|r|r|r]; auto;
    try destruct g as [|[|g]]; try destruct r as [|[|r]]; reflexivity.
Qed.
