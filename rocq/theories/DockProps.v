(* Property theorems C36-C45 and C58-C60: the dock. *)
From Verif Require Import Lts GoVal Tables DockModel DockSpec DockProof DockProof2 DockProof3 DockProof4 DockProof5 DockProof6 DockProof7 DockProof8.
From Coq Require Import Arith Bool List ZArith.
Import ListNotations.
Open Scope nat_scope.

(* -- schedules used in the examples; values are numbers *)
Definition fa : name := [97]%Z. (* carried, discoverable *)
Definition fb : name := [98]%Z. (* carried, hidden *)
Definition fc : name := [99]%Z. (* carried by the dock at peer 1 *)
Definition mm : name := [109]%Z.
Definition D_carried : list (name * bool) := [(fb, true); (fa, true); (fb, false)].
Definition D_boot : list (label nat) :=
  [LDial true; LRun; LConnected 0; LAnnounce 0 [fa] true; LRecv 0 (KRegistered 5); HNet 0 true; HGo 0; HSend 0 [fa] true; HGo 0; TBegin 0; TStart 0 fb; TStart 0 fa].
Definition D_link : list (label nat) :=
  [LRecv 0 (KAddress [1]%Z); HNet 0 true; HGo 0; LConnected 1; LAnnounce 1 [fa] true; LRecv 1 (KRegister [fc]); HSend 1 [fa] true; HGo 1; HGo 1].
Definition D_ready : list (label nat) := [LRecv 1 (KReady [fc]); HGo 1; HPick 1 1000; HGo 1; HCommit 1 true; HGo 1; HGo 1].
Definition D_answer : list (label nat) := [LRecv 1 (KResponse (mkResp 1000 fc mm [8; 9] [])); BStep 0; CStep 0 true; CStep 0 true; BStep 0].
Definition D_call : list (label nat) := [LCall fc mm [7] true 1000; CStep 0 true; CStep 0 true].
Definition D_serve : list (label nat) :=
  [LRecv 1 (KRequest (mkReq 5 fb mm [1; 2] true)); LRecv 1 (KRequest (mkReq 6 fc mm [1; 2] true)); SExec 0 [3] (Some [101]%Z); SSend 0 true].
Definition D_close : list (label nat) := [LClose; LDestroy fa; LDestroy fb; KStep; KStep; KStep; KStep; KStep].
Definition D_all := D_boot ++ D_call ++ D_link ++ D_ready ++ D_answer ++ D_serve ++ D_close.

(* -- C36 *)
Theorem C36_call : forall V carried ls (d : dock V) f m args w clock, exec dstep (new_dock carried) ls = Some d -> state d = Alive ->
  exists d', dstep d (LCall f m args w clock) = Some d' /\
    ((~ cleared (hist d) /\ In f (map fst carried) /\ hist d' = hist d ++ [ELocal f m args w] /\ rpcs d' = rpcs d /\ calls d' = calls d) \/
     ((cleared (hist d) \/ ~ In f (map fst carried)) /\ hist d' = hist d ++ [ENew (length (calls d)) (mkReq clock f m args w)] /\
        zget (rpcs d') clock = Some (length (calls d)) /\ length (calls d') = S (length (calls d)))).
Proof. exact @call_step. Qed.
Print Assumptions C36_call.
Theorem C36_local_calls_are_of_carried_features : forall V carried ls (d : dock V) a f m args w b,
  exec dstep (new_dock carried) ls = Some d -> hist d = a ++ ELocal f m args w :: b -> ~ cleared a /\ In f (map fst carried).
Proof. exact @local_event. Qed.
Print Assumptions C36_local_calls_are_of_carried_features.
Theorem C36_remote_calls_are_of_other_features : forall V carried ls (d : dock V) a c q b,
  exec dstep (new_dock carried) ls = Some d -> hist d = a ++ ENew c q :: b -> cleared a \/ ~ In (q_slot q) (map fst carried).
Proof. exact @new_event. Qed.
Print Assumptions C36_remote_calls_are_of_other_features.
Example C36_case : exists d, exec dstep (new_dock D_carried) (D_boot ++ [LCall fb mm [4] false 77; LCall fc mm [4] false 78]) = Some d /\
  state d = Alive /\ In (ELocal fb mm [4] false) (hist d) /\ requests (hist d) = [mkReq 78 fc mm [4] false] /\ map fst (rpcs d) = [78%Z].
Proof. eexists. split; [vm_compute; reflexivity|]. vm_compute. intuition. Qed.

(* -- C37 *)
Theorem C37_announcements : forall V carried ls (d : dock V) a p k ns acc b, exec dstep (new_dock carried) ls = Some d ->
  hist d = a ++ ESend p k acc :: b -> (k = KRegister ns \/ k = KReady ns) ->
  (~ cleared a -> NoDup ns /\ forall f, In f ns <-> carries carried f true) /\ (cleared a -> ns = []).
Proof. exact @announce_event. Qed.
Print Assumptions C37_announcements.
Example C37_case : exists d, exec dstep (new_dock D_carried) (D_boot ++ D_link) = Some d /\
  In (ESend 0 (KRegister [fa]) true) (hist d) /\ In (ESend 0 (KReady [fa]) true) (hist d) /\ In (ESend 1 (KReady [fa]) true) (hist d) /\
  carries D_carried fa true /\ carries D_carried fb false.
Proof.
  eexists. split; [vm_compute; reflexivity|]. split; [vm_compute; intuition|]. split; [vm_compute; intuition|]. split; [vm_compute; intuition|]. split.
  - exists [(fb, true)], [(fb, false)]. split; [reflexivity|]. cbn. intuition discriminate.
  - exists [(fb, true); (fa, true)], []. split; [reflexivity|]. intros [].
Qed.

(* -- C38 *)
Theorem C38_sent_at_most_once : forall V carried ls (d : dock V) c, exec dstep (new_dock carried) ls = Some d -> length (commits c (hist d)) <= 1.
Proof. exact @commit_once. Qed.
Print Assumptions C38_sent_at_most_once.
Theorem C38_sent_unchanged_to_the_latest_announcer : forall V carried ls (d : dock V) a c p acc b, exec dstep (new_dock carried) ls = Some d ->
  hist d = a ++ ECommit c p acc :: b ->
  exists q b', In (ENew c q) a /\ b = ESend p (KRequest q) acc :: b' /\ latest (q_slot q) a p /\ exists sl, In (ERecv p (KRegister sl)) a /\ In (q_slot q) sl.
Proof. exact @commit_spec. Qed.
Print Assumptions C38_sent_unchanged_to_the_latest_announcer.
Theorem C38_no_other_requests : forall V carried ls (d : dock V) a p q acc b, exec dstep (new_dock carried) ls = Some d ->
  hist d = a ++ ESend p (KRequest q) acc :: b -> exists a' c, a = a' ++ [ECommit c p acc].
Proof. exact @send_event. Qed.
Print Assumptions C38_no_other_requests.
Theorem C38_recorded_only_if_announced : forall V carried ls (d : dock V) a f p b, exec dstep (new_dock carried) ls = Some d ->
  hist d = a ++ ECached f p :: b -> exists sl, In (ERecv p (KRegister sl)) a /\ In f sl.
Proof. exact @cached_event. Qed.
Print Assumptions C38_recorded_only_if_announced.
Example C38_case : exists d, exec dstep (new_dock D_carried) (D_boot ++ D_call ++ D_link ++ D_ready) = Some d /\
  commits 0 (hist d) = [1] /\ In (ESend 1 (KRequest (mkReq 1000 fc mm [7] true)) true) (hist d) /\ In (EQuery SHub fc) (hist d).
Proof. eexists. split; [vm_compute; reflexivity|]. vm_compute. intuition. Qed.

(* -- C39 *)
Theorem C39_returns_through_a_response : forall V carried ls (d : dock V) a c x b, exec dstep (new_dock carried) ls = Some d ->
  hist d = a ++ EReturn c x :: b ->
  exists q p r, In (ENew c q) a /\ In (ERecv p (KResponse r)) a /\ p_index r = q_index q /\ delivers r x.
Proof. exact @return_spec. Qed.
Print Assumptions C39_returns_through_a_response.
Theorem C39_returns_once : forall V carried ls (d : dock V) c, exec dstep (new_dock carried) ls = Some d -> length (returns c (hist d)) <= 1.
Proof. exact @return_once. Qed.
Print Assumptions C39_returns_once.
Theorem C39_own_answer : forall V carried ls (d : dock V) a c x b, exec dstep (new_dock carried) ls = Some d ->
  NoDup (map q_index (requests (hist d))) -> honest (hist d) -> hist d = a ++ EReturn c x :: b ->
  exists q p r, In (ENew c q) a /\ In (ERecv p (KResponse r)) a /\ delivers r x /\
    p_index r = q_index q /\ p_slot r = q_slot q /\ p_method r = q_method q.
Proof. exact @own_answer. Qed.
Print Assumptions C39_own_answer.
Theorem C39_one_call_per_identifier : forall V carried ls (d : dock V) c q c' q', exec dstep (new_dock carried) ls = Some d ->
  NoDup (map q_index (requests (hist d))) -> In (ENew c q) (hist d) -> In (ENew c' q') (hist d) -> q_index q = q_index q' -> c = c' /\ q = q'.
Proof. exact @call_unique. Qed.
Print Assumptions C39_one_call_per_identifier.
Example C39_case : exists d, exec dstep (new_dock D_carried) (D_boot ++ D_call ++ D_link ++ D_ready ++ D_answer) = Some d /\
  returns 0 (hist d) = [mkRet [8; 9] None] /\ rpcs d = [] /\ map q_index (requests (hist d)) = [1000%Z] /\
  honest (hist d).
Proof.
  eexists. split; [vm_compute; reflexivity|]. split; [reflexivity|]. split; [reflexivity|]. split; [reflexivity|].
  intros p r H. cbn in H. exists 0, (mkReq 1000 fc mm [7] true). repeat (destruct H as [H|H]; [try discriminate H; injection H as <- <-; vm_compute; intuition|]). destruct H.
Qed.
(* without distinct identifiers a caller gets the answer to another call: calls of fc.m and fc.n at one clock reading *)
Definition nn : name := [110]%Z.
Definition D_swap : list (label nat) :=
  [LDial true; LRun; LConnected 1; LRecv 1 (KRegister [fc]); HSend 1 [] true; HGo 1; HGo 1;
   LCall fc mm [7] true 1000; CStep 0 true; CStep 0 true; LCall fc nn [7] true 1000; CStep 1 true; CStep 1 true;
   LRecv 1 (KResponse (mkResp 1000 fc mm [8] [])); BStep 0; CStep 1 true; CStep 1 true].
Theorem C39_identifier_collision_refuted : ~ (forall carried ls (d : dock nat) c x, exec dstep (new_dock carried) ls = Some d -> honest (hist d) ->
  In (EReturn c x) (hist d) -> exists q p r, In (ENew c q) (hist d) /\ In (ERecv p (KResponse r)) (hist d) /\ delivers r x /\ p_method r = q_method q).
Proof.
  intros H. concrete (@dstep nat) (@new_dock nat []) D_swap s E. specialize (H [] D_swap s 1 (mkRet [8] None) E). vm_compute in E. injection E as <-. cbn [hist] in H.
  destruct H as (q & p & r & A & B & _ & M).
  - intros p r X. exists 0, (mkReq 1000 fc mm [7] true). repeat (destruct X as [X|X]; [try discriminate X; injection X as <- <-; vm_compute; intuition|]). destruct X.
  - vm_compute. intuition.
  - repeat (destruct B as [B|B]; [try discriminate B; injection B as <- <-|]); try destruct B.
    repeat (destruct A as [A|A]; [try discriminate A; try (injection A as <-; discriminate M)|]). destruct A.
Qed.
Print Assumptions C39_identifier_collision_refuted.
(* ... and the call whose identifier was taken over before any answer never returns *)
Theorem C39_overtaken_call_never_returns : forall V carried ls (d : dock V) c q f m args w d1 ls' d2,
  exec dstep (new_dock carried) ls = Some d -> In (ENew c q) (hist d) ->
  (forall p r, In (ERecv p (KResponse r)) (hist d) -> p_index r <> q_index q) ->
  dstep d (LCall f m args w (q_index q)) = Some d1 -> length (calls d1) = S (length (calls d)) -> exec dstep d1 ls' = Some d2 ->
  returns c (hist d2) = [].
Proof. exact @overtaken. Qed.
Print Assumptions C39_overtaken_call_never_returns.
Example C39_overtaken_case : exists d d1, exec dstep (new_dock []) (firstn 10 D_swap) = Some d /\ In (ENew 0 (mkReq 1000 fc mm [7] true)) (hist d) /\
  responses (hist d) = [] /\ dstep d (LCall fc nn [7] true 1000) = Some d1 /\ length (calls d1) = S (length (calls d)).
Proof. eexists. eexists. split; [vm_compute; reflexivity|]. split; [vm_compute; intuition|]. split; [reflexivity|]. split; [vm_compute; reflexivity|reflexivity]. Qed.

(* -- C40 *)
Theorem C40_at_most_one_execution_and_reply : forall V carried ls (d : dock V) k, exec dstep (new_dock carried) ls = Some d ->
  length (runs k (hist d)) <= 1 /\ replies k (hist d) <= length (runs k (hist d)) /\
  (length (accepted (map fst carried) (hist d)) <= k -> runs k (hist d) = []).
Proof. exact @serve_bounds. Qed.
Print Assumptions C40_at_most_one_execution_and_reply.
Theorem C40_reply : forall V carried ls (d : dock V) a k acc b, exec dstep (new_dock carried) ls = Some d -> hist d = a ++ EReplied k acc :: b ->
  exists p q res err r b', nth_error (accepted (map fst carried) a) k = Some (p, q) /\ runs k a = [(res, err)] /\
    b = ESend p (KResponse r) acc :: b' /\ answers q res err r.
Proof. exact @reply_spec. Qed.
Print Assumptions C40_reply.
Theorem C40_no_other_responses : forall V carried ls (d : dock V) a p r acc b, exec dstep (new_dock carried) ls = Some d ->
  hist d = a ++ ESend p (KResponse r) acc :: b -> exists a' k, a = a' ++ [EReplied k acc].
Proof. exact @response_event. Qed.
Print Assumptions C40_no_other_responses.
Theorem C40_never_stuck : forall V carried ls (d : dock V) k, exec dstep (new_dock carried) ls = Some d -> state d = Alive ->
  k < length (accepted (map fst carried) (hist d)) -> replies k (hist d) = 0 ->
  (runs k (hist d) = [] /\ forall res err, exists d', dstep d (SExec k res err) = Some d') \/
  (exists res err, runs k (hist d) = [(res, err)] /\ forall acc, exists d', dstep d (SSend k acc) = Some d').
Proof. exact @reply_progress. Qed.
Print Assumptions C40_never_stuck.
(* two requests arrive, one for a feature not carried; the hidden feature is served *)
Example C40_case : exists d, exec dstep (new_dock D_carried) (D_boot ++ D_serve) = Some d /\
  accepted (map fst D_carried) (hist d) = [(1, mkReq 5 fb mm [1; 2] true)] /\ runs 0 (hist d) = [([3], Some [101]%Z)] /\ replies 0 (hist d) = 1 /\
  In (ESend 1 (KResponse (mkResp 5 fb mm [3] [101]%Z)) true) (hist d).
Proof. eexists. split; [vm_compute; reflexivity|]. vm_compute. intuition. Qed.

(* -- C41 *)
Definition D_twice : list (label nat) :=
  [LDial true; LRun; LConnected 1; LRecv 1 (KRegister [fc]); HSend 1 [] true; HGo 1; HGo 1; LCall fc mm [7] true 1000; CStep 0 true; CStep 0 true;
   LRecv 1 (KResponse (mkResp 1000 fc mm [8] [])); LRecv 1 (KResponse (mkResp 1000 fc mm [8] [])); BStep 0; CStep 0 true; CStep 0 true; BStep 1].
Theorem C41_packets_never_crash_refuted : ~ (forall carried ls (d : dock nat), exec dstep (new_dock carried) ls = Some d -> state d <> Crashed ClosedChannel).
Proof. intros H. concrete (@dstep nat) (@new_dock nat []) D_twice s E. apply (H [] D_twice s E). vm_compute in E. injection E as <-. reflexivity. Qed.
Print Assumptions C41_packets_never_crash_refuted.
Theorem C41_no_crash_without_duplicates : forall V carried ls (d : dock V), exec dstep (new_dock carried) ls = Some d ->
  NoDup (map p_index (responses (hist d))) -> state d <> Crashed ClosedChannel.
Proof. exact @closed_crash. Qed.
Print Assumptions C41_no_crash_without_duplicates.
Example C41_case : exists d, exec dstep (new_dock D_carried) D_all = Some d /\ map p_index (responses (hist d)) = [1000%Z] /\ state d = Alive.
Proof. eexists. split; [vm_compute; reflexivity|]. split; reflexivity. Qed.

(* -- C42 *)
(* the caller has set its request, a ready-handler sees it and commits, then the caller commits *)
Definition D_race : list (label nat) :=
  [LDial true; LRun; LConnected 1; LRecv 1 (KRegister [fc]); HSend 1 [] true; HGo 1; HGo 1; LRecv 1 (KReady [fc]);
   LCall fc mm [7] true 1000; CStep 0 true; HGo 1; HPick 1 1000; HGo 1; HCommit 1 true; CStep 0 true].
(* two ready-handlers, the caller waiting *)
Definition D_race2 : list (label nat) :=
  [LDial true; LRun; LCall fc mm [7] true 1000; CStep 0 true; CStep 0 true; LConnected 1; LRecv 1 (KRegister [fc]); HSend 1 [] true; HGo 1; HGo 1;
   LRecv 1 (KReady [fc]); LRecv 2 (KReady [fc]); HGo 1; HGo 2; HPick 1 1000; HPick 2 1000; HGo 1; HGo 2; HCommit 1 true; HCommit 2 true].
Theorem C42_commit_never_crashes_refuted : ~ (forall carried ls (d : dock nat), exec dstep (new_dock carried) ls = Some d -> state d <> Crashed NilRequest).
Proof. intros H. concrete (@dstep nat) (@new_dock nat []) D_race s E. apply (H [] D_race s E). vm_compute in E. injection E as <-. reflexivity. Qed.
Print Assumptions C42_commit_never_crashes_refuted.
Theorem C42_two_handlers_refuted : ~ (forall carried ls (d : dock nat), exec dstep (new_dock carried) ls = Some d ->
  (forall ls1 ls2 d1, ls = ls1 ++ ls2 -> exec dstep (new_dock carried) ls1 = Some d1 -> forall c p, window c (handlers d1 p) -> ~ at_set c d1) -> state d <> Crashed NilRequest).
Proof.
  intros H. concrete (@dstep nat) (@new_dock nat []) D_race2 s E. apply (H [] D_race2 s E).
  - intros ls1 ls2 d1 El E1 c p W (r & A & B). clear H E s.
    assert (L : exists n, n <= 20 /\ ls1 = firstn n D_race2).
    { exists (length ls1). rewrite El, firstn_app, firstn_all, PeanoNat.Nat.sub_diag. cbn. rewrite app_nil_r. split; [|reflexivity].
      assert (X : length D_race2 = length ls1 + length ls2) by (rewrite El; apply app_length). cbn in X. lia. }
    destruct L as (n & Ln & ->).
    do 21 (destruct n as [|n]; [vm_compute in E1; injection E1 as <-; cbn in W, A;
      try (do 3 (destruct p as [|p]; [try contradiction W; try (cbn in W; subst c; cbn in A; injection A as <-; discriminate B)|]); contradiction W)|]). lia.
  - vm_compute in E. injection E as <-. reflexivity.
Qed.
Print Assumptions C42_two_handlers_refuted.
Theorem C42_serialised_commits_never_crash : forall V carried ls (d : dock V),
  (forall ls1 ls2 d1, ls = ls1 ++ ls2 -> exec dstep (new_dock carried) ls1 = Some d1 -> serial d1) ->
  exec dstep (new_dock carried) ls = Some d -> state d <> Crashed NilRequest.
Proof. exact @no_race. Qed.
Print Assumptions C42_serialised_commits_never_crash.
(* a serial schedule in which a handler does commit *)
Example C42_case : exists d, exec dstep (new_dock D_carried) (D_boot ++ D_call ++ D_link ++ D_ready) = Some d /\ commits 0 (hist d) = [1] /\
  (forall ls1 ls2 d1, D_boot ++ D_call ++ D_link ++ D_ready = ls1 ++ ls2 -> exec dstep (new_dock D_carried) ls1 = Some d1 -> serial d1).
Proof.
  eexists. split; [vm_compute; reflexivity|]. split; [reflexivity|]. intros ls1 ls2 d1 El E1 c.
  set (all := D_boot ++ D_call ++ D_link ++ D_ready) in *.
  assert (L : exists n, n <= 31 /\ ls1 = firstn n all).
  { exists (length ls1). rewrite El, firstn_app, firstn_all, PeanoNat.Nat.sub_diag. cbn. rewrite app_nil_r. split; [|reflexivity].
    assert (X : length all = length ls1 + length ls2) by (rewrite El; apply app_length). cbn in X. lia. }
  destruct L as (n & Ln & ->). clear El.
  do 32 (destruct n as [|n]; [vm_compute in E1; injection E1 as <-; (split;
    [intros p p' W W'; cbn in W, W'; do 2 (destruct p as [|p]; [try contradiction W|]); do 2 (destruct p' as [|p']; [try contradiction W'|]); try reflexivity; try contradiction W; contradiction W'
    |intros p W (r & A & B); cbn in W, A; do 2 (destruct p as [|p]; [try contradiction W; try (cbn in W; subst c; cbn in A; injection A as <-; discriminate B)|]); contradiction W])|]). lia.
Qed.

(* -- C43 *)
Theorem C43_queries_go_to_the_first_socket : forall V carried ls (d : dock V) a k f b, exec dstep (new_dock carried) ls = Some d ->
  hist d = a ++ EQuery k f :: b -> exists t, since a = k :: t.
Proof. exact @query_event. Qed.
Print Assumptions C43_queries_go_to_the_first_socket.
Definition D_late : list (label nat) :=
  [LDial true; LConnected 0; LRecv 0 (KRegistered 5); HNet 0 true; HGo 0; LRun; LCall fc mm [7] true 1000; CStep 0 true; CStep 0 true].
Theorem C43_queries_go_to_the_hub_refuted : ~ (forall carried ls (d : dock nat) k f, exec dstep (new_dock carried) ls = Some d -> In (EQuery k f) (hist d) -> k = SHub).
Proof.
  intros H. concrete (@dstep nat) (@new_dock nat []) D_late s E. specialize (H [] D_late s (SListen 5) fc E). vm_compute in E. injection E as <-.
  assert (X : SListen 5 = SHub) by (apply H; vm_compute; intuition). discriminate X.
Qed.
Print Assumptions C43_queries_go_to_the_hub_refuted.
Theorem C43_wrong_in_every_continuation : forall V carried ls (d : dock V) k t a k' f b, exec dstep (new_dock carried) ls = Some d ->
  forall ls' d', since (hist d) = k :: t -> exec dstep d ls' = Some d' -> hist d' = hist d ++ a ++ EQuery k' f :: b -> ~ In EClosed a -> k' = k.
Proof. exact @same_queries. Qed.
Print Assumptions C43_wrong_in_every_continuation.
Theorem C43_hub_if_run_finished_first : forall V carried ls (d : dock V) a k f b, exec dstep (new_dock carried) ls = Some d ->
  hist d = a ++ EQuery k f :: b -> ~ In EClosed a ->
  (forall a' p pk b', hist d = a' ++ ERecv p pk :: b' -> In (ESocket SHub) a') -> k = SHub.
Proof. exact @hub_first. Qed.
Print Assumptions C43_hub_if_run_finished_first.
Example C43_case : exists d h, exec dstep (new_dock D_carried) (D_boot ++ D_call ++ D_link) = Some d /\ In (EQuery SHub fc) (hist d) /\
  hist d = ESocket SHub :: h /\ In (ESocket (SListen 5)) h.
Proof. eexists. eexists. split; [vm_compute; reflexivity|]. split; [vm_compute; intuition|]. split; [reflexivity|vm_compute; intuition]. Qed.
(* the dock of D_late before its call: the first socket is the listening one, and the query of the call goes there *)
Example C43_continuation_case : exists d d' a, exec dstep (new_dock []) (firstn 6 D_late) = Some d /\ since (hist d) = [SListen 5; SHub] /\
  exec dstep d (skipn 6 D_late) = Some d' /\ hist d' = hist d ++ a ++ EQuery (SListen 5) fc :: [] /\ ~ In EClosed a.
Proof.
  eexists. eexists. eexists [_]. split; [vm_compute; reflexivity|]. split; [reflexivity|]. split; [vm_compute; reflexivity|]. split; [vm_compute; reflexivity|].
  vm_compute. intuition discriminate.
Qed.
(* every packet of D_boot ++ D_call ++ D_link comes after the socket to the hub *)
Example C43_hub_first_case : exists d, exec dstep (new_dock D_carried) (D_boot ++ D_call ++ D_link) = Some d /\ ~ In EClosed (hist d) /\
  forall a p k b, hist d = a ++ ERecv p k :: b -> In (ESocket SHub) a.
Proof.
  eexists. split; [vm_compute; reflexivity|]. cbn [hist]. split; [vm_compute; intuition discriminate|].
  intros [|e a] p k b H; [discriminate H|]. injection H as <- _. left. reflexivity.
Qed.

(* -- C44 *)
Theorem C44_started_once_after_registration : forall V carried ls (d : dock V) j, exec dstep (new_dock carried) ls = Some d ->
  NoDup (started j (hist d)) /\ incl (started j (hist d)) (map fst carried) /\ (started j (hist d) <> [] -> j < registered (hist d)).
Proof. exact @start_spec. Qed.
Print Assumptions C44_started_once_after_registration.
Theorem C44_one_start_per_reply : forall V carried ls (d : dock V), exec dstep (new_dock carried) ls = Some d -> length (starters d) <= registered (hist d).
Proof. exact @starts_bound. Qed.
Print Assumptions C44_one_start_per_reply.
Theorem C44_all_started : forall V carried ls (d : dock V) j, exec dstep (new_dock carried) ls = Some d ->
  nth_error (starters d) j = Some (TRun []) -> ~ cleared (hist d) -> forall f, In f (started j (hist d)) <-> In f (map fst carried).
Proof. exact @start_done. Qed.
Print Assumptions C44_all_started.
Theorem C44_start_never_stuck : forall V carried ls (d : dock V) j, exec dstep (new_dock carried) ls = Some d -> state d = Alive -> j < length (starters d) ->
  nth_error (starters d) j = Some (TRun []) \/ exists l d', dstep d l = Some d' /\ (l = TBegin j \/ exists f, l = TStart j f).
Proof. exact @start_progress. Qed.
Print Assumptions C44_start_never_stuck.
Theorem C44_destroyed_once : forall V carried ls (d : dock V), exec dstep (new_dock carried) ls = Some d ->
  NoDup (destroyed (hist d)) /\ incl (destroyed (hist d)) (map fst carried) /\ (cleared (hist d) -> forall f, In f (map fst carried) -> In f (destroyed (hist d))).
Proof. exact @destroy_spec. Qed.
Print Assumptions C44_destroyed_once.
Theorem C44_destroyed_before_cleared : forall V carried ls (d : dock V) a b, exec dstep (new_dock carried) ls = Some d ->
  hist d = a ++ ECleared :: b -> (forall f, In f (map fst carried) -> In f (destroyed a)) /\ destroyed b = [].
Proof. exact @destroy_before_clear. Qed.
Print Assumptions C44_destroyed_before_cleared.
Theorem C44_sockets_closed_in_reverse : forall V carried ls (d : dock V) a b c, exec dstep (new_dock carried) ls = Some d ->
  hist d = a ++ ECleared :: b ++ EClosed :: c -> ~ In ECleared b -> ~ In EClosed b -> shut b = rev (since a).
Proof. exact @close_event. Qed.
Print Assumptions C44_sockets_closed_in_reverse.
Theorem C44_sockets_closed_only_by_close : forall V carried ls (d : dock V) a k b, exec dstep (new_dock carried) ls = Some d ->
  hist d = a ++ ESockClosed k :: b -> exists a1 a2, a = a1 ++ ECleared :: a2 /\ ~ In EClosed a2.
Proof. exact @shut_event. Qed.
Print Assumptions C44_sockets_closed_only_by_close.
(* closed, closed again, and a request after that *)
Example C44_case : exists d, exec dstep (new_dock D_carried) (D_all ++ [LClose; KStep; KStep; LRecv 1 (KRequest (mkReq 9 fb mm [1] true))]) = Some d /\
  started 0 (hist d) = [fb; fa] /\ registered (hist d) = 1 /\ destroyed (hist d) = [fa; fb] /\ shut (hist d) = [SDial [1]%Z; SListen 5; SHub] /\
  length (accepted (map fst D_carried) (hist d)) = 1 /\ length (servers d) = 1 /\ state d = Alive.
Proof. eexists. split; [vm_compute; reflexivity|]. vm_compute. intuition. Qed.
(* before the close: the goroutine that starts the features has started both *)
Example C44_started_case : exists d, exec dstep (new_dock D_carried) D_boot = Some d /\ nth_error (starters d) 0 = Some (TRun []) /\ ~ cleared (hist d) /\
  started 0 (hist d) = [fb; fa].
Proof. eexists. split; [vm_compute; reflexivity|]. split; [reflexivity|]. split; [vm_compute; intuition discriminate|reflexivity]. Qed.
(* a socket opened while Close is under way is never closed *)
Definition D_leak : list (label nat) :=
  [LDial true; LRun; LRecv 0 (KAddress [1]%Z); HNet 0 true; LClose; KStep; HGo 0; KStep; KStep; LClose; KStep; KStep].
Theorem C44_every_socket_closed_refuted : ~ (forall carried ls (d : dock nat) k, exec dstep (new_dock carried) ls = Some d ->
  In (ESocket k) (hist d) -> In EClosed (hist d) -> closer d = KIdle -> In (ESockClosed k) (hist d) \/ In k (sockets d)).
Proof.
  intros H. concrete (@dstep nat) (@new_dock nat []) D_leak s E. specialize (H [] D_leak s (SDial [1]%Z) E). vm_compute in E. injection E as <-.
  destruct H as [H|H]; try reflexivity; vm_compute in *; intuition discriminate.
Qed.
Print Assumptions C44_every_socket_closed_refuted.

(* -- C45 *)
Theorem C45_dropped_request_is_never_sent : forall V carried ls (d : dock V) c q p, exec dstep (new_dock carried) ls = Some d ->
  NoDup (map q_index (requests (hist d))) -> In (ENew c q) (hist d) -> In (ECommit c p false) (hist d) ->
  forall p' q', q_index q' = q_index q -> ~ In (ESend p' (KRequest q') true) (hist d).
Proof. exact @dropped. Qed.
Print Assumptions C45_dropped_request_is_never_sent.
Theorem C45_dropped_request_hangs : forall V carried ls (d : dock V) c q p, exec dstep (new_dock carried) ls = Some d ->
  NoDup (map q_index (requests (hist d))) -> In (ENew c q) (hist d) -> In (ECommit c p false) (hist d) -> solicited (hist d) -> returns c (hist d) = [].
Proof. exact @hangs. Qed.
Print Assumptions C45_dropped_request_hangs.
Theorem C45_dropped_response_is_never_sent : forall V carried ls (d : dock V) k, exec dstep (new_dock carried) ls = Some d ->
  In (EReplied k false) (hist d) -> ~ In (EReplied k true) (hist d).
Proof. exact @dropped_reply. Qed.
Print Assumptions C45_dropped_response_is_never_sent.
(* the call is marked as sent: the Ready that follows does not send it again *)
Example C45_case : exists d, exec dstep (new_dock [])
    [LDial true; LRun; LConnected 1; LRecv 1 (KRegister [fc]); HSend 1 [] true; HGo 1; HGo 1; LCall fc mm [7] true 1000; CStep 0 true; CStep 0 false;
     LRecv 1 (KReady [fc]); HGo 1; HPick 1 1000; HGo 1; HGo 1] = Some d /\ In (ECommit 0 1 false) (hist d) /\
  map q_index (requests (hist d)) = [1000%Z] /\ responses (hist d) = [] /\ handlers d 1 = HIdle.
Proof. eexists. split; [vm_compute; reflexivity|]. vm_compute. intuition. Qed.
(* a response dropped at a full queue *)
Example C45_response_case : exists d, exec dstep (new_dock D_carried) (D_boot ++ [LRecv 1 (KRequest (mkReq 5 fb mm [1; 2] true)); SExec 0 [3] None; SSend 0 false]) = Some d /\
  In (EReplied 0 false) (hist d) /\ dstep d (SSend 0 true) = None.
Proof. eexists. split; [vm_compute; reflexivity|]. split; [vm_compute; intuition|reflexivity]. Qed.

(* -- C58 *)
Theorem C58_call_after_close_crashes : forall V carried ls (d : dock V) a b f m args w t acc acc', exec dstep (new_dock carried) ls = Some d ->
  state d = Alive -> hist d = a ++ EClosed :: b -> opened b = [] -> (forall p, ~ In (ECached f p) (hist d)) ->
  exists d', exec dstep d [LCall f m args w t; CStep (length (calls d)) acc; CStep (length (calls d)) acc'] = Some d' /\ state d' = Crashed NoSocket.
Proof. exact @after_close. Qed.
Print Assumptions C58_call_after_close_crashes.
Example C58_case : exists d a, exec dstep (new_dock D_carried) D_all = Some d /\ state d = Alive /\ hist d = a ++ [EClosed] /\ forall p, ~ In (ECached fa p) (hist d).
Proof.
  eexists. eexists. split; [vm_compute; reflexivity|]. split; [reflexivity|]. cbn [hist]. split.
  - match goal with |- ?l = _ => change l with (removelast l ++ [EClosed]) end. reflexivity.
  - intros p. vm_compute. intuition discriminate.
Qed.

(* -- C59 *)
Theorem C59_unreachable_address_ends_the_dock : forall V (d : dock V) p addr, state d = Alive -> handlers d p = HIdle ->
  exists d', exec dstep d [LRecv p (KAddress addr); HNet p false] = Some d' /\ state d' = Exited.
Proof. exact @unreachable. Qed.
Print Assumptions C59_unreachable_address_ends_the_dock.
Theorem C59_ended_docks_do_nothing : forall V (d : dock V) ls d', state d <> Alive -> exec dstep d ls = Some d' -> d' = d.
Proof. exact @dead_stays. Qed.
Print Assumptions C59_ended_docks_do_nothing.
Example C59_case : exists d, exec dstep (new_dock D_carried) (D_boot ++ D_call) = Some d /\ state d = Alive /\ handlers d 0 = HIdle /\ calls d <> [].
Proof. eexists. split; [vm_compute; reflexivity|]. repeat split; discriminate. Qed.

(* -- C60 *)
Theorem C60_ready_wakes_every_pending_call : forall V carried ls0 (d0 : dock V) p f sl i c r q d1 ls d2, exec dstep (new_dock carried) ls0 = Some d0 ->
  handlers d0 p = RNext (f :: sl) -> zget (rpcs d0) i = Some c -> nth_error (calls d0) c = Some r -> c_req r = Some q -> q_slot q = f ->
  dstep d0 (HGo p) = Some d1 -> exec dstep d1 ls = Some d2 -> handlers d2 p = RNext sl ->
  (forall ls1 ls2 d', ls = ls1 ++ ls2 -> ls2 <> [] -> exec dstep d1 ls1 = Some d' -> handlers d' p <> RNext sl) ->
  zget (rpcs d2) i = Some c -> commits c (hist d2) <> [] \/ exists e k, hist d2 = hist d0 ++ e /\ In (EQuery k f) e.
Proof. exact @woken. Qed.
Print Assumptions C60_ready_wakes_every_pending_call.
Example C60_case : exists d0 d1 d2 r, exec dstep (new_dock D_carried) (D_boot ++ D_call ++ D_link ++ [LRecv 1 (KReady [fc])]) = Some d0 /\
  handlers d0 1 = RNext [fc] /\ zget (rpcs d0) 1000 = Some 0 /\ nth_error (calls d0) 0 = Some r /\ c_req r = Some (mkReq 1000 fc mm [7] true) /\
  dstep d0 (HGo 1) = Some d1 /\ exec dstep d1 [HPick 1 1000; HGo 1; HCommit 1 true; HGo 1] = Some d2 /\ handlers d2 1 = RNext [] /\ zget (rpcs d2) 1000 = Some 0 /\
  commits 0 (hist d2) = [1].
Proof.
  eexists. eexists. eexists. eexists. split; [vm_compute; reflexivity|]. split; [reflexivity|]. split; [reflexivity|]. split; [reflexivity|]. split; [reflexivity|].
  split; [vm_compute; reflexivity|]. split; [vm_compute; reflexivity|]. repeat split.
Qed.
