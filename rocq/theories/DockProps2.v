(* Property theorems C37, C38, C44, C59 (continued), C61 and C62: the dock does its part. *)
From Verif Require Import Lts GoVal Tables DockModel DockSpec DockSpec2 DockProof DockProof9 DockProof10 DockProof11 DockProps.
From Coq Require Import Arith Bool List ZArith.
Import ListNotations.
Open Scope nat_scope.

(* -- C37: every connection gets an announcement *)
Theorem C37_connection_is_announced_to : forall V (d : dock V) p acc, state d = Alive ->
  exists ns d', exec dstep d [LConnected p; LAnnounce (length (announcers d)) ns acc] = Some d' /\ hist d' = hist d ++ [ESend p (KRegister ns) acc].
Proof. exact @connected_out. Qed.
Print Assumptions C37_connection_is_announced_to.

(* and only one *)
Theorem C37_one_announcement_per_connection : forall V carried ls (d : dock V) p, exec dstep (new_dock carried) ls = Some d -> greetings p (hist d) <= connected p ls /\
  (state d = Alive -> (forall j ns acc, dstep d (LAnnounce j ns acc) = None) -> greetings p (hist d) = connected p ls).
Proof. exact @greets_once. Qed.
Print Assumptions C37_one_announcement_per_connection.
Example C37_one_announcement_per_connection_case : exists d, exec dstep (new_dock D_carried) (D_boot ++ [LConnected 1]) = Some d /\ state d = Alive /\
  greetings 0 (hist d) = 1 /\ connected 0 (D_boot ++ [LConnected 1]) = 1 /\ greetings 1 (hist d) = 0 /\ connected 1 (D_boot ++ [LConnected 1]) = 1.
Proof. eexists. split; [vm_compute; reflexivity|]. repeat split. Qed.

(* -- C59: log.Fatal ends a dock when Listen or Dial report an error, and at no other time *)
Theorem C59_ended_by_network_errors_only : forall V carried ls (d : dock V), exec dstep (new_dock carried) ls = Some d -> (state d = Exited <-> exists l, In l ls /\ net_failure l).
Proof. exact @exits. Qed.
Print Assumptions C59_ended_by_network_errors_only.
Example C59_ended_by_network_errors_only_case : (exists d : dock nat, exec dstep (new_dock D_carried) [LDial false] = Some d /\ state d = Exited) /\
  (exists d : dock nat, exec dstep (new_dock D_carried) [LDial true; LRun; LConnected 0; LAnnounce 0 [fa] true; LRecv 0 (KRegistered 5); HNet 0 false] = Some d /\ state d = Exited) /\
  (exists d : dock nat, exec dstep (new_dock D_carried) (D_boot ++ D_call) = Some d /\ state d = Alive).
Proof. repeat split; eexists; split; vm_compute; reflexivity. Qed.

(* -- C38: the call goes to the latest announcer, else a query goes out *)
Theorem C38_call_goes_out : forall V carried ls (d : dock V) f m args w t acc acc', exec dstep (new_dock carried) ls = Some d -> state d = Alive ->
  (cleared (hist d) \/ ~ In f (map fst carried)) -> let c := length (calls d) in let q := mkReq t f m args w in
  exists d', exec dstep d [LCall f m args w t; CStep c acc; CStep c acc'] = Some d' /\
    ((exists p, latest f (hist d) p /\ state d' = Alive /\ hist d' = hist d ++ [ENew c q; ECommit c p acc'; ESend p (KRequest q) acc']) \/
     ((forall p, ~ In (ECached f p) (hist d)) /\
       ((exists k s, since (hist d) = k :: s /\ state d' = Alive /\ hist d' = hist d ++ [ENew c q; EQuery k f]) \/
        (since (hist d) = [] /\ state d' = Crashed NoSocket)))).
Proof. exact @call_out. Qed.
Print Assumptions C38_call_goes_out.
Example C38_goes_out_case : exists d, exec dstep (new_dock D_carried) (D_boot ++ D_link) = Some d /\ state d = Alive /\ ~ In fc (map fst D_carried) /\ latest fc (hist d) 1.
Proof.
  eexists. split; [vm_compute; reflexivity|]. split; [reflexivity|]. split; [cbn; intuition discriminate|]. cbn [hist].
  match goal with |- latest _ ?h _ => exists (removelast h), [] end. split; [reflexivity|intros p []].
Qed.

(* -- C44: exactly one start per registration reply, once the handlers are through *)
Theorem C44_exactly_one_start_per_reply : forall V carried ls (d : dock V), exec dstep (new_dock carried) ls = Some d ->
  (forall p, handlers d p = HIdle) -> length (starters d) = registered (hist d).
Proof. exact @starts_exact. Qed.
Print Assumptions C44_exactly_one_start_per_reply.
Example C44_start_case : exists d, exec dstep (new_dock D_carried) D_boot = Some d /\ (forall p, handlers d p = HIdle) /\ registered (hist d) = 1 /\ starters d = [TRun []].
Proof. eexists. split; [vm_compute; reflexivity|]. split; [intros [|[|[|p]]]; reflexivity|]. split; reflexivity. Qed.

(* -- C61 *)
Theorem C61_handled_before_the_next : forall V carried ls (d : dock V) a p k b k' c, exec dstep (new_dock carried) ls = Some d ->
  hist d = a ++ ERecv p k :: b ++ ERecv p k' :: c -> ~ hears p b -> handled p k b.
Proof. exact @handled_next. Qed.
Print Assumptions C61_handled_before_the_next.
Theorem C61_handled_when_idle : forall V carried ls (d : dock V) a p k b, exec dstep (new_dock carried) ls = Some d ->
  hist d = a ++ ERecv p k :: b -> ~ hears p b -> handlers d p = HIdle -> handled p k b.
Proof. exact @handled_idle. Qed.
Print Assumptions C61_handled_when_idle.
Theorem C61_can_finish : forall V carried (d : dock V) p, (exists ls, exec dstep (new_dock carried) ls = Some d) -> state d = Alive ->
  exists ls d', exec dstep d ls = Some d' /\ Forall (own_step p) ls /\ ((exists w, state d' = Crashed w) \/ (state d' = Alive /\ handlers d' p = HIdle)).
Proof. exact @handler_finish. Qed.
Print Assumptions C61_can_finish.
Example C61_case : exists d a b c, exec dstep (new_dock D_carried) (D_boot ++ D_link ++ [LRecv 1 (KReady [fc])]) = Some d /\
  hist d = a ++ ERecv 1 (KRegister [fc]) :: b ++ ERecv 1 (KReady [fc]) :: c /\ ~ hears 1 b /\ b <> [] /\ handlers d 1 <> HIdle.
Proof.
  eexists. exists [ESocket SHub; ESend 0 (KRegister [fa]) true; ERecv 0 (KRegistered 5); ESocket (SListen 5); ESend 0 (KReady [fa]) true; EStart 0 fb; EStart 0 fa;
    ERecv 0 (KAddress [1%Z]); ESocket (SDial [1%Z]); ESend 1 (KRegister [fa]) true], [ESend 1 (KReady [fa]) true; ECached fc 1], [].
  split; [vm_compute; reflexivity|]. split; [reflexivity|]. split; [intros (k & [X|[X|[]]]); discriminate X|]. split; discriminate.
Qed.

(* -- C62 *)
Theorem C62_answered_calls_return : forall V carried ls (d : dock V) a p rs b c q, exec dstep (new_dock carried) ls = Some d -> state d = Alive ->
  NoDup (map q_index (requests (hist d))) -> hist d = a ++ ERecv p (KResponse rs) :: b -> In (ENew c q) a -> p_index rs = q_index q ->
  (forall k, dstep d (BStep k) = None) -> (forall acc, dstep d (CStep c acc) = None) -> returns c (hist d) <> [].
Proof. exact @answered_returns. Qed.
Print Assumptions C62_answered_calls_return.
Definition C62_before : list (event nat) := [ESocket SHub; ESend 0 (KRegister [fa]) true; ERecv 0 (KRegistered 5); ESocket (SListen 5); ESend 0 (KReady [fa]) true; EStart 0 fb; EStart 0 fa;
  ENew 0 (mkReq 1000 fc mm [7] true); EQuery SHub fc; ERecv 0 (KAddress [1%Z]); ESocket (SDial [1%Z]); ESend 1 (KRegister [fa]) true; ERecv 1 (KRegister [fc]); ESend 1 (KReady [fa]) true; ECached fc 1;
  ERecv 1 (KReady [fc]); ECommit 0 1 true; ESend 1 (KRequest (mkReq 1000 fc mm [7] true)) true].
Example C62_case : exists d, exec dstep (new_dock D_carried) (D_boot ++ D_call ++ D_link ++ D_ready ++ D_answer) = Some d /\ state d = Alive /\
  hist d = C62_before ++ ERecv 1 (KResponse (mkResp 1000 fc mm [8; 9] [])) :: [EReturn 0 (mkRet [8; 9] None)] /\ In (ENew 0 (mkReq 1000 fc mm [7] true)) C62_before /\
  map q_index (requests (hist d)) = [1000%Z] /\ (forall k, dstep d (BStep k) = None) /\ forall acc, dstep d (CStep 0 acc) = None.
Proof.
  eexists. split; [vm_compute; reflexivity|]. split; [reflexivity|]. split; [reflexivity|]. split; [vm_compute; intuition|]. split; [reflexivity|].
  split; [intros [|[|k]]; reflexivity|reflexivity].
Qed.
