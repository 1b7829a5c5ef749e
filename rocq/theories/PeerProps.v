(* Property theorems C23, C24, C53-C55: sending, closing, connection life. *)
From Verif Require Import Lts PeerSendModel PeerSendSpec PeerSendProof PeerLifeModel PeerLifeProof.

(* C23: [ls] ranges over all schedules of any number of sending goroutines, the send
   routine, closes and write errors. *)
Theorem C23_written_is_prefix_of_queued : forall P ls (s : peer P), exec pstep new_peer ls = Some s ->
  exists rest, pushed (log s) = map Some (written (log s)) ++ rest.
Proof. exact @written_prefix. Qed.
Print Assumptions C23_written_is_prefix_of_queued.
Theorem C23_per_sender_order : forall P ls (s : peer P) t, exec pstep new_peer ls = Some s ->
  exists rest, admitted_of t (log s) = pushed_of t (log s) ++ rest /\ (length rest <= 1)%nat.
Proof. exact @sender_order. Qed.
Print Assumptions C23_per_sender_order.
Theorem C23_drop_only_when_full : forall P ls (s : peer P) a t x b, exec pstep new_peer ls = Some s ->
  log s = a ++ EDrop t x :: b -> length (pushed a) = (length (popped a) + 20)%nat.
Proof. exact @drop_only_full. Qed.
Print Assumptions C23_drop_only_when_full.
Theorem C23_accept_only_when_not_full : forall P ls (s : peer P) a t x b, exec pstep new_peer ls = Some s ->
  log s = a ++ EAdmit t x :: b -> (length (pushed a) < length (popped a) + 20)%nat.
Proof. exact @admit_not_full. Qed.
Print Assumptions C23_accept_only_when_not_full.
Theorem C23_all_written_when_quiet : forall P ls (s : peer P), exec pstep new_peer ls = Some s -> quiet s ->
  map Some (written (log s)) = pushed (log s) /\ forall t, pushed_of t (log s) = admitted_of t (log s).
Proof. exact @quiet_all. Qed.
Print Assumptions C23_all_written_when_quiet.
Theorem C23_single_sender : forall P ls (s : peer P) t, exec pstep new_peer ls = Some s -> quiet s ->
  (forall u x, In (LCheck u x) ls -> u = t) -> map Some (written (log s)) = admitted (log s).
Proof. exact @single_sender. Qed.
Print Assumptions C23_single_sender.
Definition C23_round (n : nat) : list (plabel nat) := [LCheck 1 (Some n); LPush 1; LPop; LWrite].
Example C23_case : exists s, exec pstep new_peer (C23_round 5 ++ [LCheck 2 (Some 6); LCheck 1 (Some 7); LPush 1; LPush 2; LPop; LPop; LWrite]) = None /\
  exec pstep new_peer (C23_round 5 ++ [LCheck 2 (Some 6); LCheck 1 (Some 7); LPush 1; LPush 2; LPop; LWrite; LPop; LWrite]) = Some s /\
  quiet s /\ written (log s) = [5; 7; 6].
Proof. eexists. split; [vm_compute; reflexivity|]. split; [vm_compute; reflexivity|]. repeat split. Qed.
(* one sender: twenty packets wait, the next one is dropped, all that were accepted are written *)
Example C23_single_case : exists s, exec pstep new_peer (flat_map (fun n => [LCheck 1 (Some n); LPush 1]) (seq 0 20) ++ [LCheck 1 (Some 20)] ++ flat_map (fun _ => [LPop; LWrite]) (seq 0 20)) = Some s /\
  quiet s /\ In (EDrop 1 (Some 20)) (log s) /\ written (log s) = seq 0 20.
Proof. eexists. split; [vm_compute; reflexivity|]. split; [repeat split|]. split; [vm_compute; repeat first [left; reflexivity|right]|reflexivity]. Qed.
(* Sends are reliable: refuted by a full queue, even on a healthy connection. *)
Definition C23_send_reliable : Prop := forall ls (s : peer nat), exec pstep new_peer ls = Some s -> quiet s ->
  forall t x, In (Some x) (sends_of t (log s)) -> In x (written (log s)).
Definition C23_burst : list (plabel nat) := flat_map (fun n => [LCheck 1 (Some n); LPush 1]) (seq 0 20) ++ [LCheck 1 (Some 20)].
Definition C23_drain : list (plabel nat) := flat_map (fun _ => [LPop; LWrite]) (seq 0 20).
Theorem C23_send_reliable_refuted : ~ C23_send_reliable.
Proof.
  intros H. concrete (@pstep nat) (@new_peer nat) (C23_burst ++ C23_drain) s E.
  specialize (H _ _ E). vm_compute in E. injection E as <-.
  specialize (H (conj eq_refl (conj eq_refl eq_refl)) 1 20). vm_compute in H.
  assert (X : In 20 (seq 0 20)) by (apply H; repeat first [left; reflexivity|right]). apply in_seq in X. lia.
Qed.
Print Assumptions C23_send_reliable_refuted.
(* A Send that passed the check can block for ever once the routine has ended. *)
Theorem C23_blocked_sender : forall P (s : peer P), routine s = WEnded -> length (queue s) = 20 ->
  forall ls s', exec pstep s ls = Some s' -> queue s' = queue s /\ pending s' = pending s /\ routine s' = WEnded.
Proof. exact @blocked_forever. Qed.
Print Assumptions C23_blocked_sender.
Example C23_blocked_case : exists s, exec pstep new_peer
  ([LCheck 1 (Some 0); LPush 1; LPop; LWriteFails] ++ flat_map (fun n => [LCheck 1 (Some n); LPush 1]) (seq 0 19) ++
   [LCheck 1 (Some 20); LCheck 2 (Some 21); LPush 1]) = Some s /\
  routine s = WEnded /\ length (queue s) = 20 /\ pending s = [(2, Some 21)].
Proof. eexists. split; [vm_compute; reflexivity|]. repeat split. Qed.

(* C24: close is Send(nil) followed by closing the connection *)
Theorem C24_nothing_after_stop_mark : forall P ls (s : peer P) a t b, exec pstep new_peer ls = Some s ->
  log s = a ++ EPush t None :: b -> exists rest, pushed a = map Some (written (log s)) ++ rest.
Proof. exact @nothing_after_mark. Qed.
Print Assumptions C24_nothing_after_stop_mark.
Theorem C24_nothing_after_connection_closed : forall P ls (s : peer P) a b, exec pstep new_peer ls = Some s ->
  log s = a ++ EConnClosed :: b -> written (log s) = written a /\ (length (popped (log s)) <= length (popped a) + 1)%nat.
Proof. exact @nothing_after_close. Qed.
Print Assumptions C24_nothing_after_connection_closed.
(* without a failing write the routine ends exactly after everything before the mark *)
Theorem C24_flush_without_errors : forall P ls (s : peer P), exec pstep new_peer ls = Some s ->
  routine s = WEnded -> failed (log s) = [] -> exists rest, pushed (log s) = map Some (written (log s)) ++ None :: rest.
Proof. exact @ended_flushes. Qed.
Print Assumptions C24_flush_without_errors.
Theorem C24_ends_only_by_mark_or_error : forall P ls (s : peer P), exec pstep new_peer ls = Some s ->
  routine s = WEnded -> In None (pushed (log s)) \/ failed (log s) <> [].
Proof. exact @ended_reason. Qed.
Print Assumptions C24_ends_only_by_mark_or_error.
(* "everything accepted before close is still written" fails: close does not wait *)
Definition C24_close_flushes : Prop := forall ls (s : peer nat) a t b, exec pstep new_peer ls = Some s ->
  log s = a ++ EPush t None :: b -> routine s = WEnded -> map Some (written (log s)) = pushed a.
Theorem C24_close_flushes_refuted : ~ C24_close_flushes.
Proof.
  intros H. concrete (@pstep nat) (@new_peer nat) ([LCheck 1 (Some 5); LPush 1; LCheck 1 None; LPush 1; LConnClose; LPop; LWriteFails] : list (plabel nat)) s E.
  specialize (H _ _ [EAdmit 1 (Some 5); EPush 1 (Some 5); EAdmit 1 None] 1 [EConnClosed; EPop (Some 5); EFail 5] E).
  vm_compute in E. injection E as <-. specialize (H eq_refl eq_refl). discriminate H.
Qed.
Print Assumptions C24_close_flushes_refuted.
(* "closing puts a stop mark" fails when the queue is full *)
Definition C24_mark_always_queued : Prop := forall ls (s : peer nat) t, exec pstep new_peer ls = Some s ->
  In None (sends_of t (log s)) -> pending s = [] -> In None (pushed (log s)).
Theorem C24_mark_always_queued_refuted : ~ C24_mark_always_queued.
Proof.
  intros H. concrete (@pstep nat) (@new_peer nat) (removelast C23_burst ++ [LCheck 1 None]) s E.
  specialize (H _ _ 1 E). vm_compute in E. injection E as <-. vm_compute in H.
  assert (X := H ltac:(repeat first [left; reflexivity|right]) eq_refl). repeat (destruct X as [X|X]; [discriminate X|]). exact X.
Qed.
Print Assumptions C24_mark_always_queued_refuted.
Example C24_case : exists s, exec pstep new_peer [LCheck 1 (Some 5); LPush 1; LCheck 1 None; LPush 1; LCheck 2 (Some 6); LPush 2; LPop; LWrite; LPop] = Some s /\
  routine s = WEnded /\ written (log s) = [5] /\ failed (log s) = [] /\ queue s = [Some 6].
Proof. eexists. split; [vm_compute; reflexivity|]. repeat split. Qed.
(* the connection closed with one packet waiting and one in the routine's hands: neither is written *)
Example C24_closed_case : exists s, exec pstep new_peer [LCheck 1 (Some 5); LPush 1; LPop; LCheck 1 (Some 6); LPush 1; LCheck 1 None; LPush 1; LConnClose; LWriteFails] = Some s /\
  In EConnClosed (log s) /\ In (EPush 1 None) (log s) /\ written (log s) = [] /\ routine s = WEnded /\ failed (log s) = [5].
Proof. eexists. split; [vm_compute; reflexivity|]. split; [vm_compute; intuition|]. split; [vm_compute; intuition|]. repeat split. Qed.

(* C53 *)
Definition C53_close_while_receiving_safe : Prop := forall ls s, exec sstep new_sink ls = Some s -> panicked s = false.
Theorem C53_close_while_receiving_safe_refuted : ~ C53_close_while_receiving_safe.
Proof.
  intros H. concrete sstep new_sink [LArrive; LCheckSink; LLock 1; LMark 1; LNotify 1; LClear 1; LCallSink] s E.
  specialize (H _ _ E). vm_compute in E. injection E as <-. discriminate H.
Qed.
Print Assumptions C53_close_while_receiving_safe_refuted.
Theorem C53_serial_close_safe : forall ls s, exec sstep new_sink ls = Some s ->
  (forall a t b, ls = a ++ LClear t :: b -> last_recv a <> Some LCheckSink) -> panicked s = false.
Proof. exact serial_close_safe. Qed.
Print Assumptions C53_serial_close_safe.
Theorem C53_silent_after_close : forall ls1 ls2 s1 s2, exec sstep new_sink ls1 = Some s1 -> closes s1 > 0 ->
  exec sstep s1 ls2 = Some s2 -> on_packet s2 = on_packet s1 /\ on_closed s2 = on_closed s1.
Proof. exact silent_after_close. Qed.
Print Assumptions C53_silent_after_close.
Definition C53_schedule : list slabel := [LArrive; LCheckSink; LLock 1; LCallSink; LMark 1; LNotify 1; LArrive; LClear 1; LCheckSink; LConn 1].
Example C53_case : exists s, exec sstep new_sink C53_schedule = Some s /\ closes s = 1 /\ on_packet s = 1 /\ on_closed s = 1 /\
  last_recv [LArrive; LCheckSink; LLock 1; LCallSink; LMark 1; LNotify 1; LArrive] = Some LArrive.
Proof. eexists. split; [vm_compute; reflexivity|]. repeat split. Qed.

(* C54 *)
Theorem C54_on_closed_at_most_once : forall ls s, exec sstep new_sink ls = Some s -> on_closed s <= 1.
Proof. exact closed_once. Qed.
Print Assumptions C54_on_closed_at_most_once.
Theorem C54_on_closed_after_close : forall ls s, exec sstep new_sink ls = Some s -> closes s > 0 -> on_closed s = 1 /\ sink s = false.
Proof. exact closed_exact. Qed.
Print Assumptions C54_on_closed_after_close.
(* whatever the other side does, without a local close OnClosed is never called *)
Theorem C54_remote_disconnect_unnoticed : forall ls s, exec sstep new_sink ls = Some s -> (forall t, ~ In (LNotify t) ls) ->
  on_closed s = 0 /\ sink s = true /\ panicked s = false.
Proof. exact remote_disconnect. Qed.
Print Assumptions C54_remote_disconnect_unnoticed.
Example C54_case : exists s, exec sstep new_sink [LArrive; LCheckSink; LCallSink; LReadError] = Some s /\ recv s = REnded /\ on_closed s = 0.
Proof. eexists. split; [vm_compute; reflexivity|]. split; reflexivity. Qed.
Example C54_close_case : exists s, exec sstep new_sink C53_schedule = Some s /\ closes s > 0 /\ on_closed s = 1 /\ sink s = false.
Proof. eexists. split; [vm_compute; reflexivity|]. repeat split; cbn; auto. Qed.

(* C55 *)
Theorem C55_send_reaches_every_peer : forall ls s x s', exec kstep new_sock ls = Some s -> close_pc s <> KDone ->
  kstep s (KSend x) = Some s' -> sent s' = sent s ++ map (fun p => (p, x)) (seq 0 (next s)).
Proof. exact send_all. Qed.
Print Assumptions C55_send_reaches_every_peer.
Theorem C55_close_closes_all : forall ls s, exec kstep new_sock ls = Some s -> quiet_accept ls -> close_pc s = KDone ->
  running s = [] /\ peers s = [].
Proof. exact close_all. Qed.
Print Assumptions C55_close_closes_all.
Definition C55_close_always_closes : Prop := forall ls s, exec kstep new_sock ls = Some s -> close_pc s = KDone -> accepting s = AEnded -> running s = [].
Theorem C55_close_always_closes_refuted : ~ C55_close_always_closes.
Proof.
  intros H. concrete kstep new_sock [KAccept; KClose; KAppend; KCloseEnd; KAcceptError] s E.
  specialize (H _ _ E). vm_compute in E. injection E as <-. specialize (H eq_refl eq_refl). discriminate H.
Qed.
Print Assumptions C55_close_always_closes_refuted.
Theorem C55_leak_is_permanent : forall p s, close_pc s = KDone -> In p (running s) ->
  forall ls s', exec kstep s ls = Some s' -> In p (running s').
Proof. exact leak_forever. Qed.
Print Assumptions C55_leak_is_permanent.
Example C55_case : exists s, exec kstep new_sock [KAccept; KAppend; KSend 7; KAccept; KAppend; KSend 8; KClose; KClosePeer; KClosePeer; KCloseEnd] = Some s /\
  sent s = [(0, 7); (0, 8); (1, 8)] /\ running s = [].
Proof. eexists. split; [vm_compute; reflexivity|]. split; reflexivity. Qed.
Example C55_leak_case : exists s, exec kstep new_sock [KAccept; KClose; KAppend; KCloseEnd; KAcceptError] = Some s /\ close_pc s = KDone /\ In 0 (running s).
Proof. eexists. split; [vm_compute; reflexivity|]. split; [reflexivity|left; reflexivity]. Qed.
