(* C65: a connection from Send to OnPacket. *)
From Verif Require Import Lts GoInt GoVal CodecModel ProtoModel ProtoSpec PeerSendModel PeerSendSpec PeerRecvModel ConnModel ConnSpec ConnProof.
Open Scope Z_scope.

(* Two goroutines send; the second one's packet is queued first; the bytes are read in four pieces. *)
Definition C65_hello : proto := PRegisterRequest [[97]; [98]].
Definition C65_call : proto := PRpcRequest 7 [97] [109] [VInt 1 I64 5; VStr 2 [120]] true.
Definition C65_run : list nlabel :=
  [NCheck 1%nat (Some (pack C65_hello)); NCheck 2%nat (Some (pack C65_call)); NPush 2; NPush 1; NPop; NWrite; NRead 3; NRead 20; NPop; NWrite; NRead 30].
Definition C65_rest : list nlabel := [NRead 4].

Theorem C65_delivers_in_order : forall ws ws' ls s, exec (nstep ws ws') new_conn ls = Some s -> legitimate ws ws' ls ->
  down s = false /\ crashed (got s) = false /\
  exists k, Forall2 same_packet (firstn k (packets (pushed (log (sender s))))) (delivered (got s)).
Proof. exact delivers. Qed.
Print Assumptions C65_delivers_in_order.
Theorem C65_sender_order : forall ws ws' ls s t, exec (nstep ws ws') new_conn ls = Some s -> legitimate ws ws' ls ->
  exists r, admitted_of t (log (sender s)) = pushed_of t (log (sender s)) ++ r /\ (length r <= 1)%nat.
Proof. exact queued_order. Qed.
Print Assumptions C65_sender_order.
Theorem C65_dropped_only_when_full : forall ws ws' ls s a t x b, exec (nstep ws ws') new_conn ls = Some s -> legitimate ws ws' ls ->
  log (sender s) = a ++ EDrop t x :: b -> length (pushed a) = (length (popped a) + 20)%nat.
Proof. exact dropped_full. Qed.
Print Assumptions C65_dropped_only_when_full.
Theorem C65_everything_arrives : forall ws ws' ls s, exec (nstep ws ws') new_conn ls = Some s -> legitimate ws ws' ls -> idle s ->
  Forall2 same_packet (packets (pushed (log (sender s)))) (delivered (got s)) /\ buffered (got s) = [] /\
  forall t, pushed_of t (log (sender s)) = admitted_of t (log (sender s)).
Proof. exact all_arrive. Qed.
Print Assumptions C65_everything_arrives.
(* as long as nobody closes and nothing fails, something can happen until all has arrived, *)
Theorem C65_progress : forall ws ws' ls s, exec (nstep ws ws') new_conn ls = Some s -> legitimate ws ws' ls ->
  open (sender s) = true -> failed (log (sender s)) = [] -> reading s = true -> ~ In None (pushed (log (sender s))) ->
  idle s \/ exists l s', nstep ws ws' s l = Some s' /\ inner l.
Proof. exact progress. Qed.
Print Assumptions C65_progress.
(* and not for ever *)
Theorem C65_settles : forall ws ws' ls s, exec (nstep ws ws') new_conn ls = Some s -> legitimate ws ws' ls ->
  exists n, forall ls' s', exec (nstep ws ws') s ls' = Some s' -> Forall inner ls' -> (length ls' <= n)%nat.
Proof. exact settles. Qed.
Print Assumptions C65_settles.

Example C65_legitimate : legitimate W64 W32 (C65_run ++ C65_rest).
Proof.
  intros t x H. cbn in H. repeat (destruct H as [H|H]; [try discriminate H; injection H as <- <-|]); [| |contradiction].
  - exists C65_hello. eexists. split; [reflexivity|]. split; [reflexivity|]. split; [reflexivity|]. split; [reflexivity|]. vm_compute. reflexivity.
  - exists C65_call. eexists. split; [reflexivity|]. split; [reflexivity|]. split; [reflexivity|]. split; [reflexivity|]. vm_compute. reflexivity.
Qed.
Example C65_case : exists s s', exec (nstep W64 W32) new_conn C65_run = Some s /\ exec (nstep W64 W32) s C65_rest = Some s' /\
  map p_p (delivered (got s)) = [PRpcRequest 7 [97] [109] [VInt 0 I8 5; VStr 0 [120]] true] /\ length (buffered (got s)) = 19%nat /\
  open (sender s) = true /\ failed (log (sender s)) = [] /\ reading s = true /\ forallb (fun x => match x with Some _ => true | None => false end) (pushed (log (sender s))) = true /\
  map p_p (delivered (got s')) = [PRpcRequest 7 [97] [109] [VInt 0 I8 5; VStr 0 [120]] true; C65_hello] /\ idle s'.
Proof. do 2 eexists. split; [vm_compute; reflexivity|]. split; [vm_compute; reflexivity|]. vm_compute. auto 20. Qed.

(* a read error ends the receive routine: nothing more reaches the sink *)
Theorem C65_read_error_ends : forall ws ws' s ls s', exec (nstep ws ws') s (NReadError :: ls) = Some s' -> got s' = got s.
Proof. exact read_error_ends. Qed.
Print Assumptions C65_read_error_ends.
Example C65_read_error_ends_case : exists s s', exec (nstep W64 W32) new_conn C65_run = Some s /\ exec (nstep W64 W32) s (NReadError :: [NClose]) = Some s' /\
  exec (nstep W64 W32) s (NReadError :: C65_rest) = None /\ length (delivered (got s')) = 1%nat.
Proof. do 2 eexists. split; [vm_compute; reflexivity|]. split; [vm_compute; reflexivity|]. split; vm_compute; reflexivity. Qed.

(* a packet that cannot be encoded takes the sender down when its turn comes; nothing of it
   or after it is written *)
Theorem C65_unencodable_ends : forall ws ws' s p, down s = false -> routine (sender s) = WHolding p -> (forall f, marshal ws p <> SOk f) ->
  exists s1, nstep ws ws' s NWrite = Some s1 /\ down s1 = true /\
    forall ls s', exec (nstep ws ws') s1 ls = Some s' -> down s' = true /\ sender s' = sender s.
Proof. exact unencodable_ends. Qed.
Print Assumptions C65_unencodable_ends.
Definition C65_bad : proto := PRpcRequest 8 [97] [109] [VOther true 3] true.
Example C65_unencodable_ends_case : exists s, exec (nstep W64 W32) new_conn (C65_run ++ C65_rest ++ [NCheck 1%nat (Some (pack C65_bad)); NPush 1; NPop]) = Some s /\
  down s = false /\ routine (sender s) = WHolding (pack C65_bad) /\ forall f, marshal W64 (pack C65_bad) <> SOk f.
Proof. eexists. split; [vm_compute; reflexivity|]. split; [reflexivity|]. split; [reflexivity|]. intros f. vm_compute. discriminate. Qed.
