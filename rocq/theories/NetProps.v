(* Property theorems C70: which serializer and which network a socket gets. *)
From Verif Require Import Lts GoVal Tables NetModel NetSpec NetProof.
From Coq Require Import Arith Bool List ZArith.
Import ListNotations.
Open Scope nat_scope.

Definition nSeek : name := [115; 101; 101; 107]%Z.
Definition nFerry : name := [102; 101; 114; 114; 121]%Z.
(* the program registers a "txt" of its own; a hub and a dock start and connect; from then on
   the network is mocked; a text socket listens and accepts a peer *)
Definition N_run : list label :=
  [PExtend nTxt (SSer 7); PExtend nSeek (SSer 0); PNew nSeek true; PListen 0 true; PExtend nFerry (SSer 1); PNew nFerry true; PDial 1 true; PAccept 0;
   PMock nTcp; PExtend nFerry (SSer 2); PNew nTxt false; PListen 2 true; PAccept 2; PSend 0; PReceive 1].
Ltac run_case := eexists; split; [vm_compute; reflexivity|].

Theorem C70_serializer : forall ls s k sk, exec nstep net0 ls = Some s -> nth_error (socks s) k = Some sk ->
  (exists h1 n h2, hist s = h1 ++ ENew k n :: h2 /\ chosen h1 n (enc sk)) /\
  forall h1 n h2, hist s = h1 ++ ENew k n :: h2 -> chosen h1 n (enc sk).
Proof. intros ls s k sk H E. split; [exact (serializer ls s k sk H E)|exact (fun h1 n h2 => made_as ls s k sk h1 n h2 H E)]. Qed.
Print Assumptions C70_serializer.
Theorem C70_chosen_unique : forall h n o o', chosen h n o -> chosen h n o' -> o = o'.
Proof. exact chosen_unique. Qed.
Print Assumptions C70_chosen_unique.
Example C70_serializer_case : exists s, exec nstep net0 N_run = Some s /\ map enc (socks s) = [Some (SSer 0); Some (SSer 1); Some STxt].
Proof. run_case. reflexivity. Qed.
Example C70_later_case : exists s, exec nstep net0 (N_run ++ [PExtend nTxt (SSer 9); PNew nTxt true; PNew nFerry true; PNew nTcp true]) = Some s /\
  map enc (skipn 3 (socks s)) = [Some (SSer 9); Some (SSer 2); None].
Proof. run_case. reflexivity. Qed.

(* a serializer registered as "txt" before the first socket is made is never used *)
Theorem C70_early_txt_ignored : forall ls s k sk h1 h2, exec nstep net0 ls = Some s -> nth_error (socks s) k = Some sk -> hist s = h1 ++ ENew k nTxt :: h2 ->
  (forall a j n b x, h1 = a ++ ENew j n :: b -> ~ In (EExtend nTxt x) b) -> enc sk = Some STxt.
Proof. exact early_txt. Qed.
Print Assumptions C70_early_txt_ignored.
Example C70_early_case : exists s, exec nstep net0 [PExtend nTxt (SSer 7); PNew nTxt true] = Some s /\ hist s = [EExtend nTxt (SSer 7)] ++ ENew 0 nTxt :: [] /\
  (forall a j n b x, [EExtend nTxt (SSer 7)] = a ++ ENew j n :: b -> ~ In (EExtend nTxt x) b) /\ socks s = [mkSock (Some STxt) true None].
Proof. run_case. split; [reflexivity|]. split; [|reflexivity]. intros [|e [|e' a]] j n b x E; discriminate E. Qed.

(* a connection has the serializer of its socket, is "self" exactly if it was dialled, and is
   of the network in force when its socket was opened *)
Theorem C70_connections : forall ls s p c, exec nstep net0 ls = Some s -> nth_error (conns s) p = Some c ->
  exists sk h1 h2, nth_error (socks s) (c_sock c) = Some sk /\ c_enc c = enc sk /\ hist s = h1 ++ EConn p (c_sock c) :: h2 /\
  (c_self c = true <-> exists h0, h1 = h0 ++ [EDial (c_sock c)]) /\
  (c_self c = true -> (c_via c = MockNet <-> mocked h1)) /\
  (c_self c = false -> exists a b, h1 = a ++ EListen (c_sock c) :: b /\ ~ In (EListen (c_sock c)) b /\ (c_via c = MockNet <-> mocked a)).
Proof. exact connections. Qed.
Print Assumptions C70_connections.
Example C70_connections_case : exists s, exec nstep net0 (N_run ++ [PAccept 0; PDial 1 true]) = Some s /\
  conns s = [mkConn 1 (Some (SSer 1)) true Tcp; mkConn 0 (Some (SSer 0)) false Tcp; mkConn 2 (Some STxt) false MockNet;
             mkConn 0 (Some (SSer 0)) false Tcp; mkConn 1 (Some (SSer 1)) true MockNet].
Proof. run_case. reflexivity. Qed.
Example C70_other_names_case : exists s, exec nstep net0 [PMock []; PMock nSeek; PExtend nSeek (SSer 0); PNew nSeek true; PDial 0 true] = Some s /\
  map c_via (conns s) = [Tcp] /\ ~ mocked (hist s).
Proof. run_case. split; [reflexivity|]. cbn. intros H. repeat destruct H as [H|H]; try discriminate H. exact H. Qed.

(* nothing done later changes them *)
Theorem C70_fixed : forall ls s s', exec nstep s ls = Some s' ->
  (forall k sk, nth_error (socks s) k = Some sk -> exists sk', nth_error (socks s') k = Some sk' /\ enc sk' = enc sk /\ sink sk' = sink sk) /\
  (forall p c, nth_error (conns s) p = Some c -> nth_error (conns s') p = Some c).
Proof. exact fixed. Qed.
Print Assumptions C70_fixed.
Example C70_fixed_case : exists s s', exec nstep net0 N_run = Some s /\ exec nstep s [PExtend nFerry (SSer 5); PExtend nSeek (SSer 6); PMock nTcp] = Some s' /\
  map enc (socks s') = [Some (SSer 0); Some (SSer 1); Some STxt] /\ sers s' nFerry = Some (SSer 5).
Proof. eexists; eexists. split; [vm_compute; reflexivity|]. split; [vm_compute; reflexivity|]. split; reflexivity. Qed.

(* sockets of hubs and docks always have a serializer *)
Theorem C70_no_panic : forall ls s, registered_first ls -> exec nstep net0 ls = Some s -> status s <> Panicked /\ Forall (fun sk => enc sk <> None) (socks s).
Proof. exact no_panic. Qed.
Print Assumptions C70_no_panic.
Lemma N_run_first : registered_first N_run.
Proof.
  intros l1 n b l2 E N. unfold N_run in E.
  repeat (destruct l1 as [|e l1]; cbn in E; [try discriminate E; injection E as <- <- <-; try (now elim N); eexists; cbn; auto 12|
    injection E as <- E]).
  destruct l1; discriminate E.
Qed.
Example C70_no_panic_case : registered_first N_run /\ exists s, exec nstep net0 N_run = Some s /\ status s = Running /\ length (socks s) = 3 /\ length (conns s) = 3.
Proof. split; [exact N_run_first|]. run_case. repeat split. Qed.

(* a socket made under an unknown name takes the process down with the first packet or byte *)
Theorem C70_nil_serializer : forall s p c, status s = Running -> nth_error (conns s) p = Some c ->
  exists s', nstep s (PSend p) = Some s' /\ nstep s (PReceive p) = Some s' /\ (status s' = Panicked <-> c_enc c = None) /\ (c_enc c <> None -> s' = s).
Proof. exact nil_serializer. Qed.
Print Assumptions C70_nil_serializer.
Example C70_nil_case : exists s, exec nstep net0 [PNew nFerry true; PExtend nFerry (SSer 1); PDial 0 true; PReceive 0] = Some s /\ status s = Panicked /\ sers s nFerry = Some (SSer 1).
Proof. run_case. split; reflexivity. Qed.

(* the process exits only when the network reports an error or a socket without a sink dials *)
Theorem C70_exits : forall ls s, exec nstep net0 ls = Some s -> status s = Exited -> exists h k, hist s = h ++ [EFailed k] \/ hist s = h ++ [ENoSink k].
Proof. exact exits. Qed.
Print Assumptions C70_exits.
Theorem C70_no_sink : forall s k sk ok, status s = Running -> nth_error (socks s) k = Some sk -> sink sk = false ->
  exists s', nstep s (PDial k ok) = Some s' /\ status s' = Exited /\ conns s' = conns s.
Proof. exact no_sink. Qed.
Print Assumptions C70_no_sink.
Theorem C70_opens : forall ls s k sk, exec nstep net0 ls = Some s -> status s = Running -> nth_error (socks s) k = Some sk ->
  (exists s', nstep s (PListen k true) = Some s' /\ status s' = Running /\ hist s' = hist s ++ [EListen k]) /\
  (sink sk = true -> exists s', nstep s (PDial k true) = Some s' /\ status s' = Running /\ length (conns s') = S (length (conns s))).
Proof. exact opens. Qed.
Print Assumptions C70_opens.
Example C70_exits_case : exists s, exec nstep net0 (N_run ++ [PDial 2 true]) = Some s /\ status s = Exited /\ nth_error (socks s) 2 = Some (mkSock (Some STxt) false (Some MockNet)).
Proof. run_case. split; reflexivity. Qed.
