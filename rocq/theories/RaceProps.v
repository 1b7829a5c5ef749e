(* C68: which shared memory is free of data races. *)
From Verif Require Import RaceModel RaceSpec RaceProof2.

(* a reached state in which goroutine u is about to write x holding m, and t waits for m *)
Definition contended (fs : list fn) (m : lock) (x : loc) : Prop :=
  exists s t u, reached fs s /\ waits s t m u /\ about s u x true.
Ltac contend ls t u :=
  eexists; exists t, u; split; [split; [repeat constructor|exists ls; vm_compute; reflexivity]|];
  split; [split; [eexists; reflexivity|reflexivity]|eexists; reflexivity].

(* The table of remote slots of a dock, the done flag of a request and the table of proxy
   makers are never used by two goroutines at once with one writing, whatever the program
   calls, whatever packets arrive. *)
Theorem C68_guarded : forall fs s x, safe x -> reached fs s -> ~ race s x.
Proof. exact guarded. Qed.
Print Assumptions C68_guarded.
Example C68_guarded_ex : contended [FStartup 0] (LRemote 0) (DRemote 0) /\ contended [FHandling 0 0] (LReq 0) (Done 0).
Proof.
  split.
  - contend (z 0 16 ++ [(0, 1)] ++ z 0 11 ++ [(3, 1)] ++ z 3 3 ++ [(3, 1); (3, 1)] ++ z 3 11 ++ [(3, 1)] ++ z 3 3 ++ [(3, 1)] ++ z 3 9 ++
      [(3, 1)] ++ z 3 3 ++ [(3, 1)] ++ z 3 3 ++ [(3, 1)] ++ z 3 3 ++ [(5, 0); (5, 0); (5, 1); (5, 0); (5, 1)] ++ z 5 10) 5 3.
  - contend ([(0, 1)] ++ z 0 5 ++ z 1 6 ++ z 0 3) 0 1.
Qed.
(* As long as ferry.Close is not called, neither are the tables of the hub, the slots of a
   dock and the sink of a peer. *)
Theorem C68_guarded_open : forall fs s x, safe_until_close x -> ~ In FClose fs -> reached fs s -> ~ race s x.
Proof. exact guarded_open. Qed.
Print Assumptions C68_guarded_open.
Example C68_guarded_open_ex : contended [FServe 0] (LDocks 0) (HDocks 0).
Proof.
  contend (z 0 16 ++ [(0, 1); (0, 0); (0, 0); (1, 1); (1, 0); (1, 1)] ++ z 1 11 ++ [(1, 1); (1, 0); (1, 1); (1, 0); (1, 1)] ++ z 1 9 ++
    [(5, 1)] ++ z 5 3 ++ [(5, 1); (5, 1); (5, 0); (3, 1)] ++ z 3 14 ++ [(3, 1)] ++ z 3 6 ++ [(6, 1); (6, 0)]) 6 3.
Qed.
(* With it they are, and so are sockets' peers and the mock network's connections. *)
Theorem C68_close_races : forall x, safe_until_close x \/ raced_by_close x -> exists fs s, ~ In FMock fs /\ reached fs s /\ race s x.
Proof. exact close_races. Qed.
Print Assumptions C68_close_races.
(* Everything else has races in programs that only start hubs, docks and features: the list
   of docks with a feature and their ready flags, a dock's sockets and pending calls, a
   pending call's request, the proxies and timeouts of a feature, the table of serializers,
   the list of instances, the mock network's listeners, port counter and statuses. *)
Theorem C68_races : forall x, raced x -> exists fs s, (forall f, In f fs -> f <> FClose /\ f <> FMock) /\ reached fs s /\ race s x.
Proof. exact races. Qed.
Print Assumptions C68_races.
(* The table of networks only with network.Mock, *)
Theorem C68_makers : forall fs s, ~ In FMock fs -> reached fs s -> ~ race s Makers.
Proof. exact makers_open. Qed.
Print Assumptions C68_makers.
Theorem C68_mock_race : exists s, reached [FMock; FStartup 0] s /\ race s Makers.
Proof. exact race_Makers. Qed.
Print Assumptions C68_mock_race.
(* so that is all. *)
Example C68_all : forall x, safe x \/ safe_until_close x \/ raced_by_close x \/ raced_by_mock x \/ raced x.
Proof. intros []; cbn; tauto. Qed.
(* No goroutine waits for a mutex in vain: whoever holds it can release it without waiting
   for any other mutex, and then it can be taken. *)
Theorem C68_no_deadlock : forall fs s t m u, reached fs s -> waits s t m u ->
  t <> u /\ exists n s', exec rstep s (repeat (u, 0) n) = Some s' /\ held s' m = None /\ exists s2, rstep s' (t, 0) = Some s2.
Proof. exact mutexes_released. Qed.
Print Assumptions C68_no_deadlock.
