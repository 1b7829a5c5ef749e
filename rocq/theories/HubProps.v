(* Property theorems C31-C35, C56, C57: the hub. *)
From Verif Require Import Lts GoVal Tables HubModel HubSpec HubProof HubProof2 HubProof3 HubProof4.
From Coq Require Import Arith Bool List ZArith Sorting.Sorted.
Import ListNotations.
Open Scope nat_scope.

(* -- C31: ports.  [black]: any blacklist; [raddr]: any remote addresses *)
Theorem C31_ports_strictly_increase : forall black raddr ls s host, exec (hstep black raddr) new_hub ls = Some s ->
  StronglySorted Z.lt (allocs host (hist s)).
Proof. exact ports_increase. Qed.
Print Assumptions C31_ports_strictly_increase.
Theorem C31_ports_in_range : forall black raddr ls s host q, exec (hstep black raddr) new_hub ls = Some s ->
  In q (allocs host (hist s)) -> (20000 < q <= 49000)%Z /\ ~ In q black.
Proof. exact ports_range. Qed.
Print Assumptions C31_ports_in_range.
Theorem C31_least_port : forall black raddr ls s, exec (hstep black raddr) new_hub ls = Some s ->
  forall a b t p host port, hist s = a ++ EAlloc t p host port :: b ->
  forall q, (20000 < q < port)%Z -> (forall x, In x (allocs host a) -> (x < q)%Z) -> In q black.
Proof. exact least_inv. Qed.
Print Assumptions C31_least_port.
Theorem C31_search_terminates : forall black raddr ls s p t slots, exec (hstep black raddr) new_hub ls = Some s ->
  halted s = false -> handlers s p = RAlloc t slots ->
  exists s', hstep black raddr s (HStep p) = Some s' /\
    (halted s' = true \/ exists port, hist s' = hist s ++ [EAlloc t p (pickIP (raddr p)) port]).
Proof. exact search_ends. Qed.
Print Assumptions C31_search_terminates.
Theorem C31_exits_only_without_port : forall black raddr ls s s' p, exec (hstep black raddr) new_hub ls = Some s ->
  hstep black raddr s (HStep p) = Some s' -> halted s' = true ->
  forall q, (20000 < q <= 49000)%Z -> (forall a, In a (allocs (pickIP (raddr p)) (hist s)) -> (a < q)%Z) -> In q black.
Proof. exact halts_only_without_port. Qed.
Print Assumptions C31_exits_only_without_port.
Theorem C31_exits_without_port : forall black raddr ls s p t slots, exec (hstep black raddr) new_hub ls = Some s ->
  halted s = false -> handlers s p = RAlloc t slots ->
  (forall q, (20000 < q <= 49000)%Z -> In q black \/ exists a, In a (allocs (pickIP (raddr p)) (hist s)) /\ (q <= a)%Z) ->
  exists s', hstep black raddr s (HStep p) = Some s' /\ halted s' = true /\ hist s' = hist s.
Proof. exact exits_without_port. Qed.
Print Assumptions C31_exits_without_port.

(* docks 1 and 3 on host "A", dock 2 on "B", client 9 on "C"; features "x" and "y" *)
Definition H_raddr (p : nat) : name := match p with 1 | 3 => [65; 58; 49]%Z | 2 => [66; 58; 55]%Z | _ => [67; 58; 56]%Z end.
Definition hx : name := [120]%Z.
Definition hy : name := [121]%Z.
Definition H_black : list Z := [20001; 20003]%Z.
Definition H_register : list label :=
  [LRecv 1 (PRegister [hx; hy]); LRecv 2 (PRegister [hx]); HStep 2; HStep 1; HStep 1; HStep 2; HStep 1; HStep 1; HStep 2;
   LRecv 3 (PRegister [hx]); HStep 3; HStep 3; HStep 3].
Definition H_ready : list label :=
  [LRecv 2 (PReady [hx]); LRecv 1 (PReady [hx; hy])] ++ repeat (HStep 2) 5 ++ repeat (HStep 1) 5.
Example C31_case : exists s, exec (hstep H_black H_raddr) new_hub H_register = Some s /\
  allocs [65%Z] (hist s) = [20002; 20004]%Z /\ allocs [66%Z] (hist s) = [20002]%Z /\
  In (EAlloc 0 1 [65%Z] 20002) (hist s) /\ halted s = false.
Proof. eexists. split; [vm_compute; reflexivity|]. vm_compute. intuition. Qed.
(* every port blacklisted: the first registration ends the hub *)
Example C31_exit_case : let black := map (fun k => Z.of_nat k + 20001)%Z (seq 0 (Z.to_nat 29000)) in
  exists s, exec (hstep black H_raddr) new_hub [LRecv 1 (PRegister [hx])] = Some s /\ halted s = false /\ handlers s 1 = RAlloc 0 [hx] /\
  forall q, (20000 < q <= 49000)%Z -> In q black.
Proof.
  eexists. split; [reflexivity|]. split; [reflexivity|]. split; [reflexivity|]. intros q Hq. apply in_map_iff. exists (Z.to_nat (q - 20001)).
  split; [lia|]. apply in_seq. lia.
Qed.

(* -- C32: answers *)
Theorem C32_answers_a_ready_registrant : forall black raddr ls s, exec (hstep black raddr) new_hub ls = Some s ->
  forall j t p f k host port, nth_error (hist s) j = Some (EAnswer t p f k host port) ->
  t < j /\ nth_error (hist s) t = Some (ERecv p (PQuery f)) /\
  exists d r m sl sl', nth_error (registrations f (firstn j (hist s))) k = Some (d, host, port) /\
    In (EMark f k) (firstn j (hist s)) /\ r < m < j /\
    nth_error (hist s) r = Some (ERecv d (PRegister sl)) /\ In f sl /\
    nth_error (hist s) m = Some (ERecv d (PReady sl')) /\ In f sl' /\
    host = pickIP (raddr d) /\ In (EAlloc r d host port) (hist s).
Proof. exact answer_names_ready_dock. Qed.
Print Assumptions C32_answers_a_ready_registrant.
Theorem C32_at_most_one_answer : forall black raddr ls s, exec (hstep black raddr) new_hub ls = Some s ->
  forall t, length (answers t (hist s)) <= 1.
Proof. exact one_answer. Qed.
Print Assumptions C32_at_most_one_answer.
(* the registration answered is no older than any that was ready when the final round began *)
Theorem C32_newest_ready : forall black raddr ls s, exec (hstep black raddr) new_hub ls = Some s ->
  forall a b c t p f k host port, hist s = a ++ ERound t :: b ++ EAnswer t p f k host port :: c -> ~ In (ERound t) b ->
  forall k', In (EMark f k') a -> k' <= k.
Proof. exact newest_ready. Qed.
Print Assumptions C32_newest_ready.
Theorem C32_answer_ends_a_round : forall black raddr ls s, exec (hstep black raddr) new_hub ls = Some s ->
  forall j t p f k host port, nth_error (hist s) j = Some (EAnswer t p f k host port) -> In (ERound t) (firstn j (hist s)).
Proof. exact answer_has_round. Qed.
Print Assumptions C32_answer_ends_a_round.

(* the query of client 9 for "x" passes over dock 3, not ready, and gets dock 2 *)
Definition H_query : list label := [LRecv 9 (PQuery hx)] ++ [QStep 18; QStep 18; QStep 18].
Example C32_case : exists s, exec (hstep H_black H_raddr) new_hub (H_register ++ H_ready ++ H_query) = Some s /\
  answers 18 (hist s) = [(9, [66%Z], 20002%Z)] /\ nth_error (hist s) 18 = Some (ERecv 9 (PQuery hx)) /\
  registrations hx (hist s) = [(1, [65%Z], 20002%Z); (2, [66%Z], 20002%Z); (3, [65%Z], 20004%Z)] /\
  In (EMark hx 0) (hist s) /\ In (EMark hx 1) (hist s).
Proof. eexists. split; [vm_compute; reflexivity|]. vm_compute. intuition. Qed.
(* the same query: one round, begun when registrations 0 and 1 were ready *)
Example C32_round_case : exists s, exec (hstep H_black H_raddr) new_hub (H_register ++ H_ready ++ H_query) = Some s /\
  hist s = firstn 19 (hist s) ++ ERound 18 :: [] ++ [EAnswer 18 9 hx 1 [66%Z] 20002] /\ In (EMark hx 0) (firstn 19 (hist s)) /\ In (EMark hx 1) (firstn 19 (hist s)).
Proof. eexists. split; [vm_compute; reflexivity|]. split; [vm_compute; reflexivity|]. split; vm_compute; intuition. Qed.
(* "the most recently registered ready dock at the moment of the answer" is too strong: a
   dock that becomes ready behind the scan is passed over *)
Theorem C32_newest_at_answer_refuted : ~ forall black raddr ls s, exec (hstep black raddr) new_hub ls = Some s ->
  forall j t p f k host port, nth_error (hist s) j = Some (EAnswer t p f k host port) ->
  forall k', In (EMark f k') (firstn j (hist s)) -> k' <= k.
Proof.
  intros H.
  concrete (hstep H_black H_raddr) new_hub (H_register ++ [LRecv 9 (PQuery hx); QStep 13; QStep 13; LRecv 3 (PReady [hx])] ++ repeat (HStep 3) 6 ++
    [LRecv 2 (PReady [hx])] ++ repeat (HStep 2) 4 ++ [QStep 13]) s E.
  specialize (H _ _ _ _ E). vm_compute in E. injection E as <-. specialize (H 19 13 9 hx 1 [66%Z] 20002%Z eq_refl 2).
  assert (X : 2 <= 1); [|lia]. apply H. vm_compute. tauto.
Qed.
Print Assumptions C32_newest_at_answer_refuted.

(* -- C33: polling *)
Theorem C33_no_answer_without_a_ready_dock : forall black raddr ls s, exec (hstep black raddr) new_hub ls = Some s ->
  forall t p f, nth_error (hist s) t = Some (ERecv p (PQuery f)) -> (forall k, ~ In (EMark f k) (hist s)) -> answers t (hist s) = [].
Proof. exact no_answer_without_mark. Qed.
Print Assumptions C33_no_answer_without_a_ready_dock.
(* an unanswered query can always take a turn, and with a registration of its feature
   ready it takes at most twice as many turns as there are registrations, plus one *)
Theorem C33_never_stuck : forall black raddr ls s t p f, exec (hstep black raddr) new_hub ls = Some s -> halted s = false ->
  nth_error (hist s) t = Some (ERecv p (PQuery f)) -> answers t (hist s) = [] -> hstep black raddr s (QStep t) <> None.
Proof. exact never_stuck. Qed.
Print Assumptions C33_never_stuck.
Theorem C33_turns_bounded : forall black raddr ls s ls' s' t p f k, exec (hstep black raddr) new_hub ls = Some s ->
  nth_error (hist s) t = Some (ERecv p (PQuery f)) -> In (EMark f k) (hist s) -> exec (hstep black raddr) s ls' = Some s' ->
  turns t ls' <= 2 * length (registrations f (hist s')) + 1.
Proof. exact turns_bound. Qed.
Print Assumptions C33_turns_bounded.
Theorem C33_can_be_answered : forall black raddr ls s t p f k, exec (hstep black raddr) new_hub ls = Some s -> halted s = false ->
  nth_error (hist s) t = Some (ERecv p (PQuery f)) -> In (EMark f k) (hist s) ->
  exists n s', exec (hstep black raddr) s (repeat (QStep t) n) = Some s' /\ answers t (hist s') <> [].
Proof. exact can_finish. Qed.
Print Assumptions C33_can_be_answered.
(* a query for a feature nobody registered spins: it can take any number of turns *)
Theorem C33_spins : forall black raddr ls s t p f n, exec (hstep black raddr) new_hub ls = Some s -> halted s = false ->
  nth_error (hist s) t = Some (ERecv p (PQuery f)) -> registrations f (hist s) = [] ->
  exists s', exec (hstep black raddr) s (repeat (QStep t) n) = Some s' /\ answers t (hist s') = [].
Proof. exact spins. Qed.
Print Assumptions C33_spins.
Example C33_case : exists s, exec (hstep H_black H_raddr) new_hub (H_register ++ [LRecv 9 (PQuery hx); QStep 13; LRecv 9 (PQuery [122%Z])] ++ repeat (QStep 15) 9 ++ H_ready) = Some s /\
  halted s = false /\ nth_error (hist s) 13 = Some (ERecv 9 (PQuery hx)) /\ In (EMark hx 1) (hist s) /\ answers 13 (hist s) = [] /\
  nth_error (hist s) 15 = Some (ERecv 9 (PQuery [122%Z])) /\ registrations [122%Z] (hist s) = [] /\ (forall k, ~ In (EMark [122%Z] k) (hist s)) /\
  exists s', exec (hstep H_black H_raddr) s [QStep 13; QStep 13] = Some s' /\ answers 13 (hist s') = [(9, [66%Z], 20002%Z)].
Proof.
  eexists. split; [vm_compute; reflexivity|]. repeat split; try (vm_compute; intuition; fail).
  - intros k. vm_compute. intuition discriminate.
  - eexists. split; [vm_compute; reflexivity|reflexivity].
Qed.

(* -- C34: departed docks *)
Theorem C34_answers_live_docks_refuted : ~ forall black raddr ls s, exec (hstep black raddr) new_hub ls = Some s ->
  forall j t p f k host port, nth_error (hist s) j = Some (EAnswer t p f k host port) ->
  exists d, nth_error (registrations f (hist s)) k = Some (d, host, port) /\ ~ In (EClosed d) (firstn t (hist s)).
Proof.
  intros H. concrete (hstep H_black H_raddr) new_hub (H_register ++ H_ready ++ [LClosed 2; LRecv 9 (PQuery hx); QStep 19; QStep 19; QStep 19]) s E.
  specialize (H _ _ _ _ E). vm_compute in E. injection E as <-. specialize (H 21 19 9 hx 1 [66%Z] 20002%Z eq_refl).
  destruct H as (d & A & B). vm_compute in A. injection A as <-. apply B. vm_compute. tauto.
Qed.
Print Assumptions C34_answers_live_docks_refuted.
(* in any state in which some registration of f was ever marked ready, whoever has left
   since, a new query is answered, with one of the registrations that were ready *)
Theorem C34_departed_docks_are_served : forall black raddr ls s p f k, exec (hstep black raddr) new_hub ls = Some s ->
  halted s = false -> handlers s p = HIdle -> In (EMark f k) (hist s) ->
  exists n s' k' d host port, exec (hstep black raddr) s (LRecv p (PQuery f) :: repeat (QStep (length (hist s))) n) = Some s' /\
    In (EAnswer (length (hist s)) p f k' host port) (hist s') /\
    nth_error (registrations f (hist s)) k' = Some (d, host, port) /\ In (EMark f k') (hist s).
Proof. exact departed_served. Qed.
Print Assumptions C34_departed_docks_are_served.
Example C34_case : exists s, exec (hstep H_black H_raddr) new_hub (H_register ++ H_ready ++ [LClosed 1; LClosed 2; LClosed 3]) = Some s /\
  halted s = false /\ handlers s 9 = HIdle /\ In (EMark hx 1) (hist s) /\
  forall d host port, In (d, host, port) (registrations hx (hist s)) -> In (EClosed d) (hist s).
Proof.
  eexists. split; [vm_compute; reflexivity|]. split; [reflexivity|]. split; [reflexivity|]. split; [vm_compute; intuition|].
  intros d host port. vm_compute. intuition congruence.
Qed.

(* -- C35: the host of an address *)
Theorem C35_host : forall host rest, ~ In 58%Z host -> pickIP (host ++ 58%Z :: rest) = host.
Proof. exact pickIP_prefix. Qed.
Print Assumptions C35_host.
Theorem C35_no_port : forall host, ~ In 58%Z host -> pickIP host = host.
Proof. exact pickIP_plain. Qed.
Print Assumptions C35_no_port.
Theorem C35_no_colon : forall addr, ~ In 58%Z (pickIP addr).
Proof. exact pickIP_no_colon. Qed.
Print Assumptions C35_no_colon.
Example C35_case : pickIP [49; 48; 46; 49; 58; 56; 48]%Z = [49; 48; 46; 49]%Z. (* "10.1:80" *)
Proof. reflexivity. Qed.
(* distinct hosts get distinct pools and the host itself: false for [2001::1]:5, [2001::2]:5 *)
Theorem C35_ipv6_hosts_refuted : ~ forall a b pa pb, a <> b -> pickIP (a ++ 58%Z :: pa) <> pickIP (b ++ 58%Z :: pb).
Proof.
  intros H. apply (H [91; 50; 48; 48; 49; 58; 58; 49; 93] [91; 50; 48; 48; 49; 58; 58; 50; 93] [53] [53])%Z; [discriminate|reflexivity].
Qed.
Print Assumptions C35_ipv6_hosts_refuted.
(* a host written with a colon never gets its own address back *)
Theorem C35_ipv6_truncated : forall host rest, In 58%Z host -> pickIP (host ++ rest) <> host.
Proof. exact pickIP_colon. Qed.
Print Assumptions C35_ipv6_truncated.

(* -- C56: a registration is recorded in full, then answered once with its port *)
Theorem C56_registration_complete : forall black raddr ls s p, exec (hstep black raddr) new_hub ls = Some s -> handlers s p = HIdle ->
  length (replies p (hist s)) = length (requests p (hist s)) /\ replies p (hist s) = granted p (hist s) /\
  recorded p (hist s) = records (requests p (hist s)) (replies p (hist s)).
Proof. exact registration_complete. Qed.
Print Assumptions C56_registration_complete.
(* at any moment: replies carry the ports allocated, in order; what was replied to is
   recorded; nothing else is *)
Theorem C56_replies_own_ports : forall black raddr ls s p, exec (hstep black raddr) new_hub ls = Some s ->
  exists rest, granted p (hist s) = replies p (hist s) ++ rest /\ length rest <= 1.
Proof. exact replies_own_ports. Qed.
Print Assumptions C56_replies_own_ports.
Theorem C56_recorded_before_reply : forall black raddr ls s p, exec (hstep black raddr) new_hub ls = Some s ->
  exists more, recorded p (hist s) = records (requests p (hist s)) (replies p (hist s)) ++ more /\
    exists more', recorded p (hist s) ++ more' = records (requests p (hist s)) (granted p (hist s)).
Proof. exact recorded_before_reply. Qed.
Print Assumptions C56_recorded_before_reply.
Example C56_case : exists s, exec (hstep H_black H_raddr) new_hub (H_register ++ [LRecv 1 (PRegister [hy; hy])] ++ repeat (HStep 1) 4) = Some s /\ handlers s 1 = HIdle /\
  requests 1 (hist s) = [[hx; hy]; [hy; hy]] /\ replies 1 (hist s) = [20002; 20005]%Z /\
  recorded 1 (hist s) = [(hx, 20002); (hy, 20002); (hy, 20005); (hy, 20005)]%Z.
Proof. eexists. split; [vm_compute; reflexivity|]. vm_compute. intuition. Qed.

(* -- C57: a ready packet marks the first registration of its sender *)
Theorem C57_ready_marks_the_first_registration : forall black raddr ls s d m sl f, exec (hstep black raddr) new_hub ls = Some s ->
  nth_error (hist s) m = Some (ERecv d (PReady sl)) -> In f sl -> In d (registrants f (firstn m (hist s))) -> handlers s d = HIdle ->
  exists k, first_at d (registrants f (hist s)) k /\ In (EMark f k) (hist s).
Proof. exact ready_marks. Qed.
Print Assumptions C57_ready_marks_the_first_registration.
Theorem C57_marks_only_first_registrations : forall black raddr ls s f k, exec (hstep black raddr) new_hub ls = Some s -> In (EMark f k) (hist s) ->
  exists d m sl, first_at d (registrants f (hist s)) k /\ nth_error (hist s) m = Some (ERecv d (PReady sl)) /\ In f sl.
Proof. exact marks_first_only. Qed.
Print Assumptions C57_marks_only_first_registrations.
Example C57_case : exists s, exec (hstep H_black H_raddr) new_hub (H_register ++ H_ready) = Some s /\
  nth_error (hist s) 14 = Some (ERecv 1 (PReady [hx; hy])) /\ registrants hy (firstn 14 (hist s)) = [1] /\ handlers s 1 = HIdle /\ In (EMark hy 0) (hist s).
Proof. eexists. split; [vm_compute; reflexivity|]. vm_compute. intuition. Qed.
(* a dock that registers again on the same connection is never served at its new port *)
Theorem C57_latest_registration_served_refuted : ~ forall black raddr ls s d m sl f, exec (hstep black raddr) new_hub ls = Some s ->
  nth_error (hist s) m = Some (ERecv d (PReady sl)) -> In f sl -> handlers s d = HIdle ->
  forall k, nth_error (registrants f (firstn m (hist s))) k = Some d -> In (EMark f k) (hist s).
Proof.
  intros H. concrete (hstep H_black H_raddr) new_hub ([LRecv 1 (PRegister [hx])] ++ repeat (HStep 1) 3 ++ [LRecv 1 (PRegister [hx])] ++ repeat (HStep 1) 3 ++
    [LRecv 1 (PReady [hx])] ++ repeat (HStep 1) 3) s E.
  specialize (H _ _ _ _ 1 8 [hx] hx E). vm_compute in E. injection E as <-. specialize (H eq_refl (or_introl eq_refl) eq_refl 1 eq_refl).
  vm_compute in H. intuition discriminate.
Qed.
Print Assumptions C57_latest_registration_served_refuted.
