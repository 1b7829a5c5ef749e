(* C68: schedules that lead to races. *)
From Verif Require Import RaceModel RaceSpec RaceProof.

(* goroutine t takes n steps, choosing 0 *)
Definition z (t n : nat) : list lab := repeat (t, 0) n.
Ltac witness ls t u w :=
  eexists; split; [split; [repeat constructor|exists ls; vm_compute; reflexivity]|];
  exists t, u, w; split; [discriminate|]; split; eexists; reflexivity.

Lemma race_HStubs v : exists s, reached [FServe 0] s /\ race s (HStubs v).
Proof.
  witness (z 0 16 ++ [(0, 1); (0, 0); (0, 0); (1, 1); (1, 0); (1, 1)] ++ z 1 11 ++ [(1, 1); (1, 0); (1, 1);
    (1, 0); (1, 1)] ++ z 1 9 ++ [(5, 1)] ++ z 5 3 ++ [(5, 1); (5, 1); (5, 0); (6, 1)] ++ z 6 7 ++ [(6, v); (6,
    1); (6, 0); (3, 1)] ++ z 3 14 ++ [(3, 1)] ++ z 3 8 ++ [(3, v)]) 3 6 false.
Qed.
Lemma race_HReady k : exists s, reached [FServe 0] s /\ race s (HReady k).
Proof.
  witness (z 0 16 ++ [(0, 1); (0, 0); (0, 0); (1, 1); (1, 0); (1, 1)] ++ z 1 11 ++ [(1, 1); (1, 0); (1, 1);
    (1, 0); (1, 1)] ++ z 1 9 ++ [(3, 1)] ++ z 3 14 ++ [(3, 1)] ++ z 3 12 ++ [(3, 1); (3, 0); (5, 1)] ++ z 5 3
    ++ [(5, 1); (5, 1); (5, 0); (6, 1)] ++ z 6 8 ++ [(6, 1)] ++ z 6 3 ++ [(6, k); (3, 0); (3, 0); (3, 1); (3,
    0); (3, 1)] ++ z 3 11 ++ [(3, k)]) 3 6 false.
Qed.
Lemma race_DSockets d : exists s, reached [FStartup d] s /\ race s (DSockets d).
Proof.
  witness (z 0 16 ++ [(0, 1)] ++ z 0 11 ++ [(3, 1)] ++ z 3 3 ++ [(3, 1); (3, 1)] ++ z 3 11 ++ [(3, 1)] ++ z 3
    3 ++ [(3, 1)] ++ z 3 5 ++ [(0, 0); (0, 0)]) 3 0 false.
Qed.
Lemma race_DRpcs d : exists s, reached [FStartup d; FHandling d 0] s /\ race s (DRpcs d).
Proof.
  witness (z 0 16 ++ [(0, 1)] ++ z 0 11 ++ [(4, 1)] ++ z 4 3 ++ [(4, 1); (4, 1)] ++ z 4 11 ++ [(4, 1)] ++ z 4
    3 ++ [(4, 1)] ++ z 4 9 ++ [(6, 0); (6, 0); (6, 1); (6, 1); (6, 1)] ++ z 6 4 ++ [(6, 1); (6, 0); (1, 1)] ++
    z 1 6 ++ [(1, 1)] ++ z 1 6) 6 1 true.
Qed.
Lemma race_RReq r : exists s, reached [FStartup 0] s /\ race s (RReq r).
Proof.
  witness (z 0 16 ++ [(0, 1)] ++ z 0 11 ++ [(3, 1)] ++ z 3 3 ++ [(3, 1); (3, 1)] ++ z 3 11 ++ [(3, 1)] ++ z 3
    3 ++ [(3, 1)] ++ z 3 9 ++ [(5, 0); (5, 0); (5, 1); (5, r); (5, 1)] ++ z 5 4 ++ [(5, r)] ++ z 5 3 ++ [(3,
    1)] ++ z 3 4 ++ [(3, 1)] ++ z 3 3 ++ [(3, r); (3, 0)]) 5 3 false.
Qed.
Lemma race_Visiters c : exists s, reached [FStartup 0; FHandling 0 c] s /\ race s (Visiters c).
Proof.
  witness (z 0 16 ++ [(0, 1)] ++ z 0 11 ++ [(4, 1)] ++ z 4 3 ++ [(4, 1); (4, 1)] ++ z 4 11 ++ [(4, 1)] ++ z 4
    3 ++ [(4, 1)] ++ z 4 9 ++ [(6, 0); (6, 0); (6, 1); (6, c); (6, 1); (6, 1)] ++ z 6 7 ++ [(1, 1)] ++ z 1 6
    ++ [(1, 1); (1, 1)] ++ z 1 7) 6 1 true.
Qed.
Lemma race_Timeouts c : exists s, reached [FStartup 0; FHandling 0 c] s /\ race s (Timeouts c).
Proof.
  witness (z 0 16 ++ [(0, 1)] ++ z 0 11 ++ [(4, 1)] ++ z 4 3 ++ [(4, 1); (4, 1)] ++ z 4 11 ++ [(4, 1)] ++ z 4
    3 ++ [(4, 1)] ++ z 4 9 ++ [(6, 0); (6, 0); (6, 1); (6, c); (6, 1); (6, 1); (6, 1); (1, 1); (1, 0); (1,
    0)]) 6 1 false.
Qed.
Lemma race_Insts : exists s, reached [FStartup 0; FStartup 1] s /\ race s Insts.
Proof.
  witness (z 0 16 ++ [(0, 1)] ++ z 0 17 ++ z 1 12 ++ [(1, 1)] ++ z 1 3 ++ [(1, 1); (1, 0); (1, 1)] ++ z 1 15)
    0 1 true.
Qed.
Lemma race_Serializers : exists s, reached [FStartup 0; FStartup 1] s /\ race s Serializers.
Proof.
  witness ([(0, 0); (1, 0)]) 0 1 true.
Qed.
Lemma race_Listeners : exists s, reached [FServe 0; FStartup 0] s /\ race s Listeners.
Proof.
  witness (z 1 19 ++ [(2, 0); (2, 1)] ++ z 2 4 ++ z 0 20) 0 2 false.
Qed.
Lemma race_Vport : exists s, reached [FStartup 0; FStartup 1] s /\ race s Vport.
Proof.
  witness (z 0 19 ++ z 1 12 ++ [(1, 1)] ++ z 1 4 ++ [(1, 1); (1, 0); (2, 0); (2, 1)] ++ z 2 9 ++ [(3, 0); (3,
    1)] ++ z 3 9) 2 3 true.
Qed.
Lemma race_CStatus c : exists s, reached [FServe 0; FStartup 0] s /\ race s (CStatus c).
Proof.
  witness (z 0 16 ++ [(0, 1); (0, 0); (0, 0)] ++ z 1 12 ++ [(1, c)] ++ z 1 4 ++ [(1, c); (1, 0)] ++ z 3 5 ++
    [(2, 1); (2, 0); (2, 0); (2, c)] ++ z 2 3) 2 3 false.
Qed.
Lemma race_Makers : exists s, reached [FMock; FStartup 0] s /\ race s Makers.
Proof.
  witness (z 0 8 ++ z 1 15) 0 1 false.
Qed.
Lemma race_HDocks h : exists s, reached [FServe h; FClose] s /\ race s (HDocks h).
Proof.
  witness (z 0 16 ++ [(0, 1); (0, 0); (0, 0); (2, 1); (2, 0); (2, 1)] ++ z 2 11 ++ z 0 3 ++ z 1 3 ++ [(1, 1);
    (1, 0); (1, h); (1, 0); (1, h)] ++ z 1 9 ++ [(4, 1)] ++ z 4 3 ++ [(4, 1); (4, 0); (4, 1)] ++ z 4 3) 1 4
    false.
Qed.
Lemma race_HPorts h : exists s, reached [FServe h; FClose] s /\ race s (HPorts h).
Proof.
  witness (z 0 16 ++ [(0, 1); (0, 0); (0, 0); (2, 1); (2, 0); (2, 1)] ++ z 2 11 ++ z 0 3 ++ z 1 3 ++ [(1, 1);
    (1, 0); (1, h); (1, 0); (1, h)] ++ z 1 11 ++ [(4, 1)] ++ z 4 8) 1 4 false.
Qed.
Lemma race_HBlack h : exists s, reached [FServe h; FClose] s /\ race s (HBlack h).
Proof.
  witness (z 0 16 ++ [(0, 1); (0, 0); (0, 0); (2, 1); (2, 0); (2, 1)] ++ z 2 11 ++ z 0 3 ++ z 1 3 ++ [(1, 1);
    (1, 0); (1, h); (1, 0); (1, h)] ++ z 1 12 ++ [(4, 1)] ++ z 4 10 ++ [(4, 1)]) 1 4 false.
Qed.
Lemma race_DSlots d : exists s, reached [FStartup d; FClose] s /\ race s (DSlots d).
Proof.
  witness (z 0 16 ++ [(0, 1)] ++ z 0 18 ++ z 1 3 ++ [(1, 1); (1, 1); (1, d)] ++ z 1 5 ++ [(4, 1)] ++ z 4 3 ++
    [(4, 1); (4, 0); (4, 0)]) 1 4 false.
Qed.
Lemma race_PSink p : exists s, reached [FServe 0; FClose] s /\ race s (PSink p).
Proof.
  witness (z 0 16 ++ [(0, 1); (0, 0); (0, 0); (2, 1); (2, 0); (2, 1); (2, 0); (2, p)] ++ z 2 9 ++ z 0 3 ++ z 1
    3 ++ [(1, 1)] ++ z 1 10 ++ [(1, 1); (1, p)] ++ z 1 6 ++ [(4, 1); (4, 0)]) 1 4 false.
Qed.
Lemma race_SPeers q : exists s, reached [FServe 0; FClose] s /\ race s (SPeers q).
Proof.
  witness (z 0 12 ++ [(0, q)] ++ z 0 3 ++ [(0, 1); (0, 0); (0, 0); (2, 1); (2, 0); (2, 1)] ++ z 2 11 ++ z 0 3
    ++ [(2, 1); (2, 0); (2, 1); (2, 0); (2, 1)] ++ z 2 3 ++ z 1 3 ++ [(1, 1)] ++ z 1 3 ++ [(1, q)] ++ z 1 4) 2
    1 false.
Qed.
Lemma race_CPeer p : exists s, reached [FServe 0; FClose] s /\ race s (CPeer p).
Proof.
  witness (z 0 16 ++ [(0, 1); (0, 0); (0, 0); (2, 1); (2, 0); (2, 1); (2, 0); (2, p)] ++ z 2 9 ++ z 0 3 ++ z 1
    3 ++ [(1, 1)] ++ z 1 10 ++ [(1, 1); (1, p)] ++ z 1 11 ++ [(3, 1); (3, 0)]) 1 3 false.
Qed.
Lemma race_LConns q : exists s, reached [FServe 0; FClose] s /\ race s (LConns q).
Proof.
  witness (z 0 12 ++ [(0, q)] ++ z 0 3 ++ [(0, 1); (0, 0); (0, 0); (2, 1); (2, 0); (2, 1)] ++ z 2 11 ++ z 0 3
    ++ [(2, 1); (2, 0); (2, 0); (2, 1)] ++ z 2 4 ++ z 1 3 ++ [(1, 1)] ++ z 1 3 ++ [(1, q); (1, 0); (1, 0)]) 2
    1 true.
Qed.

(* the theorems *)
Lemma guarded fs s x : safe x -> reached fs s -> ~ race s x.
Proof.
  intros X (_ & ls & E). apply (no_race (fun _ => True) need_all); [|destruct x; cbn in *; first [discriminate | destruct X]].
  eapply inv_reach; [exact bodies_all| |exact E]. apply Forall_forall. auto.
Qed.
Lemma open_reach fs ls s : ~ In FClose fs -> exec rstep (start fs) ls = Some s -> inv open_fn need_open s.
Proof.
  intros N. apply inv_reach; [exact bodies_open|]. apply Forall_forall. intros f I ->. auto.
Qed.
Lemma guarded_open fs s x : safe_until_close x -> ~ In FClose fs -> reached fs s -> ~ race s x.
Proof.
  intros X N (_ & ls & E). apply (no_race open_fn need_open); [|destruct x; cbn in *; first [discriminate | destruct X]].
  eapply open_reach; eauto.
Qed.
Definition need_makers (x : loc) : guard := match x with Makers => Never | x => need_all x end.
Lemma bodies_makers f : f <> FMock -> ok (fun f => f <> FMock) need_makers (body f) None None.
Proof.
  intros A. destruct f as [| | | | | |[] |  |[] | | | | | ]; cbn; try (exfalso; apply A; reflexivity); tree; try discriminate.
Qed.
Lemma makers_open fs s : ~ In FMock fs -> reached fs s -> ~ race s Makers.
Proof.
  intros N (_ & ls & E). apply (no_race (fun f => f <> FMock) need_makers); [|discriminate].
  eapply inv_reach; [exact bodies_makers| |exact E]. apply Forall_forall. intros f I ->. auto.
Qed.
Lemma mutexes_released fs s t m u : reached fs s -> waits s t m u ->
  t <> u /\ exists n s', exec rstep s (repeat (u, 0) n) = Some s' /\ held s' m = None /\ exists s2, rstep s' (t, 0) = Some s2.
Proof.
  intros (_ & ls & E) ((k & Et) & H).
  assert (Hi : inv (fun _ => True) need_all s). { eapply inv_reach; [exact bodies_all| |exact E]. apply Forall_forall. auto. }
  assert (N : t <> u).
  { intros <-. destruct Hi as [I _]. destruct (I _ _ Et) as (h & (g & Oa & _) & Hh). cbn in Oa. destruct Oa as [-> _].
    apply Hh in H. discriminate. }
  split; [exact N|]. destruct (release _ _ bodies_all _ _ _ Hi H) as (n & s' & X & Y). exists n, s'. split; [exact X|]. split; [exact Y|].
  assert (Et' : nth_error (threads s') t = Some (Lk m :: k)).
  { clear Hi H E Y. revert s X Et. induction n as [|n IH]; intros s X Et; [injection X as <-; exact Et|].
    simpl repeat in X. unfold exec in X. fold (exec rstep) in X. destruct (rstep s (u, 0)) as [s1|] eqn:E1; [|discriminate].
    apply (IH s1 X). unfold rstep in E1. destruct (nth_error (threads s) u) as [[|a k1]|]; try discriminate.
    assert (L : t < length (threads s)) by (apply nth_error_Some; congruence).
    destruct a; try (destruct (held s _); [discriminate|]); injection E1 as <-; cbn; rewrite ?nth_error_app1 by (rewrite put_length; exact L);
      rewrite nth_put_other by auto; exact Et. }
  unfold rstep. rewrite Et', Y. eauto.
Qed.
Lemma races x : raced x -> exists fs s, (forall f, In f fs -> f <> FClose /\ f <> FMock) /\ reached fs s /\ race s x.
Proof.
  assert (K : forall fs s, reached fs s -> race s x -> forallb (fun f => match f with FClose | FMock => false | _ => true end) fs = true ->
    exists fs s, (forall f, In f fs -> f <> FClose /\ f <> FMock) /\ reached fs s /\ race s x).
  { intros fs s R X B. exists fs, s. split; [|auto]. intros f I. rewrite forallb_forall in B. specialize (B _ I). destruct f; split; discriminate. }
  intros X. destruct x; try destruct X.
  - destruct (race_HStubs v) as (s & R & Y). eapply K; eauto.
  - destruct (race_HReady k) as (s & R & Y). eapply K; eauto.
  - destruct (race_DSockets d) as (s & R & Y). eapply K; eauto.
  - destruct (race_DRpcs d) as (s & R & Y). eapply K; eauto.
  - destruct (race_RReq r) as (s & R & Y). eapply K; eauto.
  - destruct (race_Visiters c) as (s & R & Y). eapply K; eauto.
  - destruct race_Insts as (s & R & Y). eapply K; eauto.
  - destruct (race_Timeouts c) as (s & R & Y). eapply K; eauto.
  - destruct race_Serializers as (s & R & Y). eapply K; eauto.
  - destruct race_Listeners as (s & R & Y). eapply K; eauto.
  - destruct race_Vport as (s & R & Y). eapply K; eauto.
  - destruct (race_CStatus c) as (s & R & Y). eapply K; eauto.
Qed.
Lemma close_races x : safe_until_close x \/ raced_by_close x -> exists fs s, ~ In FMock fs /\ reached fs s /\ race s x.
Proof.
  assert (K : forall fs s, reached fs s -> race s x -> forallb (fun f => match f with FMock => false | _ => true end) fs = true ->
    exists fs s, ~ In FMock fs /\ reached fs s /\ race s x).
  { intros fs s R X B. exists fs, s. split; [|auto]. intros I. rewrite forallb_forall in B. specialize (B _ I). discriminate. }
  intros X. destruct x; try (destruct X as [[]|[]]; fail).
  - destruct (race_HDocks h) as (s & R & Y). eapply K; eauto.
  - destruct (race_HPorts h) as (s & R & Y). eapply K; eauto.
  - destruct (race_HBlack h) as (s & R & Y). eapply K; eauto.
  - destruct (race_DSlots d) as (s & R & Y). eapply K; eauto.
  - destruct (race_SPeers s) as (s' & R & Y). eapply K; eauto.
  - destruct (race_PSink p) as (s' & R & Y). eapply K; eauto.
  - destruct (race_CPeer c) as (s' & R & Y). eapply K; eauto.
  - destruct (race_LConns s) as (s' & R & Y). eapply K; eauto.
Qed.
