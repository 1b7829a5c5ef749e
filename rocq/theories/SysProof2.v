(* Whole remote calls in a system. *)
From Verif Require Import Lts GoVal Tables DockModel DockSpec DockProof DockProof2 DockProof3 DockProof4 DockProof5 DockProof7 DockProof8 SysModel SysSpec SysProof.
From Verif Require HubModel HubSpec.
From Coq Require Import Arith Bool List ZArith Lia.
Import ListNotations.
Open Scope nat_scope.

Ltac other := exfalso; match goal with
  | H : forall q, KRequest _ <> KRequest q |- _ => exact (H _ eq_refl)
  | H : forall q, KResponse _ <> KResponse q |- _ => exact (H _ eq_refl) end.

Section Sys.
Context {V : Type}.
Variables (carried : nat -> list (name * bool)) (link : nat -> nat -> wend) (hublink : nat -> option (nat * nat)).
Variable carry : nat -> nat -> list V -> option (list V).
Variables (black : list Z) (raddr : nat -> name) (hostport : name -> Z -> name).
Hypothesis W : wired link hublink.
Notation step := (sstep link hublink carry black raddr hostport).
Notation sys := (SysModel.sys V).
Notation ok := (ok carried link hublink carry black raddr hostport).

Lemma got_in p k (h : list (event V)) : In k (got_on p h) <-> In (ERecv p k) h.
Proof.
  unfold got_on. rewrite in_flat_map. split.
  - intros (e & He & Hk). destruct e; cbn in Hk; try destruct Hk. destruct (Nat.eqb_spec p0 p) as [->|]; [|destruct Hk].
    destruct Hk as [->|[]]. auto.
  - intros H. exists (ERecv p k). split; auto. rewrite Nat.eqb_refl. now left.
Qed.
Lemma sent_in p k (h : list (event V)) : In k (sent_on p h) <-> In (ESend p k true) h.
Proof.
  unfold sent_on. rewrite in_flat_map. split.
  - intros (e & He & Hk). destruct e; cbn in Hk; try destruct Hk. destruct accepted; [|destruct Hk].
    destruct (Nat.eqb_spec p0 p) as [->|]; [|destruct Hk]. destruct Hk as [->|[]]. auto.
  - intros H. exists (ESend p k true). split; auto. rewrite Nat.eqb_refl. now left.
Qed.
Lemma pass_arrives i j k k' : pass carry i j k = Some k' <-> arrives (carry i j) k k'.
Proof.
  split.
  - destruct k; cbn; try (intros [= <-]; constructor; congruence).
    + destruct (carry i j (q_args q)) eqn:E; [|discriminate]. intros [= <-]. destruct q; cbn in *. now constructor.
    + destruct (carry i j (p_result r)) eqn:E; [|discriminate]. intros [= <-]. destruct r; cbn in *. now constructor.
  - intros []; cbn; try (now rewrite H). destruct k0; auto; exfalso; [eapply H|eapply H0]; reflexivity.
Qed.

Lemma came_flow s i p k : ok s -> In k (flow s i p) ->
  match link i p with
  | ToDock j q => exists k0, In (ESend q k0 true) (hist (sd s j)) /\ arrives (carry j i) k0 k
  | ToHub h => In k (hub_out hostport h (HubModel.hist (sh s)))
  | Nowhere => False
  end.
Proof.
  intros O H. assert (X : In k (source link carry hostport s i p)) by (eapply sq_in; [apply O|exact H]).
  unfold source in X. destruct (link i p) as [|j q|h]; auto.
  apply omap_in in X as (k0 & H0 & E). exists k0. split; [now apply sent_in|now apply pass_arrives].
Qed.
Lemma came_from s i p k : ok s -> In (ERecv p k) (hist (sd s i)) ->
  match link i p with
  | ToDock j q => exists k0, In (ESend q k0 true) (hist (sd s j)) /\ arrives (carry j i) k0 k
  | ToHub h => In k (hub_out hostport h (HubModel.hist (sh s)))
  | Nowhere => False
  end.
Proof. intros O H. apply came_flow; auto. apply in_or_app. left. now apply got_in. Qed.
Lemma hub_packets h es (k : packet V) : In k (hub_out hostport h es) -> (exists port, k = KRegistered port) \/ exists a, k = KAddress a.
Proof.
  unfold hub_out. rewrite in_flat_map. intros (e & _ & He). destruct e; cbn in He; try destruct He;
    (destruct (p =? h); [|destruct He]; destruct He as [<-|[]]; eauto).
Qed.

(* A request received: committed by the dock at the other end, which had the receiver's announcement. *)
Lemma request_source s j p q : ok s -> In (ERecv p (KRequest q)) (hist (sd s j)) ->
  exists i p' c q0, link i p' = ToDock j p /\ link j p = ToDock i p' /\
    In (ENew c q0) (hist (sd s i)) /\ In (ECommit c p' true) (hist (sd s i)) /\ In (ESend p' (KRequest q0) true) (hist (sd s i)) /\
    arrives (carry i j) (KRequest q0) (KRequest q) /\
    exists sl, In (ESend p (KRegister sl) true) (hist (sd s j)) /\ In (q_slot q0) sl.
Proof.
  intros O H. pose proof (came_from _ _ _ _ O H) as C. destruct (link j p) as [|i p'|h] eqn:El; [destruct C| |].
  2: { apply hub_packets in C as [[? C]|[? C]]; discriminate. }
  destruct C as (k0 & Hs & A). assert (El' := El). apply W in El'.
  assert (exists q0, k0 = KRequest q0) as [q0 ->]. { inversion A; subst; eauto. }
  destruct (docks_run _ _ _ _ _ _ _ _ O i) as [ls L]. destruct (in_split _ _ Hs) as (a & b & E).
  destruct (send_event _ _ _ _ _ _ _ _ L E) as (a' & c & ->).
  assert (E' : hist (sd s i) = a' ++ ECommit c p' true :: ESend p' (KRequest q0) true :: b) by (rewrite E, <- app_assoc; reflexivity).
  destruct (commit_spec _ _ _ _ _ _ _ _ L E') as (q1 & b' & N & Eb & _ & sl & Hsl & Hin). injection Eb as <- _.
  exists i, p', c, q0. repeat split; auto.
  - rewrite E'. apply in_or_app. now left.
  - rewrite E'. apply in_or_app. right. now left.
  - assert (R : In (ERecv p' (KRegister sl)) (hist (sd s i))) by (rewrite E'; apply in_or_app; now left).
    pose proof (came_from _ _ _ _ O R) as C. rewrite El' in C. destruct C as (k0 & Hk & A'). inversion A'; subst. exists sl. auto.
Qed.

Lemma accepted_recv fs (h : list (event V)) p q : In (p, q) (accepted fs h) -> In (ERecv p (KRequest q)) h /\ In (q_slot q) fs.
Proof.
  induction h as [|e h IH]; cbn; [intros []|]. intros H.
  assert (X : In (p, q) (accepted fs h) -> (e = ERecv p (KRequest q) \/ In (ERecv p (KRequest q)) h) /\ In (q_slot q) fs) by (intros Y; destruct (IH Y); auto).
  destruct e; auto; [|destruct H]. destruct k; auto. destruct (existsb (zlist_eqb (q_slot q0)) fs) eqn:E; auto.
  destruct H as [H|H]; auto. injection H as -> ->. split; auto. apply existsb_exists in E as (f & Hf & Ef).
  destruct (zlist_eqb_spec (q_slot q) f) as [->|]; [assumption|discriminate].
Qed.
Lemma accepted_twice fs (h : list (event V)) p x :
  twice (fun y => fst y = p /\ q_index (snd y) = x) (accepted fs h) ->
  twice (fun k => exists q, k = KRequest q /\ q_index q = x) (got_on p h).
Proof.
  intros T. assert (S : subseq (map (fun y => KRequest (snd y)) (filter (fun y => fst y =? p) (accepted fs h))) (got_on p h)).
  { clear. induction h as [|e h IH]; cbn; [constructor|]. destruct e; cbn; auto using sq_empty.
    destruct k as [| | | | | |q|]; cbn.
    7: { destruct (existsb (zlist_eqb (q_slot q)) fs); cbn; destruct (p0 =? p); cbn; auto using sq_keep, sq_skip. }
    all: destruct (p0 =? p); cbn; auto using sq_skip. }
  eapply sq_twice; [exact S|]. destruct T as (a & [p1 q1] & b & [p2 q2] & c & -> & [E1 X1] & [E2 X2]). cbn in *. subst.
  rewrite filter_app. cbn. rewrite Nat.eqb_refl, filter_app. cbn. rewrite Nat.eqb_refl. rewrite map_app. cbn. rewrite map_app. cbn.
  do 5 eexists. split; [reflexivity|]. split; eauto.
Qed.

(* The request of a call goes out at most once. *)
Lemma sent_twice ls (d : dock V) cr p x : exec dstep (new_dock cr) ls = Some d -> NoDup (map q_index (requests (hist d))) ->
  ~ twice (fun k => exists q, k = KRequest q /\ q_index q = x) (sent_on p (hist d)).
Proof.
  intros L N T. apply (fm_twice _ _ (fun e => exists q, e = ESend p (KRequest q) true /\ q_index q = x)) in T.
  2: { intros []; auto. destruct accepted; auto. destruct (p0 =? p); eauto. }
  2: { intros e k1 E (q1 & -> & X). destruct e; try discriminate. destruct accepted; [|discriminate]. destruct (Nat.eqb_spec p0 p) as [->|]; [|discriminate].
       injection E as ->. eauto. }
  destruct T as (a & e1 & b & e2 & c & E & (q1 & -> & X1) & (q2 & -> & X2)).
  destruct (send_event _ _ _ _ _ _ _ _ L E) as (a' & c1 & Ea).
  assert (E2 : hist d = (a ++ ESend p (KRequest q1) true :: b) ++ ESend p (KRequest q2) true :: c) by (rewrite E, <- app_assoc; reflexivity).
  destruct (send_event _ _ _ _ _ _ _ _ L E2) as (a2 & c2 & Ea2).
  assert (exists b', b = b' ++ [ECommit c2 p true]) as [b' ->].
  { destruct b as [|z b] using rev_ind; [apply app_inj_tail in Ea2 as [_ Y]; discriminate|]. exists b.
    change (ESend p (KRequest q1) true :: b ++ [z]) with ((ESend p (KRequest q1) true :: b) ++ [z]) in Ea2. rewrite app_assoc in Ea2.
    apply app_inj_tail in Ea2 as [_ ->]. reflexivity. }
  subst a.
  assert (F1 : hist d = a' ++ ECommit c1 p true :: ESend p (KRequest q1) true :: (b' ++ [ECommit c2 p true]) ++ ESend p (KRequest q2) true :: c) by (rewrite E, <- !app_assoc; reflexivity).
  assert (F2 : hist d = (a' ++ [ECommit c1 p true; ESend p (KRequest q1) true] ++ b') ++ ECommit c2 p true :: ESend p (KRequest q2) true :: c)
    by (rewrite E; cbn; repeat (rewrite <- !app_assoc; cbn); reflexivity).
  destruct (commit_spec _ _ _ _ _ _ _ _ L F1) as (q1' & b1 & N1 & B1 & _). injection B1 as <- _.
  destruct (commit_spec _ _ _ _ _ _ _ _ L F2) as (q2' & b2 & N2 & B2 & _). injection B2 as <- _.
  assert (In (ENew c1 q1) (hist d)) by (rewrite F1; apply in_or_app; now left).
  assert (In (ENew c2 q2) (hist d)) by (rewrite F2; apply in_or_app; now left).
  destruct (call_unique _ _ _ _ _ _ _ L N H H0) as [<- _]; [congruence|].
  pose proof (commit_once _ _ _ c1 L) as C. rewrite F2, !commits_app in C. cbn in C. rewrite Nat.eqb_refl in C.
  rewrite !app_length in C. cbn in C. lia.
Qed.

Lemma got_twice s i r j p x : ok s -> NoDup (map q_index (requests (hist (sd s i)))) -> link j p = ToDock i r ->
  ~ twice (fun k => exists q, k = KRequest q /\ q_index q = x) (got_on p (hist (sd s j))).
Proof.
  intros O N Lk T. destruct (docks_run _ _ _ _ _ _ _ _ O i) as [ls L]. apply (sent_twice _ _ _ r x L N).
  apply (omap_twice (pass carry i j) (fun k => exists q, k = KRequest q /\ q_index q = x)).
  - intros k k' P (q & -> & X). apply pass_arrives in P. inversion P; subst; eauto.
  - assert (F := flows _ _ _ _ _ _ _ _ O j p). unfold source in F. rewrite Lk in F. eapply sq_twice; [exact F|].
    destruct T as (a & y & b & z & c & E & Hy & Hz). unfold flow. rewrite E. exists a, y, b, z, (c ++ wire s j p).
    split; auto. rewrite <- app_assoc. cbn. now rewrite <- app_assoc.
Qed.

Lemma executed_once s i c q j k p q2 j' k' p' q2' : ok s -> NoDup (map q_index (requests (hist (sd s i)))) -> In (ENew c q) (hist (sd s i)) ->
  nth_error (accepted (map fst (carried j)) (hist (sd s j))) k = Some (p, q2) -> (exists r, link j p = ToDock i r) -> q_index q2 = q_index q ->
  nth_error (accepted (map fst (carried j')) (hist (sd s j'))) k' = Some (p', q2') -> (exists r, link j' p' = ToDock i r) -> q_index q2' = q_index q ->
  j' = j /\ k' = k.
Proof.
  intros O N Nw K1 (r1 & L1) X1 K2 (r2 & L2) X2.
  destruct (docks_run _ _ _ _ _ _ _ _ O i) as [ls L].
  assert (A : forall j k p q2 r, nth_error (accepted (map fst (carried j)) (hist (sd s j))) k = Some (p, q2) -> link j p = ToDock i r ->
    q_index q2 = q_index q -> link i r = ToDock j p /\ In (ECommit c r true) (hist (sd s i))).
  { clear - O W N Nw L. intros j k p q2 r K Lk X. apply nth_error_In, accepted_recv in K as [K _].
    destruct (request_source _ _ _ _ O K) as (i' & p' & c' & q0 & E1 & E2 & N' & C & _ & A & _).
    rewrite Lk in E2. injection E2 as <- <-. inversion A; subst; cbn in X; [|other].
    destruct (call_unique _ _ _ _ _ _ _ L N Nw N') as [<- _]; [cbn; congruence|auto]. }
  destruct (A _ _ _ _ _ K1 L1 X1) as [E1 C1]. destruct (A _ _ _ _ _ K2 L2 X2) as [E2 C2].
  destruct (commits_two _ _ _ _ _ _ C1 C2 (commit_once _ _ _ c L)) as [<- _]. rewrite E1 in E2. injection E2 as <- <-.
  split; auto. destruct (lt_eq_lt_dec k k') as [[Lt|]|Lt]; auto; exfalso.
  all: assert (T : twice (fun y => fst y = p /\ q_index (snd y) = q_index q) (accepted (map fst (carried j)) (hist (sd s j))))
    by (first [solve [eapply (nth_twice _ _ k k'); cbn; eauto] | eapply (nth_twice _ _ k' k); cbn; eauto]).
  all: apply accepted_twice in T; revert T; eapply got_twice; eauto.
Qed.

Lemma returned_call s i c x : ok s -> NoDup (map q_index (requests (hist (sd s i)))) -> In (EReturn c x) (hist (sd s i)) ->
  exists q j k, In (ENew c q) (hist (sd s i)) /\ executed carried link carry s i q j k x.
Proof.
  intros O N R. destruct (docks_run _ _ _ _ _ _ _ _ O i) as [ls L]. destruct (in_split _ _ R) as (a & b & E).
  destruct (return_spec _ _ _ _ _ _ _ L E) as (q & pr & r & Nq & Rr & Xr & D).
  assert (Nq' : In (ENew c q) (hist (sd s i))) by (rewrite E; apply in_or_app; now left).
  assert (Rr' : In (ERecv pr (KResponse r)) (hist (sd s i))) by (rewrite E; apply in_or_app; now left).
  pose proof (came_from _ _ _ _ O Rr') as C. destruct (link i pr) as [|j pj|h] eqn:El; [destruct C| |].
  2: { apply hub_packets in C as [[? C]|[? C]]; discriminate. }
  destruct C as (k0 & Hs & A).
  assert (exists r0, k0 = KResponse r0) as [r0 ->]. { inversion A; subst; eauto. }
  destruct (docks_run _ _ _ _ _ _ _ _ O j) as [lj Lj]. destruct (in_split _ _ Hs) as (u & v & Ej).
  destruct (response_event _ _ _ _ _ _ _ _ Lj Ej) as (u' & k & ->).
  assert (Ej' : hist (sd s j) = u' ++ EReplied k true :: ESend pj (KResponse r0) true :: v) by (rewrite Ej, <- app_assoc; reflexivity).
  destruct (reply_spec _ _ _ _ _ _ _ Lj Ej') as (p2 & q2 & res & err & r2 & b' & Acc & Run & Eb & Ans).
  injection Eb as <- <- _.
  assert (Acc' : nth_error (accepted (map fst (carried j)) (hist (sd s j))) k = Some (pj, q2)).
  { rewrite Ej', accepted_app. rewrite nth_error_app1; auto. apply nth_error_Some. congruence. }
  assert (Run' : runs k (hist (sd s j)) = [(res, err)]).
  { destruct (serve_bounds _ _ _ k Lj) as [B _]. rewrite Ej', runs_app, Run in B. rewrite Ej', runs_app, Run. rewrite app_length in B. cbn [length] in B.
    destruct (runs k (EReplied k true :: ESend pj (KResponse r0) true :: v)); cbn in B; [reflexivity|lia]. }
  assert (Rq := Acc'). apply nth_error_In, accepted_recv in Rq as [Rq _].
  destruct (request_source _ _ _ _ O Rq) as (i' & p' & c' & q0 & E1 & E2 & N' & _ & _ & A2 & sl & Hsl & Hin).
  assert (El' := El). apply W in El'. rewrite El' in E2. injection E2 as <- <-.
  destruct Ans as (I1 & _ & _ & Res & Er1 & Er2). destruct D as (D1 & D2 & D3).
  inversion A; subst; [|other]. inversion A2; subst; [|other]. cbn in *.
  destruct (call_unique _ _ _ _ _ _ _ L N Nq' N') as [<- ->]; [cbn; congruence|]. cbn in *.
  exists (mkReq i1 s1 m0 a0 w), j, k. split; auto. unfold executed. cbn. split.
  - destruct (in_split _ _ Hsl) as (y & z & Ez).
    destruct (announce_event _ _ _ _ _ _ sl _ _ Lj Ez (or_introl eq_refl)) as [An1 An2].
    apply An1; auto. intros X. apply An2 in X as ->. destruct Hin.
  - exists a', res, err. repeat split; auto; try congruence. { exists pj. eauto. }
    destruct err as [[|z e0]|]; cbn; [specialize (Er2 _ eq_refl); auto| |auto]. rewrite <- (Er2 _ eq_refl). apply D3. rewrite (Er2 _ eq_refl). discriminate.
Qed.

Lemma remote_call_spec ls s i c x : exec step (sinit carried) ls = Some s -> NoDup (map q_index (requests (hist (sd s i)))) ->
  In (EReturn c x) (hist (sd s i)) ->
  exists q j k, In (ENew c q) (hist (sd s i)) /\ executed carried link carry s i q j k x /\
    forall j' k' q', served carried link s i j' k' q' -> q_index q' = q_index q -> j' = j /\ k' = k.
Proof.
  intros H N R. pose proof (reach_ok _ _ _ _ _ _ _ W _ _ H) as O. destruct (returned_call _ _ _ _ O N R) as (q & j & k & Nq & X). exists q, j, k. split; auto. split; auto.
  intros j' k' q' (p' & r' & Lk & Acc) I. destruct X as (_ & args & res & err & _ & (p & r & Lk0 & Acc0) & _).
  eapply executed_once; eauto.
Qed.
Lemma in_order ls s i p j q : exec step (sinit carried) ls = Some s -> link i p = ToDock j q ->
  exists got, Forall2 (arrives (carry j i)) got (got_on p (hist (sd s i)) ++ wire s i p) /\ subseq got (sent_on q (hist (sd s j))).
Proof.
  intros H Lk. pose proof (flows _ _ _ _ _ _ _ _ (reach_ok _ _ _ _ _ _ _ W _ _ H) i p) as F. unfold source in F. rewrite Lk in F. fold (flow s i p).
  revert F. generalize (flow s i p) as l. induction (sent_on q (hist (sd s j))) as [|k ks IH]; cbn.
  - intros l F. inversion F; subst. exists []. split; constructor.
  - intros l F. destruct (pass carry j i k) as [k'|] eqn:E.
    + cbn in F. inversion F; subst.
      * destruct (IH _ H2) as (g & G & S). exists (k :: g). split; constructor; auto. now apply pass_arrives.
      * destruct (IH _ H2) as (g & G & S). exists g. split; [auto|now constructor].
    + destruct (IH _ F) as (g & G & S). exists g. split; [auto|now constructor].
Qed.
Lemma complete ls s i p j q : exec step (sinit carried) ls = Some s -> lossless ls -> link i p = ToDock j q ->
  (forall l, carry j i l <> None) -> Forall2 (arrives (carry j i)) (sent_on q (hist (sd s j))) (got_on p (hist (sd s i)) ++ wire s i p).
Proof.
  intros H Ll Lk C. pose proof (lossless_flow _ _ _ _ _ _ _ W _ _ H Ll i p) as F. unfold source in F. rewrite Lk in F. fold (flow s i p). rewrite F. clear F.
  induction (sent_on q (hist (sd s j))) as [|k ks IH]; cbn; [constructor|]. destruct (pass carry j i k) as [k'|] eqn:E.
  - constructor; auto. now apply pass_arrives.
  - exfalso. destruct k; cbn in E; try discriminate; destruct (carry j i _) eqn:E'; try discriminate; eapply C; eauto.
Qed.
End Sys.
