(* The table of pending calls. *)
From Verif Require Import Lts GoVal Tables DockModel DockSpec DockProof DockProof2 DockProof3 DockProof4 DockProof5 DockProof7 DockProof8 DockProof9 DockProof10.
From Coq Require Import Arith Bool List ZArith Lia FinFun.
Import ListNotations.
Open Scope nat_scope.

Section P.
Context {V : Type}.
Notation dock := (DockModel.dock V).
Notation tr := (tr V).
Implicit Types d : dock.
Implicit Types h e : list (event V).

(* a call is in the table until its deletion, and only so long *)
Definition dropped_by (cbs : list (callback V)) c := exists j cb, nth_error cbs j = Some cb /\ b_call cb = c /\ b_pc cb = BDone.
Definition exact_table (rp : list (Z * nat)) (cbs : list (callback V)) h :=
  NoDup (map q_index (requests h)) -> forall c q, nth_error (requests h) c = Some q -> (zget rp (q_index q) = Some c <-> ~ dropped_by cbs c).
Lemma exact_frame rp cbs h e : exact_table rp cbs h -> requests e = [] -> exact_table rp cbs (h ++ e).
Proof. unfold exact_table. intros H N. rewrite requests_app, N, app_nil_r. exact H. Qed.
Lemma exact_cbs rp cbs cbs' h : exact_table rp cbs h -> (forall c, dropped_by cbs c <-> dropped_by cbs' c) -> exact_table rp cbs' h.
Proof. intros H W N c q Hq. rewrite <- W. apply H; auto. Qed.
Lemma dropped_snoc cbs cb c : b_pc cb <> BDone -> dropped_by cbs c <-> dropped_by (cbs ++ [cb]) c.
Proof.
  intros P. split; intros (j & x & X & Y & Z); exists j, x; split; auto.
  - now apply nth_app.
  - destruct (Nat.lt_ge_cases j (length cbs)) as [L|L]; [rewrite nth_error_app1 in X; auto|]. rewrite nth_error_app2 in X by lia. destruct (j - length cbs) as [|n]; [injection X as <-; congruence|destruct n; discriminate].
Qed.
Lemma dropped_set cbs b cb cb' c : nth_error cbs b = Some cb -> b_call cb' = b_call cb -> b_pc cb <> BDone ->
  dropped_by (set_nth cbs b cb') c <-> dropped_by cbs c \/ (b_pc cb' = BDone /\ c = b_call cb).
Proof.
  intros H C P. split.
  - intros (j & x & X & Y & Z). apply set_nth_case in X as [[-> ->]|[N X]]; [right; split; congruence|left; exists j, x; auto].
  - intros [(j & x & X & Y & Z)|[P' ->]].
    + exists j, x. rewrite set_nth_other; auto. intros ->. rewrite H in X. congruence.
    + exists b, cb'. rewrite set_nth_same by (eapply nth_lt; eauto). auto.
Qed.
Lemma exact_step d l d' : exact_table (rpcs d) (callbacks d) (hist d) -> inv d -> tr d l d' -> exact_table (rpcs d') (callbacks d') (hist d').
Proof.
  intros I J T. destruct T; proj; rewrite <- ?app_assoc; try exact I; try (apply exact_frame; [exact I|reflexivity]).
  - apply exact_frame; [|reflexivity]. eapply exact_cbs; [exact I|]. intros c0. apply dropped_snoc. discriminate.
  - intros N c q. rewrite requests_app in *. cbn in *. rewrite map_app in N. cbn in N. apply NoDup_snoc in N as [N1 N2]. intros Hq. rewrite zget_zput.
    destruct J as ((J & _) & _ & _ & J4 & _). destruct (Nat.eq_dec c (length (requests (hist d)))) as [->|Nc].
    + rewrite nth_error_app2, Nat.sub_diag in Hq by lia. injection Hq as <-. cbn. rewrite Z.eqb_refl, <- J, map_length. split; auto. intros _ (j & cb & X & Y & _). destruct (J4 _ _ X) as [(q' & Q & _) _].
      apply nth_lt in Q. rewrite Y, <- J, map_length in Q. lia.
    + assert (Lc : c < length (requests (hist d))) by (apply nth_lt in Hq; rewrite app_length in Hq; cbn in Hq; lia). rewrite nth_error_app1 in Hq by exact Lc.
      destruct (Z.eqb_spec clock (q_index q)) as [Ei|Ni]; [|apply I; auto]. exfalso. apply N2. rewrite Ei. apply in_map. eapply nth_error_In; eauto.
  - eapply exact_cbs; [exact I|]. intros c0. rewrite dropped_set by (eauto; cbn; congruence). cbn. intuition discriminate.
  - intros N c q Hq. rewrite zget_zdel, dropped_set by (eauto; cbn; congruence). cbn. destruct J as (_ & _ & _ & J & _). destruct (J _ _ H) as [(q' & Q1 & Q2) _].
    destruct (Z.eqb_spec (b_index cb) (q_index q)) as [Ei|Ni].
    + split; [discriminate|]. intros X. exfalso. apply X. right. split; auto.
      assert (Y : nth_error (map q_index (requests (hist d))) (b_call cb) = nth_error (map q_index (requests (hist d))) c) by (rewrite !(map_nth_error q_index _ _ Q1), (map_nth_error q_index _ _ Hq); congruence).
      symmetry. eapply NoDup_nth_error; [exact N| |exact Y]. apply nth_lt in Q1. rewrite map_length. exact Q1.
    + rewrite (I N c q Hq). split; intros X; [|tauto]. intros [Y|[_ ->]]; [tauto|]. rewrite Q1 in Hq. injection Hq as <-. congruence.
Qed.
Lemma exact_inv carried ls d : exec dstep (new_dock carried) ls = Some d -> exact_table (rpcs d) (callbacks d) (hist d).
Proof.
  intros E. refine (proj1 (exec_inv dstep (fun d => exact_table (rpcs d) (callbacks d) (hist d) /\ exists ls, exec dstep (new_dock carried) ls = Some d) _ ls _ _ _ E)).
  - intros s l s' [A [ls0 B]] S. split; [|exists (ls0 ++ [l]); rewrite exec_app, B; cbn [exec]; rewrite S; reflexivity].
    apply dstep_tr in S as [_ S]. eapply exact_step; eauto. eapply inv_inv; eauto.
  - split; [intros _ [|c] q H; discriminate H|]. exists []. reflexivity.
Qed.
(* what a caller has received was put by a goroutine delivering a response *)
Definition from_cb (cbs : list (callback V)) (cs : list (call V)) := forall c r, nth_error cs c = Some r -> c_buf r <> None \/ (exists x, c_pc r = CGot x \/ c_pc r = CDone x) ->
  exists j cb, nth_error cbs j = Some cb /\ b_call cb = c /\ b_pc cb <> BPut.
Lemma from_set cbs cs c r r' : from_cb cbs cs -> nth_error cs c = Some r -> ((c_buf r' <> None \/ exists x, c_pc r' = CGot x \/ c_pc r' = CDone x) -> (c_buf r <> None \/ exists x, c_pc r = CGot x \/ c_pc r = CDone x)) -> from_cb cbs (set_nth cs c r').
Proof. intros H E W c' x X Y. apply set_nth_case in X as [[-> ->]|[N X]]; [eapply H; eauto|eapply H; eauto]. Qed.
Lemma from_cbs cbs cbs' cs : from_cb cbs cs -> (forall j cb, nth_error cbs j = Some cb -> b_pc cb <> BPut -> exists j' cb', nth_error cbs' j' = Some cb' /\ b_call cb' = b_call cb /\ b_pc cb' <> BPut) -> from_cb cbs' cs.
Proof. intros H W c r X Y. destruct (H c r X Y) as (j & cb & A & B & C). destruct (W _ _ A C) as (j' & cb' & A' & B' & C'). exists j', cb'. repeat split; auto; congruence. Qed.
Ltac fset := eapply from_set; [eassumption|eassumption|cbn; try solve [intros [X|(x0 & [X|X])]; first [congruence | left; exact X | left; congruence | right; eexists; solve [eauto | left; congruence | right; congruence]]]].
Lemma from_step d l d' : from_cb (callbacks d) (calls d) -> tr d l d' -> from_cb (callbacks d') (calls d').
Proof.
  intros I T. destruct T; proj; try exact I; try fset.
  - eapply from_cbs; [exact I|]. intros j cb X Y. exists j, cb. split; [apply nth_app, X|auto].
  - intros c r X Y. destruct (Nat.lt_ge_cases c (length (calls d))) as [L|L]; [rewrite nth_error_app1 in X by auto; eapply I; eauto|]. rewrite nth_error_app2 in X by lia.
    destruct (c - length (calls d)) as [|n]; [injection X as <-; cbn in Y|destruct n; discriminate]. destruct Y as [Y|(x & [Y|Y])]; congruence.
  - intros c r0 X Y. apply set_nth_case in X as [[-> ->]|[N X]].
    + exists b. eexists. rewrite set_nth_same by (eapply nth_lt; eauto). split; [reflexivity|]. cbn. split; [auto|discriminate].
    + destruct (I _ _ X Y) as (j & cb' & A & B & C). exists j, cb'. rewrite set_nth_other; auto. intros ->. rewrite H in A. congruence.
  - eapply from_cbs; [exact I|]. intros j cb' X Y. destruct (Nat.eq_dec j b) as [->|N].
    + exists b. eexists. rewrite set_nth_same by (eapply nth_lt; eauto). split; [reflexivity|]. cbn. split; [congruence|discriminate].
    + exists j, cb'. rewrite set_nth_other by auto. auto.
Qed.
Lemma from_inv carried ls d : exec dstep (new_dock carried) ls = Some d -> from_cb (callbacks d) (calls d).
Proof. apply (reach (fun d => from_cb (callbacks d) (calls d))); [intros [|j] cb H; discriminate H|]. intros s l s' I _ T. eapply from_step; eauto. Qed.

(* a call is in the table as long as no response for it has come *)
Lemma unanswered_stays carried ls d c q : exec dstep (new_dock carried) ls = Some d -> NoDup (map q_index (requests (hist d))) -> In (ENew c q) (hist d) ->
  (forall p r, In (ERecv p (KResponse r)) (hist d) -> p_index r <> q_index q) -> zget (rpcs d) (q_index q) = Some c.
Proof.
  intros E N Nq No. destruct (ids_inv _ _ _ E) as [_ I]. apply (exact_inv _ _ _ E N c q (I _ _ Nq)). intros (j & cb & X & Y & _). destruct (inv_inv _ _ _ E) as (_ & _ & _ & I4 & _).
  destruct (I4 _ _ X) as [_ (q' & p & rs & Q & R & Ei & _)]. rewrite Y, (I _ _ Nq) in Q. injection Q as <-. now apply (No _ _ R).
Qed.
(* at rest it holds exactly the calls that have not returned *)
Lemma table_at_rest carried ls d i c : exec dstep (new_dock carried) ls = Some d -> state d = Alive -> NoDup (map q_index (requests (hist d))) ->
  (forall b, dstep d (BStep b) = None) -> (forall c acc, dstep d (CStep c acc) = None) ->
  zget (rpcs d) i = Some c <-> exists q, In (ENew c q) (hist d) /\ q_index q = i /\ returns c (hist d) = [].
Proof.
  intros E A N Qb Qc. pose proof (inv_inv _ _ _ E) as (I1 & _ & I3 & I4 & _ & [I6 _]).
  assert (Call : forall q, nth_error (requests (hist d)) c = Some q -> exists r, nth_error (calls d) c = Some r).
  { intros q X. destruct I1 as [I1 _]. apply nth_lt in X. rewrite <- I1, map_length in X. destruct (nth_error (calls d) c) eqn:Y; [eauto|apply nth_error_None in Y; lia]. }
  split.
  - intros G. destruct (I3 _ _ G) as (q & Q & <-). exists q. split; [eapply new_of_nth; eauto|]. split; auto. destruct (Call _ Q) as [r R]. rewrite (I6 _ _ R). destruct (c_pc r) as [| | | |x] eqn:P; auto. exfalso.
    destruct (from_inv _ _ _ E c r R) as (j & cb & X & Y & Z); [right; exists x; auto|]. apply (exact_inv _ _ _ E N c q Q) in G. apply G. exists j, cb. repeat split; auto.
    destruct (b_pc cb) eqn:Pb; [congruence| |reflexivity]. specialize (Qb j). unfold dstep in Qb. rewrite A, X, Pb in Qb. discriminate.
  - intros (q & Nq & <- & Rt). destruct I1 as [I1 I2]. pose proof (I2 _ _ Nq) as Q. apply (exact_inv _ _ _ E N c q Q). intros (j & cb & X & Y & Z). destruct (Call _ Q) as [r R].
    destruct (given_inv _ _ _ E _ _ X) as (r' & R' & G); [congruence|]. rewrite Y, R in R'. injection R' as <-. rewrite (I6 _ _ R) in Rt.
    specialize (Qc c true). unfold dstep in Qc. rewrite A, R in Qc. destruct (c_pc r) as [| | |x|x] eqn:P; try discriminate. destruct G as [G|(x & [G|G])]; try discriminate G. destruct (c_buf r); [discriminate|congruence].
Qed.

(* a goroutine that has delivered goes on to the deletion *)
Definition delivered (cbs : list (callback V)) j c := exists cb, nth_error cbs j = Some cb /\ b_call cb = c /\ b_pc cb <> BPut.
Definition deleted (cbs : list (callback V)) j c := exists cb, nth_error cbs j = Some cb /\ b_call cb = c /\ b_pc cb = BDone.
Lemma delivered_step d l d' j c : tr d l d' -> (delivered (callbacks d) j c -> delivered (callbacks d') j c) /\ (deleted (callbacks d) j c -> deleted (callbacks d') j c).
Proof.
  intros T. destruct T; proj; try (split; intros X; exact X).
  - split; intros (cb & A & B); exists cb; (split; [apply nth_app, A|exact B]).
  - split; intros (cb0 & A & B & C); (destruct (Nat.eq_dec j b) as [->|N]; [rewrite H in A; injection A as <-; congruence|exists cb0; rewrite set_nth_other by auto; auto]).
  - split; intros (cb0 & A & B & C); (destruct (Nat.eq_dec j b) as [->|N]; [|exists cb0; rewrite set_nth_other by auto; auto]); rewrite H in A; injection A as <-; [|congruence].
    eexists. rewrite set_nth_same by (eapply nth_lt; eauto). split; [reflexivity|]. cbn. split; [auto|discriminate].
Qed.
Lemma delivered_exec ls : forall d d' j c, exec dstep d ls = Some d' -> (delivered (callbacks d) j c -> delivered (callbacks d') j c) /\ (deleted (callbacks d) j c -> deleted (callbacks d') j c).
Proof.
  induction ls as [|l ls IH]; intros d d' j c H; [injection H as <-; auto|]. cbn [exec] in H. destruct (dstep d l) as [d1|] eqn:E; [|discriminate].
  apply dstep_tr in E as [_ E]. destruct (delivered_step _ _ _ j c E), (IH _ _ j c H). auto.
Qed.
Lemma deleting d d' j c : delivered (callbacks d) j c -> dstep d (BStep j) = Some d' -> deleted (callbacks d') j c.
Proof.
  intros (cb & A & B & C) H. unfold dstep in H. destruct (state d); try discriminate. rewrite A in H. destruct (b_pc cb); try congruence; try discriminate. injection H as <-. proj.
  eexists. rewrite set_nth_same by (eapply nth_lt; eauto). split; [reflexivity|]. cbn. auto.
Qed.
Lemma returned_delivered carried ls d c : exec dstep (new_dock carried) ls = Some d -> returns c (hist d) <> [] -> exists j, delivered (callbacks d) j c.
Proof.
  intros E R. pose proof (inv_inv _ _ _ E) as (_ & _ & _ & _ & _ & [I6 I7]). destruct (nth_error (calls d) c) as [r|] eqn:Ec; [|apply nth_error_None in Ec; elim R; auto].
  rewrite (I6 _ _ Ec) in R. destruct (c_pc r) eqn:P; try (now elim R). destruct (from_inv _ _ _ E c r Ec) as (j & cb & X); [right; eauto|]. exists j, cb. tauto.
Qed.
Lemma deleted_gone carried ls d j c i : exec dstep (new_dock carried) ls = Some d -> NoDup (map q_index (requests (hist d))) -> deleted (callbacks d) j c -> zget (rpcs d) i <> Some c.
Proof.
  intros E N D G. pose proof (inv_inv _ _ _ E) as (_ & _ & I3 & _). destruct (I3 _ _ G) as (q & Q & <-). apply (exact_inv _ _ _ E N c q Q) in G. apply G. destruct D as (cb & D). exists j, cb. exact D.
Qed.

(* -- a table of any size *)
Section Grow.
Variables (f m : name).
Definition waiting n d := state d = Alive /\ slots d = [] /\ remote d f = None /\ sockets d = [SHub] /\ length (calls d) = n /\
  (forall c r, nth_error (calls d) c = Some r -> c_pc r = CWait /\ c_buf r = None) /\ rpcs d = map (fun k => (Z.of_nat k, k)) (seq 0 n) /\ callbacks d = [] /\
  map q_index (requests (hist d)) = map Z.of_nat (seq 0 n).
Definition grow n : list (label V) := flat_map (fun k => [LCall f m [] false (Z.of_nat k); CStep k true; CStep k true]) (seq 0 n).
Lemma zput_fresh n : forall k, zput (map (fun k => (Z.of_nat k, k)) (seq k n)) (Z.of_nat (k + n)) (k + n) = map (fun k => (Z.of_nat k, k)) (seq k (S n)).
Proof.
  induction n as [|n IH]; intros k; [cbn; now rewrite Nat.add_0_r|]. specialize (IH (S k)). replace (S k + n) with (k + S n) in IH by lia. change (seq k (S (S n))) with (k :: seq (S k) (S n)). cbn [map]. rewrite <- IH. cbn [seq map zput].
  destruct (Z.eqb_spec (Z.of_nat k) (Z.of_nat (k + S n))); [lia|reflexivity].
Qed.
Lemma grow_step n d : waiting n d -> exists d', exec dstep d [LCall f m [] false (Z.of_nat n); CStep n true; CStep n true] = Some d' /\ waiting (S n) d'.
Proof.
  intros (A & Sl & Re & So & Lc & Pc & Rp & Cb & Ix). cbn [exec]. unfold dstep at 1. rewrite A, Sl. cbn [aget]. unfold dstep at 1. proj. rewrite A, nth_error_app2, Lc, Nat.sub_diag by lia. cbn [nth_error c_pc].
  unfold dstep at 1. proj. rewrite A. rewrite set_nth_same by (rewrite app_length; cbn; lia). cbn [c_pc]. unfold commit, at_call. proj. rewrite !set_nth_same by (rewrite app_length; cbn; lia). cbn [c_req c_orig q_slot]. rewrite Re, So. proj.
  rewrite !set_nth_same by (rewrite app_length; cbn; lia). eexists. split; [reflexivity|]. unfold waiting. proj. rewrite !set_nth_length, app_length. cbn [length].
  repeat (split; [solve [auto|lia]|]). split; [|split; [|split]]; auto.
  - intros c r X. apply set_nth_case in X as [[-> ->]|[N X]]; [cbn; auto|]. apply set_nth_case in X as [[-> ->]|[_ X]]; [now elim N|]. rewrite nth_error_app1 in X; [eapply Pc; eauto|]. apply nth_lt in X. rewrite app_length in X. cbn in X. lia.
  - rewrite Rp. exact (zput_fresh n 0).
  - rewrite requests_app, requests_app, !map_app, Ix. cbn [requests flat_map map app q_index]. rewrite app_nil_r. change [Z.of_nat n] with (map Z.of_nat (seq (0 + n) 1)). rewrite <- map_app, <- seq_app. f_equal. f_equal. lia.
Qed.
Lemma grown n : exists d, exec dstep (new_dock []) ([LDial true; LRun] ++ grow n) = Some d /\ waiting n d.
Proof.
  induction n as [|n (d & E & W)].
  - eexists. split; [reflexivity|]. repeat split; auto; destruct c; discriminate.
  - destruct (grow_step _ _ W) as (d' & E' & W'). exists d'. split; auto. unfold grow. rewrite seq_S, flat_map_app, app_assoc, exec_app. fold (grow n). rewrite E. cbn [Nat.add flat_map app]. exact E'.
Qed.
Lemma waits n d : waiting n d -> length (rpcs d) = n /\ NoDup (map q_index (requests (hist d))) /\ (forall b, dstep d (BStep b) = None) /\ forall c acc, dstep d (CStep c acc) = None.
Proof.
  intros (A & _ & _ & _ & Lc & Pc & Rp & Cb & Ix). split; [rewrite Rp, map_length, seq_length; reflexivity|]. split; [|split].
  - rewrite Ix. apply FinFun.Injective_map_NoDup; [intros a b; apply Nat2Z.inj|apply seq_NoDup].
  - intros b. unfold dstep. rewrite A, Cb. now destruct b.
  - intros c acc. unfold dstep. rewrite A. destruct (nth_error (calls d) c) as [r|] eqn:X; auto. destruct (Pc _ _ X) as [-> ->]. reflexivity.
Qed.
End Grow.
End P.
Lemma table_unbounded V : ~ exists N, forall carried ls (d : dock V), exec dstep (new_dock carried) ls = Some d -> state d = Alive -> NoDup (map q_index (requests (hist d))) ->
  (forall b, dstep d (BStep b) = None) -> (forall c acc, dstep d (CStep c acc) = None) -> length (rpcs d) <= N.
Proof.
  intros [N H]. destruct (@grown V [] [] (S N)) as (d & E & W). destruct (waits _ _ _ W) as (L & D & B & C). specialize (H _ _ _ E (proj1 W) D B C). lia.
Qed.
