(* What a call puts on the wire; answered calls return; one start per reply. *)
From Verif Require Import Lts GoVal Tables DockModel DockSpec DockProof DockProof2 DockProof3 DockProof4 DockProof5 DockProof7 DockProof8 DockProof9.
From Coq Require Import Arith Bool List ZArith Lia Permutation.
Import ListNotations.
Open Scope nat_scope.

Section P.
Context {V : Type}.
Notation dock := (DockModel.dock V).
Notation tr := (tr V).
Implicit Types d : dock.
Implicit Types h e : list (event V).

Lemma starts_exact carried ls d : exec dstep (new_dock carried) ls = Some d -> (forall p, handlers d p = HIdle) -> length (starters d) = registered (hist d).
Proof.
  intros E H. destruct (counted_inv _ _ _ E) as (n & _ & B). rewrite <- B. replace (in_work (handlers d) n) with 0; [lia|].
  clear B. induction n; [reflexivity|]. cbn. rewrite H, <- IHn. reflexivity.
Qed.

Lemma call_out carried ls d f m args w t acc acc' : exec dstep (new_dock carried) ls = Some d -> state d = Alive -> (cleared (hist d) \/ ~ In f (map fst carried)) ->
  let c := length (calls d) in let q := mkReq t f m args w in
  exists d', exec dstep d [LCall f m args w t; CStep c acc; CStep c acc'] = Some d' /\
    ((exists p, latest f (hist d) p /\ state d' = Alive /\ hist d' = hist d ++ [ENew c q; ECommit c p acc'; ESend p (KRequest q) acc']) \/
     ((forall p, ~ In (ECached f p) (hist d)) /\
       ((exists k s, since (hist d) = k :: s /\ state d' = Alive /\ hist d' = hist d ++ [ENew c q; EQuery k f]) \/ (since (hist d) = [] /\ state d' = Crashed NoSocket)))).
Proof.
  intros E A Hf c q.
  assert (Sl : aget (slots d) f = None).
  { destruct (slots_inv _ _ _ E) as [[X Y]|[X Y]]; rewrite Y; [|reflexivity]. destruct Hf as [Hf|Hf]; [contradiction|]. apply table_none, Hf. }
  pose proof (cache_inv _ _ _ E f) as Ca. pose proof (sockets_inv _ _ _ E) as So.
  cbn [exec]. unfold dstep at 1. rewrite A, Sl. unfold dstep at 1. proj. rewrite A. unfold c. rewrite nth_error_app2 by lia. rewrite Nat.sub_diag. cbn [nth_error c_pc].
  unfold dstep at 1. proj. rewrite A. rewrite set_nth_same by (rewrite app_length; cbn; lia). cbn [c_pc]. unfold commit, at_call. proj. rewrite !set_nth_same by (rewrite app_length; cbn; lia).
  cbn [c_req c_orig q_slot]. destruct (remote d f) as [p|] eqn:Re.
  - proj. rewrite !set_nth_same by (rewrite set_nth_length, app_length; cbn; lia). eexists. split; [reflexivity|]. left. exists p. split; [exact Ca|]. proj. split; [exact A|]. rewrite <- app_assoc. reflexivity.
  - rewrite <- So. destruct (sockets d) as [|k s] eqn:Es; proj; rewrite !set_nth_same by (rewrite app_length; cbn; lia); eexists; (split; [reflexivity|]); right; (split; [exact Ca|]).
    + right. auto.
    + left. exists k, s. proj. rewrite <- app_assoc. auto.
Qed.

(* answered calls return *)
Definition kept (rp : list (Z * nat)) (cbs : list (callback V)) h :=
  NoDup (map q_index (requests h)) -> forall c q, nth_error (requests h) c = Some q -> zget rp (q_index q) = Some c \/ exists j cb, nth_error cbs j = Some cb /\ b_call cb = c.
Lemma kept_frame rp cbs h e : kept rp cbs h -> requests e = [] -> kept rp cbs (h ++ e).
Proof. unfold kept. intros H N. rewrite requests_app, N, app_nil_r. exact H. Qed.
Lemma kept_cbs rp cbs cbs' h : kept rp cbs h -> (forall j cb, nth_error cbs j = Some cb -> exists j' cb', nth_error cbs' j' = Some cb' /\ b_call cb' = b_call cb) -> kept rp cbs' h.
Proof. intros H W N c q Hq. destruct (H N c q Hq) as [X|(j & cb & X & Y)]; [auto|]. right. destruct (W _ _ X) as (j' & cb' & X' & Y'). exists j', cb'. split; congruence. Qed.
Lemma cbs_set (cbs : list (callback V)) b cb cb' : nth_error cbs b = Some cb -> b_call cb' = b_call cb -> forall j x, nth_error cbs j = Some x -> exists j' x', nth_error (set_nth cbs b cb') j' = Some x' /\ b_call x' = b_call x.
Proof.
  intros H W j x Hx. destruct (Nat.eq_dec j b) as [->|N]; [exists b, cb'; rewrite set_nth_same by (eapply nth_lt; eauto); split; congruence|exists j, x; rewrite set_nth_other by auto; auto].
Qed.
Lemma cbs_snoc (cbs : list (callback V)) y : forall j x, nth_error cbs j = Some x -> exists j' x', nth_error (cbs ++ [y]) j' = Some x' /\ b_call x' = b_call x.
Proof. intros j x H. exists j, x. split; [apply nth_app, H|reflexivity]. Qed.
Lemma kept_step d l d' : kept (rpcs d) (callbacks d) (hist d) -> inv d -> tr d l d' -> kept (rpcs d') (callbacks d') (hist d').
Proof.
  intros I J T. destruct T; proj; rewrite <- ?app_assoc; try exact I; try (apply kept_frame; [exact I|reflexivity]).
  - apply kept_frame; [|reflexivity]. eapply kept_cbs; [exact I|apply cbs_snoc].
  - intros N c q. rewrite requests_app in *. cbn in *. rewrite map_app in N. cbn in N. apply NoDup_snoc in N as [N1 N2]. intros Hq. rewrite zget_zput.
    destruct (Nat.eq_dec c (length (requests (hist d)))) as [->|Nc].
    + rewrite nth_error_app2, Nat.sub_diag in Hq by lia. injection Hq as <-. cbn. rewrite Z.eqb_refl. left. destruct J as ((J & _) & _). rewrite <- J, map_length. reflexivity.
    + assert (Lc : c < length (requests (hist d))) by (apply nth_lt in Hq; rewrite app_length in Hq; cbn in Hq; lia). rewrite nth_error_app1 in Hq by exact Lc.
      destruct (Z.eqb_spec clock (q_index q)) as [Ei|Ni]; [|apply I; auto]. exfalso. apply N2. rewrite Ei. apply in_map. eapply nth_error_In; eauto.
  - eapply kept_cbs; [exact I|]. eapply cbs_set; eauto.
  - assert (K : kept (rpcs d) (set_nth (callbacks d) b (mkCallback (b_call cb) (b_index cb) (b_ret cb) BDone)) (hist d)) by (eapply kept_cbs; [exact I|]; eapply cbs_set; eauto).
    intros N c q Hq. rewrite zget_zdel. destruct (Z.eqb_spec (b_index cb) (q_index q)) as [Ei|Ni]; [|apply K; auto].
    right. exists b. eexists. rewrite set_nth_same by (eapply nth_lt; eauto). split; [reflexivity|]. cbn. destruct J as (_ & _ & _ & J & _). destruct (J _ _ H) as [(q' & Q1 & Q2) _].
    assert (X : nth_error (map q_index (requests (hist d))) (b_call cb) = nth_error (map q_index (requests (hist d))) c) by (rewrite !(map_nth_error q_index _ _ Q1), (map_nth_error q_index _ _ Hq); congruence).
    eapply NoDup_nth_error; [exact N| |exact X]. apply nth_lt in Q1. rewrite map_length. exact Q1.
Qed.
Lemma kept_inv carried ls d : exec dstep (new_dock carried) ls = Some d -> kept (rpcs d) (callbacks d) (hist d).
Proof.
  intros E. refine (proj1 (exec_inv dstep (fun d => kept (rpcs d) (callbacks d) (hist d) /\ exists ls, exec dstep (new_dock carried) ls = Some d) _ ls _ _ _ E)).
  - intros s l s' [A [ls0 B]] S. split; [|exists (ls0 ++ [l]); rewrite exec_app, B; cbn [exec]; rewrite S; reflexivity].
    apply dstep_tr in S as [_ S]. eapply kept_step; eauto. eapply inv_inv; eauto.
  - split; [intros _ [|c] q H; discriminate H|]. exists []. reflexivity.
Qed.
Definition given (cbs : list (callback V)) (cs : list (call V)) := forall j cb, nth_error cbs j = Some cb -> b_pc cb <> BPut ->
  exists r, nth_error cs (b_call cb) = Some r /\ (c_buf r <> None \/ exists x, c_pc r = CGot x \/ c_pc r = CDone x).
Lemma given_set cbs cs c r r' : given cbs cs -> nth_error cs c = Some r -> ((c_buf r <> None \/ exists x, c_pc r = CGot x \/ c_pc r = CDone x) -> (c_buf r' <> None \/ exists x, c_pc r' = CGot x \/ c_pc r' = CDone x)) -> given cbs (set_nth cs c r').
Proof.
  intros H E W j cb Hj Np. destruct (H _ _ Hj Np) as (r0 & A & B). destruct (Nat.eq_dec (b_call cb) c) as [Eq|N].
  - exists r'. rewrite Eq, set_nth_same by (eapply nth_lt; eauto). split; [reflexivity|]. rewrite Eq, E in A. injection A as <-. apply W, B.
  - exists r0. rewrite set_nth_other by auto. auto.
Qed.
Ltac gset := eapply given_set; [eassumption|eassumption|cbn; try solve [intros [X|(x0 & [X|X])]; first [congruence | left; exact X | left; congruence | right; eexists; solve [eauto | left; congruence | right; congruence]]]].
Lemma given_step d l d' : given (callbacks d) (calls d) -> tr d l d' -> given (callbacks d') (calls d').
Proof.
  intros I T. destruct T; proj; try exact I; try gset.
  - intros j cb Hj Np. destruct (Nat.eq_dec j (length (callbacks d))) as [->|N].
    + rewrite nth_error_app2, Nat.sub_diag in Hj by lia. injection Hj as <-. cbn in Np. congruence.
    + eapply I; [|exact Np]. rewrite nth_error_app1 in Hj; [exact Hj|]. apply nth_lt in Hj. rewrite app_length in Hj. cbn in Hj. lia.
  - intros j cb Hj Np. destruct (I _ _ Hj Np) as (r & A & B). exists r. split; [apply nth_app, A|exact B].
  - intros j cb0 Hj Np. apply set_nth_case in Hj as [[-> ->]|[N Hj]].
    + cbn. eexists. rewrite set_nth_same by (eapply nth_lt; eauto). split; [reflexivity|]. left. discriminate.
    + assert (G : given (callbacks d) (set_nth (calls d) (b_call cb) (mkCall (c_orig r) (c_req r) (Some (b_ret cb)) false (c_pc r)))) by (eapply given_set; eauto; cbn; left; discriminate).
      eapply G; eauto.
  - intros j cb0 Hj Np. apply set_nth_case in Hj as [[-> ->]|[N Hj]]; [cbn; eapply I; [exact H|congruence]|]. eapply I; eauto.
Qed.
Lemma given_inv carried ls d : exec dstep (new_dock carried) ls = Some d -> given (callbacks d) (calls d).
Proof. apply (reach (fun d => given (callbacks d) (calls d))); [intros [|j] cb H; discriminate H|]. intros s l s' I _ T. eapply given_step; eauto. Qed.
Definition cb_of c d := exists j cb, nth_error (callbacks d) j = Some cb /\ b_call cb = c.
Lemma cb_of_step c d l d' : cb_of c d -> tr d l d' -> cb_of c d'.
Proof.
  intros (j & cb0 & A & B) T. unfold cb_of. destruct T; proj; try (exists j, cb0; auto; fail).
  - exists j, cb0. split; [apply nth_app, A|exact B].
  - destruct (cbs_set _ _ _ (mkCallback (b_call cb) (b_index cb) (b_ret cb) BDelete) H eq_refl _ _ A) as (j' & x & X & Y). exists j', x. split; congruence.
  - destruct (cbs_set _ _ _ (mkCallback (b_call cb) (b_index cb) (b_ret cb) BDone) H eq_refl _ _ A) as (j' & x & X & Y). exists j', x. split; congruence.
Qed.
Lemma answered_returns carried ls d a p rs b c q : exec dstep (new_dock carried) ls = Some d -> state d = Alive -> NoDup (map q_index (requests (hist d))) ->
  hist d = a ++ ERecv p (KResponse rs) :: b -> In (ENew c q) a -> p_index rs = q_index q ->
  (forall k, dstep d (BStep k) = None) -> (forall acc, dstep d (CStep c acc) = None) -> returns c (hist d) <> [].
Proof.
  intros E A N H Hn Hi Qb Qc. destruct (behind _ _ _ _ _ _ E H) as (ls1 & l & ls2 & d1 & d2 & es1 & es2 & _ & E1 & T & E2 & F & G).
  assert (N1 : NoDup (map q_index (requests (hist d1)))).
  { rewrite H, F in N. rewrite !requests_app, !map_app, <- app_assoc in N. apply NoDup_app_l in N. exact N. }
  pose proof (kept_inv _ _ _ E1 N1) as K. pose proof (inv_inv _ _ _ E1) as J.
  assert (C : cb_of c d2).
  { event T G; rewrite ?app_nil_r in *; specialize (K c q ltac:(destruct J as ((_ & J) & _); apply J, Hn)).
    - destruct K as [K|(j & cb & X & Y)]; [|exists j, cb; proj; split; [apply nth_app, X|exact Y]].
      rewrite Hi, K in H1. injection H1 as <-. exists (length (callbacks d1)). eexists. proj. rewrite nth_error_app2, Nat.sub_diag by lia. split; reflexivity.
    - destruct K as [K|(j & cb & X & Y)]; [|exists j, cb; proj; auto]. rewrite Hi in H1. congruence. }
  assert (C' : cb_of c d) by (revert C E2; apply reach_from; intros s l0 s' I _ T'; eapply cb_of_step; eauto).
  destruct C' as (j & cb & Hj & Hc). pose proof (inv_inv _ _ _ E) as (I1 & _ & _ & I4 & _ & [I6 _]).
  assert (Ec : exists r, nth_error (calls d) c = Some r).
  { destruct (I4 _ _ Hj) as [(q' & X & _) _]. destruct I1 as [I1 _]. apply nth_lt in X. rewrite <- I1, map_length, Hc in X. destruct (nth_error (calls d) c) eqn:Y; [eauto|apply nth_error_None in Y; lia]. }
  destruct Ec as [r Ec]. rewrite (I6 _ _ Ec). specialize (Qc true). unfold dstep in Qc. rewrite A, Ec in Qc.
  assert (B : c_buf r <> None \/ exists x, c_pc r = CGot x \/ c_pc r = CDone x).
  { destruct (b_pc cb) eqn:Ep.
    - specialize (Qb j). unfold dstep in Qb. rewrite A, Hj, Ep, Hc, Ec in Qb. destruct (c_closed r); [discriminate|]. destruct (c_buf r); [left; discriminate|discriminate].
    - destruct (given_inv _ _ _ E _ _ Hj) as (r' & X & Y); [congruence|]. rewrite Hc, Ec in X. injection X as <-. exact Y.
    - destruct (given_inv _ _ _ E _ _ Hj) as (r' & X & Y); [congruence|]. rewrite Hc, Ec in X. injection X as <-. exact Y. }
  destruct (c_pc r) as [| | |x|x] eqn:Ep; try discriminate Qc; try discriminate. destruct B as [B|(x & [B|B])]; try discriminate B. destruct (c_buf r); [discriminate Qc|congruence].
Qed.
Lemma connected_out d p acc : state d = Alive -> exists ns d', exec dstep d [LConnected p; LAnnounce (length (announcers d)) ns acc] = Some d' /\ hist d' = hist d ++ [ESend p (KRegister ns) acc].
Proof.
  intros A. exists (collected d). cbn [exec]. unfold dstep at 1. rewrite A. unfold dstep. proj. rewrite A. rewrite nth_error_app2, Nat.sub_diag by lia. cbn [nth_error].
  replace (collected _) with (collected d) by reflexivity. rewrite reorders_refl. eexists. split; reflexivity.
Qed.
End P.
