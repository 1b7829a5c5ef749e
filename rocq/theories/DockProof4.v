(* Responses and the calls they complete. *)
From Verif Require Import Lts GoVal Tables DockModel DockSpec DockProof DockProof2 DockProof3.
From Coq Require Import Arith Bool List ZArith Lia Permutation.
Import ListNotations.
Open Scope nat_scope.

Lemma zget_zput l k v x : zget (zput l k v) x = if (k =? x)%Z then Some v else zget l x.
Proof.
  induction l as [|[y w] l IH]; cbn; [reflexivity|]. destruct (Z.eqb_spec y k) as [->|N]; cbn.
  - destruct (k =? x)%Z; reflexivity.
  - destruct (Z.eqb_spec y x) as [->|N']; [|exact IH]. destruct (Z.eqb_spec k x); congruence.
Qed.
Lemma zget_zdel l k x : zget (zdel l k) x = if (k =? x)%Z then None else zget l x.
Proof.
  induction l as [|[y w] l IH]; cbn; [destruct (k =? x)%Z; reflexivity|]. destruct (Z.eqb_spec y k) as [->|N]; cbn.
  - fold (zdel l k). rewrite IH. destruct (k =? x)%Z; reflexivity.
  - fold (zdel l k). destruct (Z.eqb_spec y x) as [->|N']; [|exact IH]. destruct (Z.eqb_spec k x); congruence.
Qed.

Section P.
Context {V : Type}.
Notation dock := (DockModel.dock V).
Notation tr := (tr V).
Implicit Types d : dock.
Implicit Types h e : list (event V).
Ltac noev := intros; cbn; intuition congruence.

Definition rpcs_ok (t : list (Z * nat)) h := forall i c, zget t i = Some c -> exists q, nth_error (requests h) c = Some q /\ q_index q = i.
Lemma rpcs_frame t h e : rpcs_ok t h -> rpcs_ok t (h ++ e).
Proof. intros H i c E. destruct (H i c E) as (q & A & B). exists q. rewrite requests_app. split; [apply nth_app, A|exact B]. Qed.
Lemma rpcs_step d l d' : rpcs_ok (rpcs d) (hist d) -> ids d -> tr d l d' -> rpcs_ok (rpcs d') (hist d').
Proof.
  intros I J T. destruct T; proj; rewrite <- ?app_assoc; try exact I; try (apply rpcs_frame; exact I).
  - intros i c. rewrite zget_zput, requests_app. destruct (Z.eqb_spec clock i) as [->|N].
    + intros E. injection E as <-. eexists. destruct J as [J _]. rewrite nth_error_app2; rewrite <- J, map_length; [rewrite Nat.sub_diag; cbn; auto|lia].
    + intros E. destruct (I i c E) as (q & A & B). exists q. split; [apply nth_app, A|exact B].
  - intros i c. rewrite zget_zdel. destruct (b_index cb =? i)%Z; [discriminate|]. apply I.
Qed.

Definition answered h c x := exists q p rs, nth_error (requests h) c = Some q /\ In (ERecv p (KResponse rs)) h /\ p_index rs = q_index q /\ x = returned rs.
Lemma answered_frame h e c x : answered h c x -> answered (h ++ e) c x.
Proof. intros (q & p & rs & A & B & C). exists q, p, rs. rewrite requests_app, in_app_iff. split; [apply nth_app, A|auto]. Qed.
Definition cbok h (i : nat) (cb : callback V) := (exists q, nth_error (requests h) (b_call cb) = Some q /\ q_index q = b_index cb) /\ answered h (b_call cb) (b_ret cb).
Lemma cbok_frame h e i cb : cbok h i cb -> cbok (h ++ e) i cb.
Proof. intros [(q & A & B) C]. split; [exists q; rewrite requests_app; split; [apply nth_app, A|exact B]|apply answered_frame, C]. Qed.
Lemma cbs_frame l h e : all (cbok h) l -> all (cbok (h ++ e)) l.
Proof. intros H i x E. apply cbok_frame, H, E. Qed.
Lemma cbs_step d l d' : all (cbok (hist d)) (callbacks d) -> rpcs_ok (rpcs d) (hist d) -> tr d l d' -> all (cbok (hist d')) (callbacks d').
Proof.
  intros I J T. destruct T; proj; rewrite <- ?app_assoc; try exact I; try (apply cbs_frame; exact I).
  - apply all_snoc; [apply cbs_frame, I|]. destruct (J _ _ H0) as (q & A & B). split; cbn.
    + exists q. rewrite requests_app. split; [apply nth_app, A|exact B].
    + exists q, p, r. rewrite requests_app, in_app_iff. repeat split; [apply nth_app, A|right; left; reflexivity|congruence].
  - apply all_set; [exact I|]. apply (I _ _ H).
  - apply all_set; [exact I|]. apply (I _ _ H).
Qed.

Definition bufok h c (r : call V) := forall x, c_buf r = Some x \/ c_pc r = CGot x \/ c_pc r = CDone x -> answered h c x.
Lemma bufs_frame l h e : all (bufok h) l -> all (bufok (h ++ e)) l.
Proof. intros H i x E y Hy. apply answered_frame. eapply H; eauto. Qed.
Lemma bufs_set h l c r r' : all (bufok h) l -> nth_error l c = Some r -> (forall x, c_buf r' = Some x \/ c_pc r' = CGot x \/ c_pc r' = CDone x -> c_buf r = Some x \/ c_pc r = CGot x \/ c_pc r = CDone x) ->
  all (bufok h) (set_nth l c r').
Proof. intros H E W. apply all_set; [exact H|]. intros x Hx. eapply H; eauto. Qed.
Ltac bset := first [eassumption | eapply bufs_set; [eassumption|eassumption|cbn; intuition congruence]].
Lemma bufs_step d l d' : all (bufok (hist d)) (calls d) -> all (cbok (hist d)) (callbacks d) -> tr d l d' -> all (bufok (hist d')) (calls d').
Proof.
  intros I J T. destruct T; proj; rewrite <- ?app_assoc; try exact I; try (apply bufs_frame; bset); try bset.
  - apply all_snoc; [apply bufs_frame, I|]. intros x. cbn. intuition congruence.
  - apply all_set; [exact I|]. intros x. cbn. intros [X|X]; [|eapply I; eauto]. injection X as <-. apply (J _ _ H).
Qed.

Definition retok h c (r : call V) := returns c h = match c_pc r with CDone x => [x] | _ => [] end.
Definition returning (cs : list (call V)) h := all (retok h) cs /\ forall c, length cs <= c -> returns c h = [].
Lemma returning_frame cs h e : returning cs h -> (forall c x, ~ In (EReturn c x) e) -> returning cs (h ++ e).
Proof.
  intros [H1 H2] He. assert (R : forall c, returns c e = []).
  { intros c. apply fm_nil. intros x Hx. destruct x; try reflexivity. exfalso. eapply He. exact Hx. }
  split; [intros c r E|intros c E]; unfold retok; rewrite returns_app, R, app_nil_r; [apply H1, E|apply H2, E].
Qed.
Lemma returning_set cs h c r r' : returning cs h -> nth_error cs c = Some r -> (retok h c r -> retok h c r') -> returning (set_nth cs c r') h.
Proof. intros [H1 H2] E W. split; [apply all_set; auto|]. rewrite set_nth_length. exact H2. Qed.
Ltac rset := first [eassumption | eapply returning_set; [eassumption|eassumption|unfold retok; cbn; intros Rt; try (rewrite Rt; repeat match goal with X : c_pc _ = _ |- _ => rewrite X end; reflexivity)]].
Lemma returning_step d l d' : returning (calls d) (hist d) -> tr d l d' -> returning (calls d') (hist d').
Proof.
  intros I T. destruct T; proj; rewrite <- ?app_assoc; try exact I; try (apply returning_frame; [rset|noev]); try rset.
  - apply returning_frame; [|noev]. destruct I as [I1 I2]. split; [apply all_snoc; [exact I1|]; unfold retok; cbn; apply I2; lia|].
    intros c Hc. rewrite app_length in Hc. apply I2. lia.
  - destruct I as [I1 I2]. assert (R : forall c0, returns c0 (hist d ++ [EReturn c x]) = returns c0 (hist d) ++ if c =? c0 then [x] else []).
    { intros c0. rewrite returns_app. cbn. rewrite app_nil_r. reflexivity. }
    split.
    + intros c0 r0 E0. unfold retok. rewrite R. apply set_nth_case in E0 as [[-> ->]|[N E0]].
      * rewrite Nat.eqb_refl. rewrite (I1 _ _ H), H0. reflexivity.
      * destruct (Nat.eqb_spec c c0); [congruence|]. rewrite app_nil_r. apply I1, E0.
    + intros c0 Hc. rewrite set_nth_length in Hc. rewrite R. pose proof (nth_lt _ _ _ H). destruct (Nat.eqb_spec c c0); [lia|]. rewrite app_nil_r. auto.
Qed.

Definition inv d := ids d /\ named d /\ rpcs_ok (rpcs d) (hist d) /\ all (cbok (hist d)) (callbacks d) /\ all (bufok (hist d)) (calls d) /\ returning (calls d) (hist d).
Lemma inv_inv carried ls d : exec dstep (new_dock carried) ls = Some d -> inv d.
Proof.
  apply reach.
  - split; [split; [reflexivity|intros c q []]|]. split; [intros c H; cbn in H; lia|]. split; [intros i c H; discriminate H|].
    split; [intros [|i] x Hx; discriminate Hx|]. split; [intros [|i] x Hx; discriminate Hx|]. split; [intros [|i] x Hx; discriminate Hx|reflexivity].
  - intros s l s' (I1 & I2 & I3 & I4 & I5 & I6) _ T. split; [eapply ids_step; eauto|]. split; [eapply named_step; eauto|]. split; [eapply rpcs_step; eauto|].
    split; [eapply cbs_step; eauto|]. split; [eapply bufs_step; eauto|eapply returning_step; eauto].
Qed.

Lemma new_of_nth carried ls d c q : exec dstep (new_dock carried) ls = Some d -> nth_error (requests (hist d)) c = Some q -> In (ENew c q) (hist d).
Proof.
  intros E H. destruct (inv_inv _ _ _ E) as (I & J & _). destruct I as [I1 I2]. destruct (J c) as [q' X].
  - rewrite <- (map_length c_orig), I1. eapply nth_lt; eauto.
  - rewrite (I2 _ _ X) in H. congruence.
Qed.
Lemma return_event carried ls d a c x b : exec dstep (new_dock carried) ls = Some d -> hist d = a ++ EReturn c x :: b ->
  exists q p rs, In (ENew c q) a /\ In (ERecv p (KResponse rs)) a /\ p_index rs = q_index q /\ x = returned rs.
Proof.
  intros E H. destruct (behind _ _ _ _ _ _ E H) as (ls1 & l & ls2 & d1 & d2 & es1 & es2 & _ & E1 & T & _ & F & G).
  destruct (inv_inv _ _ _ E1) as (_ & _ & _ & _ & I & _). event T G. rewrite app_nil_r. destruct (I _ _ H0 x) as (q & p & rs & A & B & C & D); [auto|].
  exists q, p, rs. split; [eapply new_of_nth; eauto|auto].
Qed.
Lemma return_once carried ls d c : exec dstep (new_dock carried) ls = Some d -> length (returns c (hist d)) <= 1.
Proof.
  intros E. destruct (inv_inv _ _ _ E) as (_ & _ & _ & _ & _ & [A B]). destruct (nth_error (calls d) c) as [r|] eqn:Ec.
  - rewrite (A c r Ec). destruct (c_pc r); cbn; lia.
  - rewrite B; [cbn; lia|]. apply nth_error_None, Ec.
Qed.
Lemma call_unique carried ls d c q c' q' : exec dstep (new_dock carried) ls = Some d -> NoDup (map q_index (requests (hist d))) ->
  In (ENew c q) (hist d) -> In (ENew c' q') (hist d) -> q_index q = q_index q' -> c = c' /\ q = q'.
Proof.
  intros E N A B Q. destruct (ids_inv _ _ _ E) as [_ I]. apply I in A. apply I in B.
  assert (c = c'); [|split; congruence]. rewrite NoDup_nth_error in N. apply N; [rewrite map_length; eapply nth_lt; eauto|].
  rewrite (map_nth_error q_index _ _ A), (map_nth_error q_index _ _ B). congruence.
Qed.

(* a call whose identifier is taken over is never answered *)
Definition lost c d := c < length (calls d) /\ (forall i, zget (rpcs d) i <> Some c) /\
  (forall j cb, nth_error (callbacks d) j = Some cb -> b_call cb = c -> b_pc cb <> BPut) /\
  (forall r, nth_error (calls d) c = Some r -> c_buf r = None /\ forall x, c_pc r <> CGot x) /\ returns c (hist d) = [].
Lemma returns_frame c h e : (forall x, ~ In (EReturn c x) e) -> returns c (h ++ e) = returns c h.
Proof.
  intros He. rewrite returns_app. replace (returns c e) with (@nil (ret V)); [apply app_nil_r|]. symmetry. apply fm_nil. intros x Hx.
  destruct x; try reflexivity. destruct (Nat.eqb_spec c0 c); [subst; exfalso; eapply He; exact Hx|reflexivity].
Qed.
Lemma lost_calls c cs c0 r r' : c < length cs /\ (forall r, nth_error cs c = Some r -> c_buf r = None /\ forall x, c_pc r <> @CGot V x) -> nth_error cs c0 = Some r ->
  (c = c0 -> c_buf r = None -> (forall x, c_pc r <> CGot x) -> c_buf r' = None /\ forall x, c_pc r' <> CGot x) ->
  c < length (set_nth cs c0 r') /\ (forall r, nth_error (set_nth cs c0 r') c = Some r -> c_buf r = None /\ forall x, c_pc r <> CGot x).
Proof.
  intros [H1 H2] E W. rewrite set_nth_length. split; [exact H1|]. intros r1 E1. apply set_nth_case in E1 as [[-> ->]|[N E1]]; [|auto].
  destruct (H2 _ E). auto.
Qed.
Lemma lost_step c d l d' : lost c d -> tr d l d' -> lost c d'.
Proof.
  intros (L & Z & B & C & R) T. assert (LC : c < length (calls d) /\ (forall r, nth_error (calls d) c = Some r -> c_buf r = None /\ forall x, c_pc r <> CGot x)) by auto.
  unfold lost. destruct T; proj; rewrite <- ?app_assoc;
    try (rewrite ?returns_frame by noev; repeat (split; [solve [auto]|]); solve [auto]);
    try (match goal with |- context [set_nth (calls d) ?c0 ?r'] => assert (LC' : c < length (set_nth (calls d) c0 r') /\ (forall r, nth_error (set_nth (calls d) c0 r') c = Some r -> c_buf r = None /\ forall x, c_pc r <> CGot x));
         [eapply lost_calls; [exact LC|eassumption|cbn; try (intuition congruence)]|] end);
    try (destruct LC'; rewrite ?returns_frame by noev; auto; fail).
  - (* response *) rewrite returns_frame by noev. repeat split; auto; try (apply C; auto). intros j cb E1 E2. apply nth_snoc in E1 as [E1|[_ ->]]; [eauto|].
    cbn in E2. subst. exfalso. eapply Z; eauto.
  - rewrite returns_frame by noev. rewrite app_length. repeat split; auto; try lia.
    + intros i. rewrite zget_zput. destruct (clock =? i)%Z; [intros X; injection X as <-; lia|apply Z].
    + rewrite nth_error_app1 in H0 by auto. apply C, H0.
    + rewrite nth_error_app1 in H0 by auto. apply C, H0.
  - (* EReturn *) destruct LC' as [LC1 LC2]. repeat split; auto; try (apply LC2; auto). rewrite returns_app. cbn. destruct (Nat.eqb_spec c0 c) as [->|N]; [|rewrite app_nil_r; exact R].
    exfalso. destruct (C _ H) as [_ X]. eapply X; eauto.
  - intros -> Hb Hg. exfalso. eapply B; eauto.
  - destruct LC'. repeat split; auto; try (apply H5; auto). intros j cb0 E1 E2. apply set_nth_case in E1 as [[-> ->]|[N E1]]; [cbn; discriminate|eauto].
  - repeat split; auto; try (apply C; auto).
    + intros i. rewrite zget_zdel. destruct (b_index cb =? i)%Z; [discriminate|apply Z].
    + intros j cb0 E1 E2. apply set_nth_case in E1 as [[-> ->]|[N E1]]; [cbn; discriminate|eauto].
Qed.
Lemma overtaken carried ls d c q f m args w d1 ls' d2 : exec dstep (new_dock carried) ls = Some d -> In (ENew c q) (hist d) ->
  (forall p rs, In (ERecv p (KResponse rs)) (hist d) -> p_index rs <> q_index q) ->
  dstep d (LCall f m args w (q_index q)) = Some d1 -> length (calls d1) = S (length (calls d)) -> exec dstep d1 ls' = Some d2 ->
  returns c (hist d2) = [].
Proof.
  intros E Hn Hr Hs Hl E2. destruct (inv_inv _ _ _ E) as (I & J & K & L & M & [N1 N2]). apply I in Hn.
  assert (Hc : c < length (calls d)) by (destruct I as [I _]; rewrite <- (map_length c_orig), I; eapply nth_lt; eauto).
  assert (An : forall x, ~ answered (hist d) c x). { intros x (q' & p & rs & A & B & C & D). rewrite Hn in A. injection A as <-. eapply Hr; eauto. }
  assert (X : lost c d1).
  { apply dstep_tr in Hs as [_ T]. inversion T; subst; proj; [lia|]. unfold lost; proj. rewrite app_length. split; [cbn; lia|]. split; [|split; [|split]].
    - intros i. rewrite zget_zput. destruct (Z.eqb_spec (q_index q) i) as [<-|Ni]; [intros X; injection X as <-; lia|].
      intros X. destruct (K _ _ X) as (q' & A & B). congruence.
    - intros j cb Ej Eb; exfalso; destruct (L _ _ Ej) as [_ Y]; rewrite Eb in Y; eapply An; eauto.
    - intros r Er. rewrite nth_error_app1 in Er by auto. split; [destruct (c_buf r) as [x|] eqn:Eb; [|reflexivity]; exfalso; apply (An x), (M _ _ Er x); auto|].
      intros x Hx. apply (An x), (M _ _ Er x); auto.
    - rewrite returns_frame by noev. destruct (nth_error (calls d) c) as [r|] eqn:Er; [|apply nth_error_None in Er; lia]. rewrite (N1 _ _ Er).
      destruct (c_pc r) as [| | | |x] eqn:Ep; try reflexivity. exfalso. apply (An x), (M _ _ Er x). auto. }
  assert (Y : lost c d2); [|apply Y]. revert E2. apply reach_from; [|exact X]. intros s l s' A _ B. eapply lost_step; eauto.
Qed.

(* C41 *)
Definition delivered (cbs : list (callback V)) c (r : call V) :=
  (c_closed r = true \/ (exists x, c_buf r = Some x \/ c_pc r = CGot x \/ c_pc r = CDone x)) -> exists j cb, nth_error cbs j = Some cb /\ b_call cb = c /\ b_pc cb <> BPut.
Lemma delivered_snoc cbs c r cb : delivered cbs c r -> delivered (cbs ++ [cb]) c r.
Proof. intros H X. destruct (H X) as (j & cb' & A & B). exists j, cb'. split; [apply nth_app, A|exact B]. Qed.
Lemma delivered_set cbs c r j cb cb' : delivered cbs c r -> nth_error cbs j = Some cb -> b_call cb' = b_call cb -> b_pc cb' <> BPut -> delivered (set_nth cbs j cb') c r.
Proof.
  intros H E N1 N2 X. destruct (H X) as (i & cb0 & A & B & C). destruct (Nat.eq_dec i j) as [->|N].
  - exists j, cb'. rewrite set_nth_same by (eapply nth_lt; eauto). split; [reflexivity|]. split; [congruence|exact N2].
  - exists i, cb0. rewrite set_nth_other by auto. auto.
Qed.
Lemma delivered_calls cbs cs c r r' : all (delivered cbs) cs -> nth_error cs c = Some r ->
  ((c_closed r' = true \/ (exists x, c_buf r' = Some x \/ c_pc r' = CGot x \/ c_pc r' = CDone x)) -> c_closed r = true \/ (exists x, c_buf r = Some x \/ c_pc r = CGot x \/ c_pc r = CDone x)) ->
  all (delivered cbs) (set_nth cs c r').
Proof. intros H E W. apply all_set; [exact H|]. intros X. eapply H; eauto. Qed.
Ltac dset := first [eassumption | eapply delivered_calls; [eassumption|eassumption|cbn; try solve [intros [X|(x0 & [X|[X|X]])]; first [discriminate X | left; exact X | right; eexists; solve [eauto | rewrite X; eauto | intuition eauto]]]]].
Lemma delivered_step d l d' : all (delivered (callbacks d)) (calls d) -> tr d l d' -> all (delivered (callbacks d')) (calls d').
Proof.
  intros I T. destruct T; proj; try exact I; try dset.
  - intros c0 r0 E0. apply delivered_snoc, I, E0.
  - apply all_snoc; [exact I|]. intros [X|(x & [X|[X|X]])]; discriminate X.
  - intros c0 r0 E0. apply set_nth_case in E0 as [[-> ->]|[N E0]].
    + intros _. eexists b, _. rewrite set_nth_same by (eapply nth_lt; eauto). split; [reflexivity|]. cbn. split; [reflexivity|discriminate].
    + eapply delivered_set; [apply I, E0|exact H|reflexivity|discriminate].
  - intros c0 r0 E0. eapply delivered_set; [apply I, E0|exact H|reflexivity|discriminate].
Qed.
Definition indexed d := incl (map b_index (callbacks d)) (map p_index (responses (hist d))) /\ (NoDup (map p_index (responses (hist d))) -> NoDup (map b_index (callbacks d))).
Lemma NoDup_app_l {A} (a b : list A) : NoDup (a ++ b) -> NoDup a.
Proof. induction a; cbn; intros H; [constructor|]. inversion H; subst. constructor; auto. rewrite in_app_iff in *. tauto. Qed.
Lemma indexed_frame cbs h e : incl cbs (map p_index (responses h)) /\ (NoDup (map p_index (responses h)) -> NoDup cbs) ->
  incl cbs (map p_index (responses (h ++ e))) /\ (NoDup (map p_index (responses (h ++ e))) -> NoDup cbs).
Proof. intros [A B]. rewrite responses_app, map_app. split; [apply incl_appl, A|]. intros N. apply B. apply NoDup_app_l in N. exact N. Qed.
Lemma NoDup_snoc {A} (l : list A) x : NoDup (l ++ [x]) <-> NoDup l /\ ~ In x l.
Proof.
  split.
  - intros N. split; [eapply NoDup_app_l; eauto|]. intros X. apply in_split in X as (a & b & ->). rewrite <- app_assoc in N. cbn in N.
    apply NoDup_remove_2 in N. apply N. rewrite !in_app_iff. cbn. auto.
  - intros [N X]. eapply Permutation_NoDup; [apply Permutation_app_comm|]. cbn. constructor; auto.
Qed.
Lemma indexed_step d l d' : indexed d -> tr d l d' -> indexed d'.
Proof.
  unfold indexed. intros I T. destruct T; proj; rewrite <- ?app_assoc; try exact I; try (apply indexed_frame; exact I);
    try (erewrite (set_nth_map b_index) by (eassumption || reflexivity)); try exact I; try (apply indexed_frame; exact I).
  rewrite responses_app, !map_app. cbn. destruct I as [I1 I2]. split.
  - intros x. rewrite !in_app_iff. intros [X|X]; [left; auto|right; exact X].
  - rewrite !NoDup_snoc. intros [N X]. split; [auto|]. intros Y. apply X, I1, Y.
Qed.
Definition crash_ok d := state d = Crashed ClosedChannel -> exists i j cb cb', i <> j /\ nth_error (callbacks d) i = Some cb /\ nth_error (callbacks d) j = Some cb' /\ b_call cb = b_call cb'.
Lemma crash_step d l d' : all (delivered (callbacks d)) (calls d) -> state d = Alive -> tr d l d' -> crash_ok d'.
Proof.
  intros I A T. unfold crash_ok. destruct T; proj; try (intros X; congruence).
  intros _. destruct (I _ _ H1) as (j & cb' & E1 & E2 & E3); [auto|]. exists b, j, cb, cb'. repeat split; auto. intros ->. congruence.
Qed.
Lemma closed_crash carried ls d : exec dstep (new_dock carried) ls = Some d -> NoDup (map p_index (responses (hist d))) -> state d <> Crashed ClosedChannel.
Proof.
  intros E N X. assert (G : all (delivered (callbacks d)) (calls d) /\ indexed d /\ crash_ok d).
  { revert E. apply (reach (fun d => all (delivered (callbacks d)) (calls d) /\ indexed d /\ crash_ok d)).
    - split; [intros [|i] x Hx; discriminate Hx|]. split; [split; [intros x []|intros; constructor]|discriminate].
    - intros s l s' (A & B & _) St T. split; [eapply delivered_step; eauto|]. split; [eapply indexed_step; eauto|eapply crash_step; eauto]. }
  destruct G as (_ & [_ B] & C). destruct (C X) as (i & j & cb & cb' & Ne & E1 & E2 & E3). specialize (B N).
  destruct (inv_inv _ _ _ E) as (_ & _ & _ & K & _). destruct (K _ _ E1) as [(q & A1 & A2) _]. destruct (K _ _ E2) as [(q' & A1' & A2') _].
  rewrite NoDup_nth_error in B. apply Ne, B; [rewrite map_length; eapply nth_lt; eauto|].
  rewrite (map_nth_error b_index _ _ E1), (map_nth_error b_index _ _ E2). congruence.
Qed.
End P.
