(* Remote calls: identity, commitment, answers. *)
From Verif Require Import Lts GoVal Tables DockModel DockSpec DockProof DockProof2.
From Coq Require Import Arith Bool List ZArith Lia Permutation.
Import ListNotations.
Open Scope nat_scope.

Definition all {A} (P : nat -> A -> Prop) (l : list A) := forall i x, nth_error l i = Some x -> P i x.
Lemma all_set {A} (P : nat -> A -> Prop) l i x : all P l -> P i x -> all P (set_nth l i x).
Proof. intros H Hx j y E. apply set_nth_case in E as [[-> ->]|[_ E]]; auto. Qed.
Lemma all_snoc {A} (P : nat -> A -> Prop) l x : all P l -> P (length l) x -> all P (l ++ [x]).
Proof. intros H Hx j y E. apply nth_snoc in E as [E|[-> ->]]; auto. Qed.
Lemma all_weak {A} (P Q : nat -> A -> Prop) l : all P l -> (forall i x, nth_error l i = Some x -> P i x -> Q i x) -> all Q l.
Proof. intros H W i x E. auto. Qed.
Lemma fm_nil {A B} (f : A -> list B) e : (forall x, In x e -> f x = []) -> flat_map f e = [].
Proof. induction e as [|x e IH]; cbn; intros H; [reflexivity|]. rewrite H, IH; auto. Qed.

Section P.
Context {V : Type}.
Notation dock := (DockModel.dock V).
Notation tr := (tr V).
Implicit Types d : dock.
Implicit Types h e : list (event V).

Lemma requests_app h e : requests (h ++ e) = requests h ++ requests e.
Proof. apply flat_map_app. Qed.
Lemma commits_app c h e : commits c (h ++ e) = commits c h ++ commits c e.
Proof. apply flat_map_app. Qed.
Lemma returns_app c h e : returns c (h ++ e) = returns c h ++ returns c e.
Proof. apply flat_map_app. Qed.
Lemma responses_app h e : responses (h ++ e) = responses h ++ responses e.
Proof. apply flat_map_app. Qed.

(* A: call n is the n-th request made *)
Definition ids d := map c_orig (calls d) = requests (hist d) /\ forall c q, In (ENew c q) (hist d) -> nth_error (requests (hist d)) c = Some q.
Lemma ids_frame os h e : os = requests h /\ (forall c q, In (ENew c q) h -> nth_error (requests h) c = Some q) -> (forall c q, ~ In (ENew c q) e) ->
  os = requests (h ++ e) /\ (forall c q, In (ENew c q) (h ++ e) -> nth_error (requests (h ++ e)) c = Some q).
Proof.
  intros [H1 H2] He. assert (R : requests e = []).
  { apply fm_nil. intros x Hx. destruct x; try reflexivity. exfalso. eapply He. exact Hx. }
  rewrite requests_app, R, app_nil_r. split; [exact H1|]. intros c q. rewrite in_app_iff. intros [X|X]; [auto|exfalso; eapply He; exact X].
Qed.
Ltac noev := intros; cbn; intuition congruence.
Lemma ids_step d l d' : ids d -> tr d l d' -> ids d'.
Proof.
  unfold ids. intros I T. destruct T; proj; rewrite <- ?app_assoc; try (erewrite !(set_nth_map c_orig) by (eassumption || reflexivity));
    try exact I; try (apply ids_frame; [exact I|noev]).
  rewrite map_app, requests_app. destruct I as [I1 I2]. split; [rewrite I1; reflexivity|]. intros c q. rewrite in_app_iff. intros [X|[X|[]]].
  - apply nth_app. auto.
  - injection X as <- <-. rewrite nth_error_app2; rewrite <- I1, map_length; [rewrite Nat.sub_diag; reflexivity|lia].
Qed.
Lemma ids_inv carried ls d : exec dstep (new_dock carried) ls = Some d -> ids d.
Proof. apply reach; [split; [reflexivity|intros c q []]|]. intros s l s' I _ T. eapply ids_step; eauto. Qed.
Lemma ids_nth d c r : ids d -> nth_error (calls d) c = Some r -> nth_error (requests (hist d)) c = Some (c_orig r).
Proof. intros [I _] E. rewrite <- I. apply map_nth_error, E. Qed.

(* every call has its ENew *)
Definition named d := forall c, c < length (calls d) -> exists q, In (ENew c q) (hist d).
Lemma named_step d l d' : named d -> tr d l d' -> named d'.
Proof.
  unfold named. intros I T. destruct T; proj; try rewrite !set_nth_length; try exact I;
    try (intros c0 Hc; destruct (I c0) as [q0 X]; [lia|]; exists q0; rewrite ?in_app_iff; auto; fail).
  intros c Hc. rewrite app_length in Hc. cbn in Hc. destruct (Nat.eq_dec c (length (calls d))) as [->|N].
  - eexists. rewrite in_app_iff. right. left. reflexivity.
  - destruct (I c) as [q X]; [lia|]. exists q. rewrite in_app_iff. auto.
Qed.
Lemma named_inv carried ls d : exec dstep (new_dock carried) ls = Some d -> named d.
Proof. apply reach; [intros c H; cbn in H; lia|]. intros s l s' I _ T. eapply named_step; eauto. Qed.
Lemma new_of_call carried ls d c r : exec dstep (new_dock carried) ls = Some d -> nth_error (calls d) c = Some r -> In (ENew c (c_orig r)) (hist d).
Proof.
  intros E H. pose proof (ids_inv _ _ _ E) as I. destruct (named_inv _ _ _ E c) as [q X]; [eapply nth_lt; eauto|].
  pose proof (proj2 I _ _ X). rewrite (ids_nth _ _ _ I H) in H0. congruence.
Qed.

(* B: at most one commitment *)
Definition callok h c (r : call V) :=
  (c_req r = None \/ c_req r = Some (c_orig r)) /\ (c_pc r = CPut -> c_req r = None /\ commits c h = []) /\
  (c_req r <> None -> commits c h = []) /\ length (commits c h) <= 1.
Definition committing d := all (callok (hist d)) (calls d) /\ forall c, length (calls d) <= c -> commits c (hist d) = [].
Lemma commits_none c e : (forall c p a, ~ In (ECommit c p a) e) -> commits c e = [].
Proof. intros H. apply fm_nil. intros x Hx. destruct x; try reflexivity. exfalso. eapply H. exact Hx. Qed.
Lemma committing_frame cs h e : all (callok h) cs /\ (forall c, length cs <= c -> commits c h = []) -> (forall c p a, ~ In (ECommit c p a) e) ->
  all (callok (h ++ e)) cs /\ (forall c, length cs <= c -> commits c (h ++ e) = []).
Proof.
  intros [H1 H2] He. split.
  - intros c r E. specialize (H1 c r E). unfold callok in *. rewrite commits_app, (commits_none _ e), app_nil_r by auto. exact H1.
  - intros c Hc. rewrite commits_app, (commits_none _ e), app_nil_r by auto. auto.
Qed.
Lemma committing_set cs h c r r' : all (callok h) cs /\ (forall c, length cs <= c -> commits c h = []) -> nth_error cs c = Some r -> (callok h c r -> callok h c r') ->
  all (callok h) (set_nth cs c r') /\ (forall c0, length (set_nth cs c r') <= c0 -> commits c0 h = []).
Proof. intros [H1 H2] E W. split; [apply all_set; auto|]. rewrite set_nth_length. exact H2. Qed.
Lemma committing_commit cs h c r r' p a q : all (callok h) cs /\ (forall c, length cs <= c -> commits c h = []) -> nth_error cs c = Some r ->
  c_req r <> None -> c_req r' = None -> c_pc r' <> CPut ->
  all (callok (h ++ [ECommit c p a; ESend p (KRequest q) a])) (set_nth cs c r') /\
  (forall c0, length (set_nth cs c r') <= c0 -> commits c0 (h ++ [ECommit c p a; ESend p (KRequest q) a]) = []).
Proof.
  intros [H1 H2] E N1 N2 N3.
  assert (Cm : forall c0, commits c0 (h ++ [ECommit c p a; ESend p (KRequest q) a]) = commits c0 h ++ if c =? c0 then [p] else [])
    by (intros c0; rewrite commits_app; cbn; rewrite app_nil_r; reflexivity).
  split.
  - intros c0 r0 E0. unfold callok. rewrite !Cm. apply set_nth_case in E0 as [[-> ->]|[Nc E0]].
    + destruct (H1 c r E) as (A1 & A2 & A3 & A4). rewrite (A3 N1), Nat.eqb_refl. cbn. rewrite N2. repeat split; auto; congruence.
    + destruct (Nat.eqb_spec c c0); [congruence|]. rewrite app_nil_r. apply H1, E0.
  - intros c0 Hc. rewrite set_nth_length in Hc. rewrite Cm. pose proof (nth_lt _ _ _ E). destruct (Nat.eqb_spec c c0); [lia|]. rewrite app_nil_r. auto.
Qed.
Ltac cset := first [eassumption | eapply committing_set; [eassumption|eassumption|unfold callok; cbn; intuition congruence]].
Lemma committing_step d l d' : committing d -> ids d -> tr d l d' -> committing d'.
Proof.
  unfold committing. intros I J T. destruct T; proj; rewrite <- ?app_assoc; try exact I; try (apply committing_frame; [cset|noev]); try cset.
  - apply committing_commit with (r := r); cbn; auto; try congruence.
    destruct I as [I _]. destruct (I _ _ H0) as (A1 & A2 & A3 & A4). intros Y. apply A2 in Y as [Y _]. congruence.
  - apply committing_frame; [|noev]. destruct I as [I1 I2]. split.
    + apply all_snoc; [exact I1|]. unfold callok. cbn. rewrite I2 by lia. repeat split; auto.
    + intros c Hc. rewrite app_length in Hc. cbn in Hc. apply I2. lia.
  - apply committing_commit with (r := r); cbn; auto; try congruence.
Qed.
Lemma committing_inv carried ls d : exec dstep (new_dock carried) ls = Some d -> committing d.
Proof.
  intros E. assert (X : committing d /\ ids d); [|apply X]. revert E. apply (reach (fun d => committing d /\ ids d)).
  - split; [split; [intros [|i] x Hx; discriminate Hx|reflexivity]|split; [reflexivity|intros c q []]].
  - intros s l s' [I J] _ T. split; [eapply committing_step; eauto|eapply ids_step; eauto].
Qed.
Lemma commit_once carried ls d c : exec dstep (new_dock carried) ls = Some d -> length (commits c (hist d)) <= 1.
Proof.
  intros E. destruct (committing_inv _ _ _ E) as [A B]. destruct (nth_error (calls d) c) as [r|] eqn:Ec; [apply (A c r Ec)|].
  rewrite B; [cbn; lia|]. apply nth_error_None, Ec.
Qed.

(* C: the table of remote features *)
Definition cache_ok (t : name -> option nat) h := forall f, match t f with Some p => latest f h p | None => forall p, ~ In (ECached f p) h end.
Lemma cache_frame t h e : cache_ok t h -> (forall f p, ~ In (ECached f p) e) -> cache_ok t (h ++ e).
Proof.
  intros H He f. specialize (H f). destruct (t f) as [p|].
  - destruct H as (h1 & h2 & -> & Hn). exists h1, (h2 ++ e). rewrite <- app_assoc. split; [reflexivity|]. intros p'. rewrite in_app_iff. intros [X|X]; [eapply Hn|eapply He]; exact X.
  - intros p. rewrite in_app_iff. intros [X|X]; [eapply H|eapply He]; exact X.
Qed.
Lemma cache_put t h f p : cache_ok t h -> cache_ok (updn t f (Some p)) (h ++ [ECached f p]).
Proof.
  intros H g. destruct (updn_case t f (Some p) g) as [[-> ->]|[N ->]].
  - exists h, []. auto.
  - specialize (H g). destruct (t g) as [q|].
    + destruct H as (h1 & h2 & -> & Hn). exists h1, (h2 ++ [ECached f p]). rewrite <- app_assoc. split; [reflexivity|].
      intros p'. rewrite in_app_iff. intros [X|[X|[]]]; [eapply Hn, X|congruence].
    + intros q. rewrite in_app_iff. intros [X|[X|[]]]; [eapply H, X|congruence].
Qed.
Lemma cache_inv carried ls d : exec dstep (new_dock carried) ls = Some d -> cache_ok (remote d) (hist d).
Proof.
  apply (reach (fun d => cache_ok (remote d) (hist d))); [intros f p []|]. clear. intros d l d' I _ T.
  destruct T; proj; rewrite <- ?app_assoc; try exact I; try (apply cache_frame; [exact I|noev]). apply cache_put, I.
Qed.
Lemma latest_fun f h p p' : latest f h p -> latest f h p' -> p = p'.
Proof.
  intros (a & b & -> & Hb) (a' & b' & E & Hb').
  assert (G : forall (a a' b b' : list (event V)), a ++ ECached f p :: b = a' ++ ECached f p' :: b' -> (forall p, ~ In (ECached f p) b) -> (forall p, ~ In (ECached f p) b') -> p = p').
  { clear. induction a as [|x a IH]; intros [|x' a'] b b' E Hb Hb'; cbn in E.
    - congruence.
    - injection E as _ E. subst b. exfalso. apply (Hb p'). rewrite in_app_iff. right; left; reflexivity.
    - injection E as _ E. subst b'. exfalso. apply (Hb' p). rewrite in_app_iff. right; left; reflexivity.
    - injection E as _ E. eapply IH; eauto. }
  eapply G; eauto.
Qed.

(* D: what is recorded was announced *)
Definition announced (h : list (event V)) p (hp : hpc) := match hp with
  | GSend sl => In (ERecv p (KRegister sl)) h | GPut sl => exists sl0, In (ERecv p (KRegister sl0)) h /\ incl sl sl0 | _ => True end.
Definition heard d := forall p, announced (hist d) p (handlers d p).
Lemma announced_frame h e p x : announced h p x -> announced (h ++ e) p x.
Proof. destruct x; cbn; auto; [rewrite in_app_iff; auto|]. intros (sl & A & B). exists sl. rewrite in_app_iff. auto. Qed.
Lemma heard_set (hs : nat -> hpc) h p x : (forall q, announced h q (hs q)) -> announced h p x -> forall q, announced h q (updp hs p x q).
Proof. intros H Hx q. unfold updp. destruct (Nat.eqb_spec q p); [subst; exact Hx|apply H]. Qed.
Lemma heard_frame (hs : nat -> hpc) h e : (forall q, announced h q (hs q)) -> forall q, announced (h ++ e) q (hs q).
Proof. intros H q. apply announced_frame, H. Qed.
Lemma heard_inv carried ls d : exec dstep (new_dock carried) ls = Some d -> heard d.
Proof.
  apply reach; [intros p; exact I|]. clear. unfold heard. intros d l d' I _ T.
  destruct T; proj; rewrite <- ?app_assoc; try exact I; try (apply heard_frame; exact I); try (apply heard_set; [first [exact I|apply heard_frame; exact I]|exact Logic.I]).
  - apply heard_set; [apply heard_frame; exact I|]. cbn. rewrite in_app_iff. right; left; reflexivity.
  - specialize (I p) as Ip. rewrite H0 in Ip. intros q. apply heard_frame with (hs := updp (handlers d) p (GPut sl)). apply heard_set; [exact I|]. exists sl. split; [exact Ip|apply incl_refl].
  - specialize (I p) as Ip. rewrite H in Ip. destruct Ip as (sl0 & A & B). apply heard_frame with (hs := updp (handlers d) p (GPut sl)). apply heard_set; [exact I|]. exists sl0. split; [exact A|].
    intros y Hy. apply B. right. exact Hy.
Qed.
Lemma cached_event carried ls d a f p b : exec dstep (new_dock carried) ls = Some d -> hist d = a ++ ECached f p :: b ->
  exists sl, In (ERecv p (KRegister sl)) a /\ In f sl.
Proof.
  intros E H. destruct (behind _ _ _ _ _ _ E H) as (ls1 & l & ls2 & d1 & d2 & es1 & es2 & _ & E1 & T & _ & F & G). pose proof (heard_inv _ _ _ E1) as I.
  event T G. specialize (I p). rewrite H0 in I. destruct I as (sl0 & A & B). exists sl0. rewrite app_nil_r. split; [exact A|]. apply B. left. reflexivity.
Qed.

(* C38 *)
Lemma tail_of (d2 : dock) ls2 (d : dock) x es2 (ev : event V) a b : exec dstep d2 ls2 = Some d -> hist d2 = x ++ ev :: es2 -> hist d = a ++ ev :: b -> a = x -> exists b', b = es2 ++ b'.
Proof.
  intros E H2 H ->. destruct (exec_grows _ _ dstep_grows _ _ _ E) as [es G]. rewrite H2, H, <- app_assoc in G. apply app_inv_head in G. injection G as ->. eauto.
Qed.
Lemma commit_event carried ls d a c p acc b : exec dstep (new_dock carried) ls = Some d -> hist d = a ++ ECommit c p acc :: b ->
  exists q b', In (ENew c q) a /\ b = ESend p (KRequest q) acc :: b' /\ latest (q_slot q) a p.
Proof.
  intros E H. destruct (behind _ _ _ _ _ _ E H) as (ls1 & l & ls2 & d1 & d2 & es1 & es2 & _ & E1 & T & E2 & F & G).
  pose proof (committing_inv _ _ _ E1) as [I _]. pose proof (cache_inv _ _ _ E1) as J.
  assert (G' := G). rewrite app_assoc, <- F in G'. destruct (tail_of _ _ _ _ _ _ _ _ E2 G' H eq_refl) as [b' B]. clear G'.
  event T G; rewrite app_nil_r in *.
  - destruct (I _ _ H1) as ([X|X] & _); rewrite X in H2; [discriminate|]. injection H2 as <-. exists (c_orig r), b'.
    specialize (J (q_slot (c_orig r))). rewrite H3 in J. split; [eapply new_of_call; eauto|]. auto.
  - destruct (I _ _ H0) as ([X|X] & _); rewrite X in H2; [discriminate|]. injection H2 as <-. exists (c_orig r), b'.
    specialize (J (q_slot (c_orig r))). rewrite H3 in J. split; [eapply new_of_call; eauto|]. auto.
Qed.
Lemma send_event carried ls d a p q acc b : exec dstep (new_dock carried) ls = Some d -> hist d = a ++ ESend p (KRequest q) acc :: b ->
  exists a' c, a = a' ++ [ECommit c p acc].
Proof.
  intros E H. destruct (behind _ _ _ _ _ _ E H) as (ls1 & l & ls2 & d1 & d2 & es1 & es2 & _ & E1 & T & _ & F & G).
  event T G; eauto.
Qed.
End P.
