(* What travels between docks and hub. *)
From Verif Require Import Lts GoVal Tables DockModel DockSpec DockProof DockProof2 DockProof3 SysModel SysSpec.
From Verif Require HubModel HubSpec.
From Coq Require Import Arith Bool List ZArith Lia.
Import ListNotations.
Open Scope nat_scope.

(* ---- subsequences ---- *)
Section Subseq.
Context {A : Type}.
Implicit Types a b c : list A.
Lemma sq_refl a : subseq a a. Proof. induction a; constructor; auto. Qed.
Lemma sq_empty a : subseq [] a. Proof. induction a; constructor; auto. Qed.
Lemma sq_app a b c d : subseq a b -> subseq c d -> subseq (a ++ c) (b ++ d).
Proof. induction 1; cbn; auto; constructor; auto. Qed.
Lemma sq_trans a b c : subseq a b -> subseq b c -> subseq a c.
Proof.
  intros H1 H2. revert a H1. induction H2; intros a' H1; auto.
  - inversion H1; subst; constructor; auto.
  - constructor; auto.
Qed.
Lemma sq_in a b x : subseq a b -> In x a -> In x b.
Proof. induction 1; cbn; intuition. Qed.
Lemma sq_drop n a : subseq (drop_nth n a) a.
Proof.
  unfold drop_nth. revert n. induction a as [|x a IH]; intros [|n]; cbn; try constructor; auto using sq_refl. apply IH.
Qed.
Definition twice (P : A -> Prop) l := exists a x b y c, l = a ++ x :: b ++ y :: c /\ P x /\ P y.
Lemma sq_split a x c b : subseq (a ++ x :: c) b -> exists b1 b2, b = b1 ++ x :: b2 /\ subseq a b1 /\ subseq c b2.
Proof.
  remember (a ++ x :: c) as l eqn:El. intros H. revert a El. induction H as [|y l b H IH|y l b H IH]; intros a El.
  - destruct a; discriminate.
  - destruct a as [|z a]; cbn in El; injection El as -> ->.
    + exists [], b. repeat split; auto. constructor.
    + destruct (IH _ eq_refl) as (b1 & b2 & -> & S1 & S2). exists (z :: b1), b2. repeat split; auto. constructor; auto.
  - destruct (IH _ El) as (b1 & b2 & -> & S1 & S2). exists (y :: b1), b2. repeat split; auto. constructor; auto.
Qed.
Lemma sq_twice P a b : subseq a b -> twice P a -> twice P b.
Proof.
  intros S (u & x & v & y & w & -> & Px & Py). destruct (sq_split _ _ _ _ S) as (b1 & b2 & -> & _ & S2).
  destruct (sq_split _ _ _ _ S2) as (b3 & b4 & -> & _ & _). exists b1, x, b3, y, b4. auto.
Qed.
Lemma nth_twice (P : A -> Prop) (l : list A) i j x y : nth_error l i = Some x -> nth_error l j = Some y -> i < j -> P x -> P y -> twice P l.
Proof.
  intros Hi Hj L Px Py. destruct (nth_error_split _ _ Hi) as (u & w & -> & <-).
  rewrite nth_error_app2 in Hj by lia. replace (j - length u) with (S (j - length u - 1)) in Hj by lia. cbn in Hj.
  destruct (nth_error_split _ _ Hj) as (v & z & -> & _). exists u, x, v, y, z. auto.
Qed.
End Subseq.

Lemma fm_twice {A B} (f : A -> list B) (P : B -> Prop) (Q : A -> Prop) l : (forall e, f e = [] \/ exists x, f e = [x]) ->
  (forall e x, f e = [x] -> P x -> Q e) -> twice P (flat_map f l) -> twice Q l.
Proof.
  intros F H (u & x & v & y & w & E & Px & Py).
  assert (X : forall l u x w, flat_map f l = u ++ x :: w -> P x -> exists a e b, l = a ++ e :: b /\ f e = [x] /\ flat_map f b = w).
  { clear - F. induction l as [|e l IH]; intros u x w E Px; [destruct u; discriminate|]. cbn in E. destruct (F e) as [N|[z N]]; rewrite N in E.
    - destruct (IH _ _ _ E Px) as (a & e' & b & -> & ? & ?). exists (e :: a), e', b. auto.
    - destruct u as [|z' u]; cbn in E.
      + injection E as -> E. exists [], e, l. auto.
      + injection E as _ E. destruct (IH _ _ _ E Px) as (a & e' & b & -> & ? & ?). exists (e :: a), e', b. auto. }
  destruct (X _ _ _ _ E Px) as (a & e & b & -> & Fe & Fb). destruct (X _ _ _ _ Fb Py) as (a' & e' & b' & -> & Fe' & _).
  exists a, e, a', e', b'. split; auto. split; eapply H; eauto.
Qed.

Fixpoint omap {A B} (f : A -> option B) (l : list A) : list B :=
  match l with [] => [] | x :: r => match f x with Some y => y :: omap f r | None => omap f r end end.
Lemma omap_app {A B} (f : A -> option B) a b : omap f (a ++ b) = omap f a ++ omap f b.
Proof. induction a as [|x a IH]; cbn; auto. destruct (f x); cbn; congruence. Qed.
Lemma omap_in {A B} (f : A -> option B) l y : In y (omap f l) -> exists x, In x l /\ f x = Some y.
Proof. induction l as [|x l IH]; cbn; [intros []|]. destruct (f x) eqn:E; cbn; [intros [<-|H]; eauto|intros H]; destruct (IH H) as (z & ? & ?); eauto. Qed.
Lemma omap_twice {A B} (f : A -> option B) (P : B -> Prop) (Q : A -> Prop) l : (forall x y, f x = Some y -> P y -> Q x) -> twice P (omap f l) -> twice Q l.
Proof.
  intros H T. apply (fm_twice (fun x => match f x with Some y => [y] | None => [] end) P).
  - intros e. destruct (f e); eauto.
  - intros e x. destruct (f e) eqn:E; [|discriminate]. intros [= ->]. eauto.
  - replace (flat_map _ l) with (omap f l); auto. clear. induction l as [|x l IH]; cbn; auto. destruct (f x); cbn; congruence.
Qed.

Section Sys.
Context {V : Type}.
Variables (carried : nat -> list (name * bool)) (link : nat -> nat -> wend) (hublink : nat -> option (nat * nat)).
Variable carry : nat -> nat -> list V -> option (list V).
Variables (black : list Z) (raddr : nat -> name) (hostport : name -> Z -> name).
Hypothesis W : wired link hublink.
Notation step := (sstep link hublink carry black raddr hostport).
Notation sys := (SysModel.sys V).

Lemma sent_app p (h e : list (event V)) : sent_on p (h ++ e) = sent_on p h ++ sent_on p e.
Proof. apply flat_map_app. Qed.
Lemma got_app p (h e : list (event V)) : got_on p (h ++ e) = got_on p h ++ got_on p e.
Proof. apply flat_map_app. Qed.
Lemma new_app {E} (h e : list E) : new_events h (h ++ e) = e.
Proof. unfold new_events. rewrite skipn_app, skipn_all, Nat.sub_diag. reflexivity. Qed.

(* what the hub has sent on peer h *)
Definition hub_out (h : nat) (es : list HubModel.event) : list (packet V) :=
  flat_map (fun e => match e with
    | HubModel.EReply h' port => if h' =? h then [KRegistered port] else []
    | HubModel.EAnswer _ h' _ _ host port => if h' =? h then [KAddress (hostport host port)] else []
    | _ => [] end) es.
(* packets to the hub that a dock's events account for *)
Definition from_dock (p : nat) (h : list (event V)) (k : HubModel.packet) : Prop :=
  match k with
  | HubModel.PRegister sl => In (ESend p (KRegister sl) true) h
  | HubModel.PReady sl => In (ESend p (KReady sl) true) h
  | HubModel.PQuery f => (exists k, In (EQuery k f) h) \/ In (ESend p (KQuery f) true) h
  | HubModel.POther => True
  end.
Lemma from_mono p h e k : from_dock p h k -> from_dock p (h ++ e) k.
Proof. destruct k; cbn; auto; try (intros; apply in_or_app; auto). intros [[k K]|K]; [left; exists k|right]; apply in_or_app; auto. Qed.

Definition into (i : nat) (es : list (event V)) (a q : nat) : list (packet V) :=
  match link a q with ToDock i' p => if i' =? i then omap (pass carry i a) (sent_on p es) else [] | _ => [] end.

Lemma put_same i p x (w : nat -> nat -> list (packet V)) : put_wire i p x w i p = x.
Proof. unfold put_wire. now rewrite !updp_same. Qed.
Lemma put_other i p x (w : nat -> nat -> list (packet V)) a q : a <> i \/ q <> p -> put_wire i p x w a q = w a q.
Proof.
  intros N. unfold put_wire. destruct (Nat.eq_dec a i) as [->|Na]; [|now rewrite updp_other].
  rewrite updp_same. rewrite updp_other; auto. tauto.
Qed.

Lemma post_one i ps s e : forall a q, wire (post_event link carry i ps s e) a q = wire s a q ++ into i [e] a q.
Proof.
  intros a q. unfold into. destruct e; cbn [post_event]; try (destruct (link a q) as [|i' p'|]; [| |]; cbn; try destruct (i' =? i); cbn; now rewrite app_nil_r).
  - (* ESend *)
    destruct accepted; [|cbn; destruct (link a q) as [|i' p'|]; try destruct (i' =? i); cbn; now rewrite app_nil_r].
    unfold post. destruct (link i p) as [|j p'|h] eqn:El.
    + destruct (link a q) as [|i' p'|] eqn:Ea; try now rewrite app_nil_r. destruct (Nat.eqb_spec i' i) as [->|]; [|now rewrite app_nil_r].
      cbn. destruct (Nat.eqb_spec p p') as [->|]; [|now rewrite app_nil_r]. apply W in Ea. congruence.
    + destruct (Nat.eq_dec a j) as [->|Na]; [destruct (Nat.eq_dec q p') as [->|Nq]|].
      * assert (Er := El). apply W in Er. rewrite Er, Nat.eqb_refl. cbn. rewrite Nat.eqb_refl. cbn.
        destruct (pass carry i j k); cbn; [now rewrite put_same|now rewrite app_nil_r].
      * assert (X : wire (match pass carry i j k with Some k' => set_wire j p' (wire s j p' ++ [k']) s | None => s end) j q = wire s j q).
        { destruct (pass carry i j k); cbn; auto. rewrite put_other; auto. }
        rewrite X. destruct (link j q) as [|i' p2|] eqn:Ea; try now rewrite app_nil_r. destruct (Nat.eqb_spec i' i) as [->|]; [|now rewrite app_nil_r].
        cbn. destruct (Nat.eqb_spec p p2) as [->|]; [|now rewrite app_nil_r]. apply W in Ea. congruence.
      * assert (X : wire (match pass carry i j k with Some k' => set_wire j p' (wire s j p' ++ [k']) s | None => s end) a q = wire s a q).
        { destruct (pass carry i j k); cbn; auto. rewrite put_other; auto. }
        rewrite X. destruct (link a q) as [|i' p2|] eqn:Ea; try now rewrite app_nil_r. destruct (Nat.eqb_spec i' i) as [->|]; [|now rewrite app_nil_r].
        cbn. destruct (Nat.eqb_spec p p2) as [->|]; [|now rewrite app_nil_r]. apply W in Ea. congruence.
    + cbn. destruct (link a q) as [|i' p'|] eqn:Ea; try now rewrite app_nil_r. destruct (Nat.eqb_spec i' i) as [->|]; [|now rewrite app_nil_r].
      cbn. destruct (Nat.eqb_spec p p') as [->|]; [|now rewrite app_nil_r]. apply W in Ea. congruence.
  - (* EQuery *)
    assert (X : forall ps (s : sys), wire (fold_left (fun s p => post_query link i f p s) ps s) = wire s).
    { clear. induction ps as [|p ps IH]; intros s; cbn; auto. rewrite IH. unfold post_query. destruct (link i p); reflexivity. }
    rewrite X. destruct (link a q) as [|i' p'|]; try destruct (i' =? i); cbn; now rewrite app_nil_r.
Qed.

Lemma into_app i e1 e2 a q : into i (e1 ++ e2) a q = into i e1 a q ++ into i e2 a q.
Proof. unfold into. destruct (link a q); auto. destruct (j =? i); auto. now rewrite sent_app, omap_app. Qed.
Lemma posts i ps es s : forall a q, wire (fold_left (post_event link carry i ps) es s) a q = wire s a q ++ into i es a q.
Proof.
  revert s. induction es as [|e es IH]; intros s a q; cbn [fold_left].
  - unfold into. destruct (link a q); try destruct (j =? i); cbn; now rewrite app_nil_r.
  - rewrite IH, post_one, <- app_assoc. f_equal. change (e :: es) with ([e] ++ es). symmetry. apply into_app.
Qed.
Lemma post_docks i ps es s : sd (fold_left (post_event link carry i ps) es s) = sd s /\ sh (fold_left (post_event link carry i ps) es s) = sh s.
Proof.
  revert s. induction es as [|e es IH]; intros s; cbn [fold_left]; auto. destruct (IH (post_event link carry i ps s e)) as [-> ->].
  assert (X : forall f ps (s : sys), sd (fold_left (fun s p => post_query link i f p s) ps s) = sd s /\ sh (fold_left (fun s p => post_query link i f p s) ps s) = sh s).
  { clear. induction ps as [|p ps IH]; intros s; cbn; auto. destruct (IH (post_query link i f p s)) as [-> ->]. unfold post_query. destruct (link i p); auto. }
  unfold post_event. destruct e; auto. destruct accepted; auto. unfold post. destruct (link i p); auto. destruct (pass carry i j k); auto.
Qed.
Lemma post_hwire i ps es s h : exists more, hwire (fold_left (post_event link carry i ps) es s) h = hwire s h ++ more /\
  Forall (fun k => exists p, hublink h = Some (i, p) /\ from_dock p es k) more.
Proof.
  revert s. induction es as [|e es IH]; intros s; cbn [fold_left]; [exists []; rewrite app_nil_r; auto|].
  assert (X : exists more, hwire (post_event link carry i ps s e) h = hwire s h ++ more /\
            Forall (fun k => exists p, hublink h = Some (i, p) /\ from_dock p [e] k) more).
  { unfold post_event. destruct e; try (exists []; rewrite app_nil_r; now auto).
    - destruct accepted; [|exists []; rewrite app_nil_r; now auto]. unfold post. destruct (link i p) as [|j p'|h'] eqn:El.
      + exists []; rewrite app_nil_r; auto.
      + exists []; rewrite app_nil_r; destruct (pass carry i j k); auto.
      + cbn. destruct (Nat.eq_dec h h') as [->|N].
        * rewrite updp_same. eexists. split; [reflexivity|]. constructor; [|constructor]. exists p. split; [now apply W|].
          destruct k; cbn; auto.
        * rewrite updp_other by auto. exists []. rewrite app_nil_r. auto.
    - clear IH. revert s. induction ps as [|p ps IH]; intros s; cbn [fold_left]; [exists []; rewrite app_nil_r; now auto|].
      destruct (IH (post_query link i f p s)) as (m & -> & F). unfold post_query. destruct (link i p) as [| |h'] eqn:El; eauto.
      cbn. destruct (Nat.eq_dec h h') as [->|N]; [|rewrite updp_other by auto; eauto].
      rewrite updp_same, <- app_assoc. eexists. split; [reflexivity|]. constructor; auto. exists p. split; [now apply W|]. cbn. eauto. }
  destruct X as (m1 & E1 & F1). destruct (IH (post_event link carry i ps s e)) as (m2 & -> & F2). rewrite E1, <- app_assoc.
  eexists. split; [reflexivity|]. apply Forall_app. split.
  - eapply Forall_impl; [|exact F1]. intros k (p & Hp & Hk). exists p. split; auto. change (e :: es) with ([e] ++ es). now apply from_mono.
  - eapply Forall_impl; [|exact F2]. intros k (p & Hp & Hk). exists p. split; auto.
    destruct k; cbn in *; auto. destruct Hk as [[k K]|K]; eauto.
Qed.

Definition hub_into (es : list HubModel.event) (a q : nat) : list (packet V) := match link a q with ToHub h => hub_out h es | _ => [] end.
Lemma hub_posts es (s : sys) : forall a q, wire (fold_left (post_hub_event hublink hostport) es s) a q = wire s a q ++ hub_into es a q.
Proof.
  revert s. induction es as [|e es IH]; intros s a q; cbn [fold_left].
  - unfold hub_into. destruct (link a q); cbn; now rewrite app_nil_r.
  - rewrite IH. assert (P : forall h k, wire (post_hub hublink h k s) a q = wire s a q ++ match link a q with ToHub h' => if h =? h' then [k] else [] | _ => [] end).
    { clear IH. intros h k. unfold post_hub. destruct (hublink h) as [[i p]|] eqn:El.
      - apply W in El. cbn. destruct (Nat.eq_dec a i) as [->|Na]; [destruct (Nat.eq_dec q p) as [->|Nq]|].
        + rewrite put_same, El, Nat.eqb_refl. reflexivity.
        + rewrite put_other by auto. destruct (link i q) as [| |h'] eqn:Ea; try now rewrite app_nil_r.
          destruct (Nat.eqb_spec h h') as [->|]; [|now rewrite app_nil_r]. apply W in Ea. apply W in El. congruence.
        + rewrite put_other by auto. destruct (link a q) as [| |h'] eqn:Ea; try now rewrite app_nil_r.
          destruct (Nat.eqb_spec h h') as [->|]; [|now rewrite app_nil_r]. apply W in Ea. apply W in El. congruence.
      - destruct (link a q) as [| |h'] eqn:Ea; try now rewrite app_nil_r.
        destruct (Nat.eqb_spec h h') as [->|]; [|now rewrite app_nil_r]. apply W in Ea. congruence. }
    unfold hub_into. destruct e; cbn [post_hub_event]; rewrite ?P; destruct (link a q); cbn; rewrite ?app_nil_r, <- ?app_assoc; auto.
Qed.
Lemma hub_posts_rest es (s : sys) : sd (fold_left (post_hub_event hublink hostport) es s) = sd s /\ sh (fold_left (post_hub_event hublink hostport) es s) = sh s /\
  hwire (fold_left (post_hub_event hublink hostport) es s) = hwire s.
Proof.
  revert s. induction es as [|e es IH]; intros s; cbn [fold_left]; auto. destruct (IH (post_hub_event hublink hostport s e)) as (-> & -> & ->).
  unfold post_hub_event, post_hub. destruct e; auto; destruct (hublink p) as [[]|]; auto.
Qed.

(* ---- the invariant ---- *)
Lemma dstep_got (d : dock V) l d' : dstep d l = Some d' -> exists es, hist d' = hist d ++ es /\
  forall q, got_on q es = match l with LRecv p k => if p =? q then [k] else [] | _ => [] end.
Proof.
  intros H. apply dstep_tr in H as [_ T]. inversion T; subst; proj; try rewrite <- app_assoc;
    (eexists; split; [try reflexivity; symmetry; apply app_nil_r|]); intros q'; cbn; try reflexivity; now rewrite ?app_nil_r.
Qed.
Lemma hstep_grows s l s' : HubModel.hstep black raddr s l = Some s' -> exists es, HubModel.hist s' = HubModel.hist s ++ es /\
  forall h k, In (HubModel.ERecv h k) es -> l = HubModel.LRecv h k.
Proof.
  unfold HubModel.hstep. destruct (HubModel.halted s); [discriminate|].
  assert (Z : exists es, HubModel.hist s = HubModel.hist s ++ es /\ forall h k, In (HubModel.ERecv h k) es -> l = HubModel.LRecv h k).
  { exists []. rewrite app_nil_r. split; auto. intros ? ? []. }
  destruct l.
  - destruct (HubModel.handlers s p); try discriminate. injection 1 as <-. exists [HubModel.ERecv p k]. split; [destruct k; reflexivity|].
    intros h k' [E|[]]. congruence.
  - destruct (HubModel.handlers s p) as [|t sl|t host port [|f todo]|t [|f todo]|t f i todo|t f i todo]; try discriminate.
    + destruct (HubModel.allocate black _); injection 1 as <-; try exact Z. eexists. split; [reflexivity|]. intros ? ? [E|[]]; discriminate.
    + injection 1 as <-. eexists. split; [reflexivity|]. intros ? ? [E|[]]; discriminate.
    + injection 1 as <-. eexists. split; [reflexivity|]. intros ? ? [E|[]]; discriminate.
    + injection 1 as <-. exact Z.
    + injection 1 as <-. exact Z.
    + destruct (nth_error _ i) as [st|]; [|discriminate]. destruct (HubModel.st_peer st =? p); injection 1 as <-; [|exact Z].
      eexists. split; [reflexivity|]. intros ? ? [E|[]]; discriminate.
    + injection 1 as <-. exact Z.
  - destruct (HubModel.queries s t); try discriminate.
    + injection 1 as <-. exists [HubModel.ERound t]. split; [cbn; destruct (HubModel.docks s f); reflexivity|]. intros ? ? [E|[]]; discriminate.
    + destruct (nth_error _ i) as [st|]; [|discriminate]. destruct (HubModel.st_ready st); injection 1 as <-; [|destruct i; exact Z].
      eexists. split; [reflexivity|]. intros ? ? [E|[]]; discriminate.
  - injection 1 as <-. eexists. split; [reflexivity|]. intros ? ? [E|[]]; discriminate.
Qed.

Definition flow (s : sys) a q := got_on q (hist (sd s a)) ++ wire s a q.
(* what the other end of (a, q) has sent *)
Definition source (s : sys) a q : list (packet V) :=
  match link a q with
  | ToDock j p => omap (pass carry j a) (sent_on p (hist (sd s j)))
  | ToHub h => hub_out h (HubModel.hist (sh s))
  | Nowhere => []
  end.
Record ok (s : sys) : Prop := {
  docks_run : forall i, exists ls, exec dstep (new_dock (carried i)) ls = Some (sd s i);
  hub_runs : exists ls, exec (HubModel.hstep black raddr) HubModel.new_hub ls = Some (sh s);
  flows : forall a q, subseq (flow s a q) (source s a q);
  hub_in : forall h k, In (HubModel.ERecv h k) (HubModel.hist (sh s)) \/ In k (hwire s h) ->
    exists i p, hublink h = Some (i, p) /\ from_dock p (hist (sd s i)) k }.

Lemma exec_snoc {S L} (st : S -> L -> option S) a ls b l c : exec st a ls = Some b -> st b l = Some c -> exec st a (ls ++ [l]) = Some c.
Proof. intros H1 H2. rewrite exec_app, H1. cbn. now rewrite H2. Qed.

(* What a step adds to a flow it adds to its source.  [s1]: s, or s with a packet taken off
   the wire of dock i. *)
Lemma dock_flow s s1 i l ps s' : sd s1 = sd s -> sh s1 = sh s -> dock_step link carry i l ps s1 = Some s' ->
  (forall a q, wire s a q = (if a =? i then match l with LRecv p k => if p =? q then [k] else [] | _ => [] end else []) ++ wire s1 a q) ->
  forall a q, exists more, flow s' a q = flow s a q ++ more /\ source s' a q = source s a q ++ more.
Proof.
  intros Ed Eh H Hw a q. unfold dock_step in H. rewrite Ed in H. destruct (dstep (sd s i) l) as [d|] eqn:Es; [|discriminate].
  injection H as <-. destruct (dstep_got _ _ _ Es) as (es & He & G). rewrite He, new_app.
  destruct (post_docks i ps es (set_dock i d s1)) as [Pd Ph].
  exists (into i es a q). split.
  - unfold flow. rewrite Pd, posts. cbn [sd set_dock wire]. rewrite Ed.
    assert (F : got_on q (hist (updp (sd s) i d a)) ++ wire s1 a q = flow s a q).
    { unfold flow. rewrite Hw. unfold updp. destruct (a =? i) eqn:E; [|reflexivity]. apply Nat.eqb_eq in E. subst a.
      rewrite He, got_app, G, <- app_assoc. reflexivity. }
    rewrite app_assoc, F. reflexivity.
  - unfold source, into. rewrite Pd, Ph. cbn [sd sh set_dock]. rewrite Ed, Eh. destruct (link a q) as [|j p|h]; auto; [|symmetry; apply app_nil_r].
    unfold updp. destruct (Nat.eqb_spec j i) as [->|N]; [|symmetry; apply app_nil_r].
    rewrite He, sent_app, omap_app. reflexivity.
Qed.
Lemma hub_flow s s1 l s' : sd s1 = sd s -> sh s1 = sh s -> wire s1 = wire s ->
  hub_step hublink black raddr hostport l s1 = Some s' ->
  forall a q, exists more, flow s' a q = flow s a q ++ more /\ source s' a q = source s a q ++ more.
Proof.
  intros Ed Eh Ew H a q. unfold hub_step in H. rewrite Eh in H. destruct (HubModel.hstep black raddr (sh s) l) as [hb|] eqn:Es; [|discriminate].
  injection H as <-. destruct (hstep_grows _ _ _ Es) as (es & He & G). rewrite He, new_app.
  destruct (hub_posts_rest es (set_hub hb s1)) as (Pd & Ph & Pw). exists (hub_into es a q). split.
  - unfold flow. rewrite Pd, hub_posts. cbn [sd set_hub wire]. rewrite Ed, Ew, app_assoc. reflexivity.
  - unfold source, hub_into. rewrite Pd, Ph. cbn [sd sh set_hub]. rewrite Ed. destruct (link a q) as [|j p|h]; auto; [symmetry; apply app_nil_r|].
    rewrite He. unfold hub_out. now rewrite flat_map_app.
Qed.
Lemma more_flows s s' : (forall a q, subseq (flow s a q) (source s a q)) ->
  (forall a q, exists more, flow s' a q = flow s a q ++ more /\ source s' a q = source s a q ++ more) -> forall a q, subseq (flow s' a q) (source s' a q).
Proof. intros F M a q. destruct (M a q) as (more & -> & ->). apply sq_app; [apply F|apply sq_refl]. Qed.

Lemma dock_ok s s1 i l ps s' : ok s -> sd s1 = sd s -> sh s1 = sh s -> hwire s1 = hwire s ->
  dock_step link carry i l ps s1 = Some s' ->
  (forall a q, wire s a q = (if a =? i then match l with LRecv p k => if p =? q then [k] else [] | _ => [] end else []) ++ wire s1 a q) -> ok s'.
Proof.
  intros O Ed Eh Ew H Hw. assert (M := dock_flow _ _ _ _ _ _ Ed Eh H Hw). unfold dock_step in H. rewrite Ed in H. destruct (dstep (sd s i) l) as [d|] eqn:Es; [|discriminate].
  destruct (dstep_got _ _ _ Es) as (es & He & G). rewrite He, new_app in H.
  destruct (post_docks i ps es (set_dock i d s1)) as [Pd Ph]. injection H as <-. split.
  - intros a. rewrite Pd. cbn. rewrite Ed. unfold updp. destruct (Nat.eqb_spec a i) as [->|]; [|apply docks_run; auto].
    destruct (docks_run _ O i) as [ls L]. exists (ls ++ [l]). eapply exec_snoc; eauto.
  - rewrite Ph. cbn. rewrite Eh. apply hub_runs; auto.
  - exact (more_flows _ _ (flows _ O) M).
  - intros h k K. rewrite Ph, Pd in *. cbn [sd sh set_dock] in *. rewrite Eh, Ed in *.
    destruct (post_hwire i ps es (set_dock i d s1) h) as (more & E & F). rewrite E in K. cbn [hwire set_dock] in K. rewrite Ew in K.
    assert (X : (exists i p, hublink h = Some (i, p) /\ from_dock p (hist (sd s i)) k) \/ In k more).
    { destruct K as [K|K]; [left; eapply hub_in; eauto|]. apply in_app_or in K as [K|K]; auto. left. eapply hub_in; eauto. }
    destruct X as [(i' & p & Hl & Hk)|X].
    + exists i', p. split; auto. unfold updp. destruct (Nat.eqb_spec i' i) as [->|]; auto. rewrite He. now apply from_mono.
    + rewrite Forall_forall in F. destruct (F _ X) as (p & Hl & Hk). exists i, p. split; auto. rewrite updp_same, He.
      clear - Hk. destruct k; cbn in *; auto; try (apply in_or_app; now right). destruct Hk as [[k K]|K]; [left; exists k|right]; apply in_or_app; auto.
Qed.

Lemma hub_ok s s1 l s' : ok s -> sd s1 = sd s -> sh s1 = sh s -> wire s1 = wire s ->
  hub_step hublink black raddr hostport l s1 = Some s' ->
  (forall h k, In k (hwire s1 h) \/ l = HubModel.LRecv h k -> In k (hwire s h)) -> ok s'.
Proof.
  intros O Ed Eh Ew H Hw. assert (M := hub_flow _ _ _ _ Ed Eh Ew H). unfold hub_step in H. rewrite Eh in H. destruct (HubModel.hstep black raddr (sh s) l) as [hb|] eqn:Es; [|discriminate].
  destruct (hstep_grows _ _ _ Es) as (es & He & G). rewrite He, new_app in H.
  destruct (hub_posts_rest es (set_hub hb s1)) as (Pd & Ph & Pw). injection H as <-. split.
  - intros a. rewrite Pd. cbn. rewrite Ed. apply docks_run; auto.
  - rewrite Ph. cbn. destruct (hub_runs _ O) as [ls L]. exists (ls ++ [l]). eapply exec_snoc; eauto.
  - exact (more_flows _ _ (flows _ O) M).
  - intros h k K. rewrite Ph, Pd, Pw in *. cbn [sd sh hwire set_hub] in *. rewrite Ed. eapply hub_in; eauto.
    destruct K as [K|K]; [|right; apply Hw; auto]. rewrite He in K. apply in_app_or in K as [K|K]; auto.
Qed.

Lemma ok_step s l s' : ok s -> step s l = Some s' -> ok s'.
Proof.
  intros O H. destruct l; cbn [sstep] in H.
  - assert (X : dock_step link carry i l ps s = Some s' /\ match l with LRecv _ _ => False | _ => True end) by (destruct l; try discriminate; auto).
    destruct X as [X N]. eapply dock_ok with (s1 := s); eauto. intros a q. destruct (a =? i); auto. destruct l; auto; destruct N.
  - destruct (wire s i p) as [|k r] eqn:Ew; [discriminate|]. eapply dock_ok with (s1 := set_wire i p r s); eauto.
    intros a q. cbn. destruct (Nat.eqb_spec a i) as [->|N]; [destruct (Nat.eqb_spec p q) as [<-|N]|].
    + now rewrite put_same.
    + rewrite put_other; auto.
    + rewrite put_other; auto.
  - injection H as <-. destruct O as [O1 O2 O3 O4]. split; auto. intros a q. eapply sq_trans; [|apply O3].
    unfold flow. cbn. apply sq_app; [apply sq_refl|]. destruct (Nat.eq_dec a i) as [->|N]; [destruct (Nat.eq_dec q p) as [->|N]|].
    + rewrite put_same. apply sq_drop.
    + rewrite put_other by auto. apply sq_refl.
    + rewrite put_other by auto. apply sq_refl.
  - assert (X : hub_step hublink black raddr hostport l s = Some s' /\ match l with HubModel.LRecv _ _ => False | _ => True end) by (destruct l; try discriminate; auto).
    destruct X as [X N]. eapply hub_ok with (s1 := s); eauto. intros h k [K|K]; auto. subst. destruct N.
  - destruct (hwire s h) as [|k r] eqn:Ew; [discriminate|]. eapply hub_ok with (s1 := set_hwire h r s); eauto.
    intros h' k' [K|K]; cbn in *.
    + unfold updp in K. destruct (Nat.eqb_spec h' h) as [->|]; auto. rewrite Ew. now right.
    + injection K as <- <-. rewrite Ew. now left.
  - injection H as <-. destruct O as [O1 O2 O3 O4]. split; auto. intros h' k [K|K]; auto. apply O4. right. cbn in K.
    unfold updp in K. destruct (Nat.eqb_spec h' h) as [->|]; auto. eapply sq_in; [apply sq_drop|eauto].
Qed.

Lemma ok_init : ok (sinit carried).
Proof.
  split; cbn.
  - intros i. exists []. reflexivity.
  - exists []. reflexivity.
  - intros a q. unfold flow, source. cbn. apply sq_empty.
  - intros h k [[]|[]].
Qed.
Lemma reach_ok ls s : exec step (sinit carried) ls = Some s -> ok s.
Proof. intros H. eapply (exec_inv step ok); eauto using ok_step, ok_init. Qed.

Lemma lossless_flow ls s : exec step (sinit carried) ls = Some s -> lossless ls -> forall a q, flow s a q = source s a q.
Proof.
  revert s. induction ls as [|l ls IH] using rev_ind; intros s H Ll.
  - injection H as <-. intros a q. unfold flow, source. cbn. now destruct (link a q).
  - rewrite exec_app in H. destruct (exec step (sinit carried) ls) as [s0|] eqn:E; [|discriminate]. cbn in H.
    destruct (step s0 l) as [s1|] eqn:Es; [|discriminate]. injection H as <-.
    assert (F : forall a q, flow s0 a q = source s0 a q) by (apply (IH _ eq_refl); intros x Hx; apply Ll, in_or_app; now left).
    assert (Ln : match l with SLose _ _ _ | SHubLose _ _ => False | _ => True end) by (apply Ll, in_or_app; right; now left).
    assert (M : forall a q, exists more, flow s1 a q = flow s0 a q ++ more /\ source s1 a q = source s0 a q ++ more).
    2: { intros a q. destruct (M a q) as (more & -> & ->). now rewrite F. }
    destruct l; cbn [sstep] in Es; try destruct Ln.
    + assert (X : dock_step link carry i l ps s0 = Some s1 /\ match l with LRecv _ _ => False | _ => True end) by (destruct l; try discriminate; auto).
      destruct X as [X N]. eapply dock_flow with (s1 := s0); eauto. intros a q. destruct (a =? i); auto. destruct l; auto; destruct N.
    + destruct (wire s0 i p) as [|k r] eqn:Ew; [discriminate|]. eapply dock_flow with (s1 := set_wire i p r s0); eauto.
      intros a q. cbn. destruct (Nat.eqb_spec a i) as [->|N]; [destruct (Nat.eqb_spec p q) as [<-|N]|].
      * now rewrite put_same.
      * rewrite put_other; auto.
      * rewrite put_other; auto.
    + assert (X : hub_step hublink black raddr hostport l s0 = Some s1) by (destruct l; try discriminate; auto).
      eapply hub_flow with (s1 := s0); eauto.
    + destruct (hwire s0 h) as [|k r] eqn:Ew; [discriminate|]. eapply hub_flow with (s1 := set_hwire h r s0); eauto.
Qed.
Lemma deliverable (s : sys) i p k q : wire s i p = k :: q -> state (sd s i) = Alive -> handlers (sd s i) p = HIdle ->
  exists s', step s (SDeliver i p) = Some s' /\ got_on p (hist (sd s' i)) = got_on p (hist (sd s i)) ++ [k].
Proof.
  intros Ew A H. cbn [sstep]. rewrite Ew. unfold dock_step. cbn [set_wire sd].
  destruct (dstep (sd s i) (LRecv p k)) as [d|] eqn:E.
  - eexists. split; [reflexivity|]. destruct (dstep_got _ _ _ E) as (es & He & G).
    destruct (post_docks i [] (new_events (hist (sd s i)) (hist d)) (set_dock i d (set_wire i p q s))) as [-> _]. cbn. rewrite updp_same, He, got_app, G, Nat.eqb_refl. reflexivity.
  - unfold dstep in E. rewrite A, H in E. discriminate.
Qed.
End Sys.
