(* Lemmas for the hub: the answers to queries (C32-C34). *)
From Verif Require Import Lts GoVal Tables HubModel HubSpec HubProof HubProof2.
From Coq Require Import Arith Bool List ZArith.
Import ListNotations.
Open Scope nat_scope.

Section Proof.
Variables (black : list Z) (raddr : nat -> name).
Notation hstep := (hstep black raddr).

(* ready flags are exactly the marks made *)
Record marks s : Prop := {
  m_ready : forall f k, In (EMark f k) (hist s) -> exists st, nth_error (docks s f) k = Some st /\ st_ready st = true;
  m_mark : forall f k st, nth_error (docks s f) k = Some st -> st_ready st = true -> In (EMark f k) (hist s) }.
Lemma marks_frame s s' e : hist s' = hist s ++ e -> (forall f k, ~ In (EMark f k) e) -> docks s' = docks s -> marks s -> marks s'.
Proof.
  intros H N D [M1 M2]. constructor; rewrite H, D.
  - intros f k. rewrite in_app_iff. intros [X|X]; [auto|destruct (N _ _ X)].
  - intros f k st X Y. rewrite in_app_iff. left. eauto.
Qed.
Ltac silent s := apply (marks_frame s _ []); proj; rewrite ?app_nil_r; auto.
Ltac noisy s e := apply (marks_frame s _ [e]); proj; auto; intros ? ? [X|[]]; discriminate X.
Lemma marks_step s l s' : marks s -> hstep s l = Some s' -> marks s'.
Proof.
  intros M H. destruct l as [p k|p|t|p].
  - steps H; match goal with |- context [ERecv ?a ?b] => noisy s (ERecv a b) end.
  - unfold HubModel.hstep in H. destruct (halted s); [discriminate|].
    destruct (handlers s p) as [|t slots|t host port [|f todo]|t [|f todo]|t f i todo|t f i todo] eqn:Eh; try discriminate.
    + destruct (allocate black (assigned s (pickIP (raddr p)))); injection H as <-; auto; [|silent s].
      noisy s (EAlloc t p (pickIP (raddr p)) p0).
    + injection H as <-. noisy s (EReply p port).
    + injection H as <-. destruct M as [M1 M2]. constructor; proj.
      * intros g k. rewrite in_app_iff. intros [X|[X|[]]]; [|discriminate X]. destruct (M1 _ _ X) as (st & A & B). exists st. split; [|exact B].
        destruct (updn_case (docks s) f (docks s f ++ [mkStub host port p false t 0]) g) as [[-> ->]|[N ->]]; [apply nth_app; exact A|exact A].
      * intros g k st A B. rewrite in_app_iff. left.
        destruct (updn_case (docks s) f (docks s f ++ [mkStub host port p false t 0]) g) as [[-> E]|[N E]]; rewrite E in A; [|eauto].
        apply nth_snoc in A. destruct A as [A|[_ ->]]; [eauto|discriminate B].
    + injection H as <-. silent s.
    + injection H as <-. silent s.
    + destruct (nth_error (docks s f) i) as [st|] eqn:En; [|discriminate]. destruct (Nat.eqb_spec (st_peer st) p) as [Ep|Ep]; injection H as <-; [|silent s].
      set (st1 := mkStub (st_host st) (st_port st) (st_peer st) true (st_reg st) t). destruct M as [M1 M2].
      pose proof (nth_lt _ _ _ En) as Hi.
      constructor; proj.
      * intros g k. rewrite in_app_iff. intros X.
        destruct (updn_case (docks s) f (set_nth (docks s f) i st1) g) as [[-> ->]|[N ->]].
        -- destruct (Nat.eq_dec i k) as [<-|Nk]; [exists st1; split; [apply set_nth_same; exact Hi|reflexivity]|].
           rewrite set_nth_other by exact Nk. destruct X as [X|[X|[]]]; [auto|congruence].
        -- destruct X as [X|[X|[]]]; [auto|injection X as -> _; congruence].
      * intros g k x A B. rewrite in_app_iff.
        destruct (updn_case (docks s) f (set_nth (docks s f) i st1) g) as [[-> E]|[N E]]; rewrite E in A; [|left; eauto].
        destruct (Nat.eq_dec i k) as [<-|Nk]; [right; left; reflexivity|]. rewrite set_nth_other in A by exact Nk. left. eauto.
    + injection H as <-. silent s.
  - unfold HubModel.hstep in H. destruct (halted s); [discriminate|]. destruct (queries s t) as [|p f|p f i|]; try discriminate.
    + injection H as <-. destruct (docks s f); noisy s (ERound t).
    + destruct (nth_error (docks s f) i) as [st|]; [|discriminate]. destruct (st_ready st); injection H as <-; [|destruct i; silent s].
      noisy s (EAnswer t p f i (st_host st) (st_port st)).
  - steps H. noisy s (EClosed p).
Qed.
Lemma marks_exec ls s : exec hstep new_hub ls = Some s -> marks s.
Proof. apply exec_inv; [apply marks_step|]. constructor; cbn; intros; [tauto|]. destruct k; discriminate. Qed.

(* registrations grow *)
Definition is_q (e : event) : bool := match e with ERound _ | EAnswer _ _ _ _ _ _ => true | _ => false end.
Definition round_ok (h : list event) (f : name) (t i : nat) : Prop :=
  exists a b, h = a ++ ERound t :: b /\ ~ In (ERound t) b /\ forall k, In (EMark f k) a -> k <= i.
Definition answer_ok (h : list event) (j t p : nat) (f : name) (k : nat) (host : name) (port : Z) : Prop :=
  t < j /\ nth_error h t = Some (ERecv p (PQuery f)) /\
  exists d r m sl sl', nth_error (registrations f (firstn j h)) k = Some (d, host, port) /\ In (EMark f k) (firstn j h) /\
    r < m < j /\ nth_error h r = Some (ERecv d (PRegister sl)) /\ In f sl /\ nth_error h m = Some (ERecv d (PReady sl')) /\ In f sl' /\
    host = pickIP (raddr d) /\ In (EAlloc r d host port) h.
Record qinv s : Prop := {
  q_bound : forall t, length (hist s) <= t -> queries s t = QNone;
  q_pc : forall t, match queries s t with
                   | QFetch p f => nth_error (hist s) t = Some (ERecv p (PQuery f))
                   | QLook p f i => nth_error (hist s) t = Some (ERecv p (PQuery f)) /\ i < length (docks s f) /\ round_ok (hist s) f t i
                   | _ => True end;
  q_open : forall t, queries s t <> QDone -> answers t (hist s) = [];
  q_once : forall t, length (answers t (hist s)) <= 1;
  q_answer : forall j t p f k host port, nth_error (hist s) j = Some (EAnswer t p f k host port) -> answer_ok (hist s) j t p f k host port;
  q_new : forall a b c t p f k host port, hist s = a ++ ERound t :: b ++ EAnswer t p f k host port :: c -> ~ In (ERound t) b ->
          forall k', In (EMark f k') a -> k' <= k }.

Lemma firstn_app_lt {A} (h e : list A) j : j <= length h -> firstn j (h ++ e) = firstn j h.
Proof. intros H. rewrite firstn_app. replace (j - length h) with 0 by lia. rewrite app_nil_r. reflexivity. Qed.
Lemma answer_ok_mono h e j t p f k host port : j <= length h -> answer_ok h j t p f k host port -> answer_ok (h ++ e) j t p f k host port.
Proof.
  intros Hj (A & B & d & r & m & sl & sl' & C1 & C2 & C3 & C4 & C5 & C6 & C7 & C8 & C9). split; [exact A|]. split; [apply nth_app; exact B|].
  exists d, r, m, sl, sl'. rewrite firstn_app_lt by exact Hj. rewrite in_app_iff. repeat split; auto using nth_app; try lia.
Qed.
Lemma snoc_split {A} (h : list A) x a y c : h ++ [x] = a ++ y :: c -> (c = [] /\ h = a /\ x = y) \/ exists c', c = c' ++ [x] /\ h = a ++ y :: c'.
Proof.
  destruct c as [|z c'] using rev_ind.
  - intros E. apply app_inj_tail in E. left. intuition.
  - intros E. right. exists c'. rewrite app_comm_cons, app_assoc in E. apply app_inj_tail in E. destruct E as [E ->]. auto.
Qed.
Lemma round_unique t (a b a' b' : list event) : a ++ ERound t :: b = a' ++ ERound t :: b' -> ~ In (ERound t) b -> ~ In (ERound t) b' -> a = a'.
Proof.
  revert a'. induction a as [|x a IH]; intros [|y a'] E N N'; cbn in E; auto.
  - injection E as _ E. exfalso. apply N. rewrite E. apply in_app_iff. right. left. reflexivity.
  - injection E as _ E. exfalso. apply N'. rewrite <- E. apply in_app_iff. right. left. reflexivity.
  - injection E as -> E. f_equal. eauto.
Qed.
Lemma round_ok_mono h e f t i : (forall x, In x e -> x <> ERound t) -> round_ok h f t i -> round_ok (h ++ e) f t i.
Proof.
  intros N (a & b & -> & B & C). exists a, (b ++ e). split; [rewrite <- app_assoc; reflexivity|]. split; [|exact C].
  rewrite in_app_iff. intros [X|X]; [auto|]. exact (N _ X eq_refl).
Qed.
(* steps that touch no query *)
Lemma qinv_frame s s' e : hist s' = hist s ++ e -> length e <= 1 -> (forall x, In x e -> is_q x = false) -> queries s' = queries s ->
  (forall f, length (docks s f) <= length (docks s' f)) -> qinv s -> qinv s'.
Proof.
  intros H Le Nq Q D [Q1 Q2 Q3 Q4 Q5 Q6].
  assert (A0 : forall t, answers t e = []).
  { intros t. destruct e as [|x [|]]; [reflexivity| |cbn in Le; lia]. specialize (Nq x (or_introl eq_refl)). destruct x; try discriminate; reflexivity. }
  constructor; rewrite ?H, ?Q.
  - intros t Ht. rewrite app_length in Ht. apply Q1. lia.
  - intros t. specialize (Q2 t). destruct (queries s t); auto; [apply nth_app; exact Q2|]. destruct Q2 as (B1 & B2 & B3).
    split; [apply nth_app; exact B1|]. split; [specialize (D f); lia|]. apply round_ok_mono; [|exact B3]. intros x Hx ->. specialize (Nq _ Hx). discriminate.
  - intros t Ht. rewrite answers_app, A0, app_nil_r. auto.
  - intros t. rewrite answers_app, A0, app_nil_r. auto.
  - intros j t p f k host port Hj. destruct (Nat.lt_ge_cases j (length (hist s))) as [L|L].
    + rewrite nth_error_app1 in Hj by exact L. apply answer_ok_mono; [lia|]. auto.
    + rewrite nth_error_app2 in Hj by exact L. apply nth_error_In in Hj. specialize (Nq _ Hj). discriminate.
  - intros a b c t p f k host port E N k' Hk. destruct e as [|x [|]]; [rewrite app_nil_r in E; eauto| |cbn in Le; lia].
    replace (a ++ ERound t :: b ++ EAnswer t p f k host port :: c) with ((a ++ ERound t :: b) ++ EAnswer t p f k host port :: c) in E by (rewrite <- app_assoc; reflexivity).
    apply snoc_split in E. destruct E as [(_ & _ & ->)|(c' & -> & E)].
    + specialize (Nq _ (or_introl eq_refl)). discriminate.
    + rewrite <- app_assoc in E. eauto.
Qed.
Ltac qf s e := apply (qinv_frame s _ e); proj; rewrite ?app_nil_r; auto;
  try (cbn; lia); try (let x := fresh in intros ? x; cbn in x; intuition (subst; reflexivity)).
Lemma qinv_step s l s' : inv raddr s -> marks s -> qinv s -> hstep s l = Some s' -> qinv s'.
Proof.
  intros I M Q H. destruct l as [p k|p|t|p].
  - unfold HubModel.hstep in H. destruct (halted s); [discriminate|]. destruct (handlers s p); try discriminate. cbv zeta in H.
    destruct k; injection H as <-; [qf s [ERecv p (PRegister slots)]|qf s [ERecv p (PReady slots)]| |qf s [ERecv p POther]].
    destruct Q as [Q1 Q2 Q3 Q4 Q5 Q6]. set (t0 := length (hist s)).
    assert (A0 : answers t0 (hist s) = []) by (apply Q3; rewrite Q1; [discriminate|unfold t0; lia]).
    constructor; proj.
    + intros t Ht. rewrite app_length in Ht. cbn in Ht. rewrite updp_other by (unfold t0; lia). apply Q1. lia.
    + intros t. unfold updp. destruct (Nat.eqb_spec t t0) as [->|].
      * rewrite nth_error_app2, Nat.sub_diag; [reflexivity|unfold t0; lia].
      * specialize (Q2 t). destruct (queries s t); auto; [apply nth_app; exact Q2|]. destruct Q2 as (B1 & B2 & B3).
        split; [apply nth_app; exact B1|]. split; [exact B2|]. apply round_ok_mono; [|exact B3]. intros x [<-|[]]. discriminate.
    + intros t Ht. rewrite answers_app. cbn. rewrite app_nil_r. unfold updp in Ht. destruct (Nat.eqb_spec t t0) as [E|]; [rewrite E|]; auto.
    + intros t. rewrite answers_app. cbn. rewrite app_nil_r. auto.
    + intros j t p' f k host port Hj. apply nth_snoc in Hj. destruct Hj as [Hj|[_ X]]; [|discriminate X].
      pose proof (nth_lt _ _ _ Hj). apply answer_ok_mono; [lia|]. auto.
    + intros a b c t p' f k host port E N k' Hk.
      replace (a ++ ERound t :: b ++ EAnswer t p' f k host port :: c) with ((a ++ ERound t :: b) ++ EAnswer t p' f k host port :: c) in E by (rewrite <- app_assoc; reflexivity).
      apply snoc_split in E. destruct E as [(_ & _ & X)|(c' & -> & E)]; [discriminate X|]. rewrite <- app_assoc in E. eauto.
  - unfold HubModel.hstep in H. destruct (halted s); [discriminate|].
    destruct (handlers s p) as [|t slots|t host port [|f todo]|t [|f todo]|t f i todo|t f i todo] eqn:Eh; try discriminate.
    + destruct (allocate black (assigned s (pickIP (raddr p)))); injection H as <-; auto; [|qf s (@nil event)].
      qf s [EAlloc t p (pickIP (raddr p)) p0].
    + injection H as <-. qf s [EReply p port].
    + injection H as <-. qf s [EPush f p host port]. intros g.
      destruct (updn_case (docks s) f (docks s f ++ [mkStub host port p false t 0]) g) as [[-> ->]|[N ->]]; [rewrite app_length; lia|lia].
    + injection H as <-. qf s (@nil event).
    + injection H as <-. qf s (@nil event).
    + destruct (nth_error (docks s f) i) as [st|] eqn:En; [|discriminate]. destruct (Nat.eqb_spec (st_peer st) p) as [Ep|Ep]; injection H as <-; [|qf s (@nil event)].
      qf s [EMark f i]. intros g.
      match goal with |- context [updn ?d ?f ?v g] => destruct (updn_case d f v g) as [[-> ->]|[N ->]] end; [rewrite set_nth_length; lia|lia].
    + injection H as <-. qf s (@nil event).
  - unfold HubModel.hstep in H. destruct (halted s); [discriminate|]. pose proof Q as [Q1 Q2 Q3 Q4 Q5 Q6].
    pose proof (Q2 t) as Qt. destruct (queries s t) as [|p f|p f i|] eqn:Eq; try discriminate.
    + injection H as <-.
      assert (Hd : docks (match docks s f with [] => s | l => with_query t (QLook p f (pred (length l))) s end) = docks s) by (destruct (docks s f); reflexivity).
      assert (Hh : hist (match docks s f with [] => s | l => with_query t (QLook p f (pred (length l))) s end) = hist s) by (destruct (docks s f); reflexivity).
      assert (Hq : forall u, queries (match docks s f with [] => s | l => with_query t (QLook p f (pred (length l))) s end) u =
                    if u =? t then match docks s f with [] => QFetch p f | l => QLook p f (pred (length l)) end else queries s u).
      { intros u. destruct (docks s f); cbn; unfold updp; destruct (Nat.eqb_spec u t) as [->|]; auto. }
      change (qinv (add (ERound t) (match docks s f with [] => s | l => with_query t (QLook p f (pred (length l))) s end))).
      remember (match docks s f with [] => s | l => with_query t (QLook p f (pred (length l))) s end) as s1 eqn:Es1. clear Es1.
      constructor; proj; rewrite ?Hh, ?Hd.
      * intros u Hu. rewrite Hq. rewrite app_length in Hu. cbn in Hu. destruct (Nat.eqb_spec u t) as [->|]; [|apply Q1; lia].
        apply nth_lt in Qt. exfalso. lia.
      * intros u. rewrite Hq. destruct (Nat.eqb_spec u t) as [->|Nu].
        -- destruct (docks s f) as [|st l] eqn:Ed; [apply nth_app; exact Qt|]. split; [apply nth_app; exact Qt|]. rewrite Ed. split; [cbn; lia|].
           exists (hist s), []. split; [reflexivity|]. split; [intros []|]. intros k Hk. destruct (m_ready _ M _ _ Hk) as (x & Hx & _).
           apply nth_lt in Hx. rewrite Ed in Hx. cbn in *. lia.
        -- specialize (Q2 u). destruct (queries s u); auto; [apply nth_app; exact Q2|]. destruct Q2 as (B1 & B2 & B3).
           split; [apply nth_app; exact B1|]. split; [exact B2|]. apply round_ok_mono; [|exact B3]. intros x [<-|[]] X. congruence.
      * intros u Hu. rewrite answers_app. cbn. rewrite app_nil_r. rewrite Hq in Hu. destruct (Nat.eqb_spec u t) as [X|]; [rewrite X|]; apply Q3; [congruence|exact Hu].
      * intros u. rewrite answers_app. cbn. rewrite app_nil_r. auto.
      * intros j u p' g k host port Hj. apply nth_snoc in Hj. destruct Hj as [Hj|[_ X]]; [|discriminate X].
        pose proof (nth_lt _ _ _ Hj). apply answer_ok_mono; [lia|]. auto.
      * intros a b c u p' g k host port E N k' Hk.
        replace (a ++ ERound u :: b ++ EAnswer u p' g k host port :: c) with ((a ++ ERound u :: b) ++ EAnswer u p' g k host port :: c) in E by (rewrite <- app_assoc; reflexivity).
        apply snoc_split in E. destruct E as [(_ & _ & X)|(c' & -> & E)]; [discriminate X|]. rewrite <- app_assoc in E. eauto.
    + destruct Qt as (B1 & B2 & B3). destruct (nth_error (docks s f) i) as [st|] eqn:En; [|discriminate].
      destruct (st_ready st) eqn:Er; injection H as <-.
      * (* the answer *)
        assert (A0 : answers t (hist s) = []) by (apply Q3; congruence).
        assert (Nt : forall h, firstn (length (hist s)) (hist s ++ h) = hist s) by (intros; rewrite firstn_app_lt by lia; apply firstn_all).
        constructor; proj.
        -- intros u Hu. rewrite app_length in Hu. cbn in Hu. rewrite updp_other; [apply Q1; lia|]. apply nth_lt in B1. lia.
        -- intros u. unfold updp. destruct (Nat.eqb_spec u t) as [->|Nu]; [exact Logic.I|].
           specialize (Q2 u). destruct (queries s u); auto; [apply nth_app; exact Q2|]. destruct Q2 as (C1 & C2 & C3).
           split; [apply nth_app; exact C1|]. split; [exact C2|]. apply round_ok_mono; [|exact C3]. intros x [<-|[]]. discriminate.
        -- intros u Hu. rewrite answers_app. cbn. rewrite app_nil_r. unfold updp in Hu. destruct (Nat.eqb_spec u t) as [X|Nu]; [congruence|].
           destruct (Nat.eqb_spec t u); [congruence|]. rewrite app_nil_r. apply Q3. exact Hu.
        -- intros u. rewrite answers_app. cbn. rewrite app_nil_r. destruct (Nat.eqb_spec t u); [subst; rewrite A0; cbn; lia|]. rewrite app_nil_r. apply Q4.
        -- intros j u p' g k host port Hj. apply nth_snoc in Hj. destruct Hj as [Hj|[-> X]].
           { pose proof (nth_lt _ _ _ Hj). apply answer_ok_mono; [lia|]. auto. }
           injection X as -> -> -> -> -> ->. unfold answer_ok. rewrite Nt. split; [apply nth_lt in B1; exact B1|]. split; [apply nth_app; exact B1|].
           destruct (i_stub _ _ I f st (nth_error_In _ _ En)) as ((sl & C1 & C2) & C3 & C4 & C5). destruct (C5 Er) as (C6 & sl' & C7 & C8).
           exists (st_peer st), (st_reg st), (st_mark st), sl, sl'. rewrite in_app_iff.
           split. { rewrite <- (i_regs _ _ I f). apply (map_nth_error (fun st => (st_peer st, st_host st, st_port st))). exact En. }
           split; [eapply (m_mark _ M); eauto|]. split; [split; [exact C6|apply nth_lt in C7; exact C7]|].
           repeat split; auto using nth_app.
        -- intros a b c u p' g k host port E N k' Hk.
           replace (a ++ ERound u :: b ++ EAnswer u p' g k host port :: c) with ((a ++ ERound u :: b) ++ EAnswer u p' g k host port :: c) in E by (rewrite <- app_assoc; reflexivity).
           apply snoc_split in E. destruct E as [(_ & E & X)|(c' & -> & E)]; [|rewrite <- app_assoc in E; eauto].
           injection X as <- <- <- <- <- <-. destruct B3 as (a' & b' & E' & N' & K). rewrite E' in E. apply round_unique in E; auto. subst a'. auto.
      * assert (Q' : forall x, (x = (match i with O => QFetch p f | S i' => QLook p f i' end)) -> qinv (with_query t x s)).
        { intros x ->. constructor; proj; auto.
          - intros u Hu. rewrite updp_other; [auto|]. apply nth_lt in B1. lia.
          - intros u. unfold updp. destruct (Nat.eqb_spec u t) as [->|Nu]; [|apply Q2].
            destruct i as [|i']; [exact B1|]. split; [exact B1|]. split; [lia|]. destruct B3 as (a & b & E & N & K). exists a, b. split; [exact E|]. split; [exact N|].
            intros k Hk. specialize (K k Hk). assert (k <> S i'); [|lia]. intros ->. destruct (m_ready _ M f (S i')) as (x & Hx & Hr).
            + rewrite E, in_app_iff. left. exact Hk.
            + congruence.
          - intros u Hu. unfold updp in Hu. destruct (Nat.eqb_spec u t) as [X|Nu]; apply Q3; congruence. }
        apply Q'. reflexivity.
  - steps H. qf s [EClosed p].
Qed.
Lemma qinv_exec ls s : exec hstep new_hub ls = Some s -> inv raddr s /\ marks s /\ qinv s.
Proof.
  apply (exec_inv hstep (fun s => inv raddr s /\ marks s /\ qinv s)).
  - intros a l b (I & M & Q) H. split; [eapply inv_step; eauto|]. split; [eapply marks_step; eauto|eapply qinv_step; eauto].
  - split; [apply inv_init|]. split; [constructor; cbn; intros; [tauto|]; destruct k; discriminate|].
    constructor; cbn; intros; auto; try (destruct j; discriminate). destruct a; discriminate.
Qed.

(* docks only grow; ready registrations stay ready *)
Lemma docks_step s l s' f k : hstep s l = Some s' -> length (docks s f) <= length (docks s' f) /\
  (forall st, nth_error (docks s f) k = Some st -> st_ready st = true -> exists st', nth_error (docks s' f) k = Some st' /\ st_ready st' = true /\
     st_peer st' = st_peer st /\ st_host st' = st_host st /\ st_port st' = st_port st).
Proof.
  intros H. assert (K : docks s' = docks s -> length (docks s f) <= length (docks s' f) /\
    (forall st, nth_error (docks s f) k = Some st -> st_ready st = true -> exists st', nth_error (docks s' f) k = Some st' /\ st_ready st' = true /\
      st_peer st' = st_peer st /\ st_host st' = st_host st /\ st_port st' = st_port st)).
  { intros ->. split; [lia|]. intros st A B. exists st. auto. }
  destruct l as [p pk|p|t|p].
  - steps H; apply K; reflexivity.
  - unfold HubModel.hstep in H. destruct (halted s); [discriminate|].
    destruct (handlers s p) as [|t slots|t host port [|g todo]|t [|g todo]|t g i todo|t g i todo] eqn:Eh; try discriminate.
    + destruct (allocate black (assigned s (pickIP (raddr p)))); injection H as <-; apply K; reflexivity.
    + injection H as <-. apply K. reflexivity.
    + injection H as <-. proj. clear K. destruct (updn_case (docks s) g (docks s g ++ [mkStub host port p false t 0]) f) as [[-> ->]|[N ->]].
      * rewrite app_length. split; [lia|]. intros st A B. exists st. split; [apply nth_app; exact A|auto].
      * split; [lia|]. intros st A B. exists st. auto.
    + injection H as <-. apply K. reflexivity.
    + injection H as <-. apply K. reflexivity.
    + destruct (nth_error (docks s g) i) as [st|] eqn:En; [|discriminate]. destruct (Nat.eqb_spec (st_peer st) p) as [Ep|Ep]; injection H as <-; [|apply K; reflexivity].
      proj. clear K. match goal with |- context [updn ?d ?g ?v f] => destruct (updn_case d g v f) as [[-> ->]|[N ->]] end.
      * rewrite set_nth_length. split; [lia|]. intros st0 A B. destruct (Nat.eq_dec i k) as [<-|Nk].
        -- eexists. split; [apply set_nth_same; apply nth_lt in A; exact A|]. cbn. assert (st0 = st) by congruence. subst st0. auto.
        -- rewrite set_nth_other by exact Nk. exists st0. auto.
      * split; [lia|]. intros st0 A B. exists st0. auto.
    + injection H as <-. apply K. reflexivity.
  - unfold HubModel.hstep in H. destruct (halted s); [discriminate|]. destruct (queries s t) as [|p g|p g i|]; try discriminate.
    + injection H as <-. apply K. destruct (docks s g); reflexivity.
    + destruct (nth_error (docks s g) i) as [st|]; [|discriminate]. destruct (st_ready st); injection H as <-; apply K; reflexivity.
  - steps H. apply K. reflexivity.
Qed.
Lemma docks_exec f : forall ls s s', exec hstep s ls = Some s' -> length (docks s f) <= length (docks s' f).
Proof.
  induction ls as [|l ls IH]; intros s s' H; [injection H as <-; lia|]. cbn in H. destruct (hstep s l) eqn:E; [|discriminate].
  apply (docks_step _ _ _ f 0) in E. apply IH in H. lia.
Qed.

(* a received query has a goroutine, which ends only by answering *)
Record live s : Prop := {
  l_born : forall t p f, nth_error (hist s) t = Some (ERecv p (PQuery f)) -> queries s t <> QNone;
  l_done : forall t, queries s t = QDone -> answers t (hist s) <> [] }.
Lemma live_frame s s' e : hist s' = hist s ++ e -> length e <= 1 -> (forall x p f, In x e -> x <> ERecv p (PQuery f)) -> queries s' = queries s -> live s -> live s'.
Proof.
  intros H Le N Q [L1 L2]. constructor; rewrite H, Q.
  - intros t p f Ht. destruct e as [|x [|]]; [rewrite app_nil_r in Ht; eauto| |cbn in Le; lia].
    apply nth_snoc in Ht. destruct Ht as [Ht|[_ X]]; [eauto|]. exfalso. eapply (N x); [left; reflexivity|]. symmetry. exact X.
  - intros t Ht X. rewrite answers_app in X. apply app_eq_nil in X. exact (L2 _ Ht (proj1 X)).
Qed.
Ltac lf s e := apply (live_frame s _ e); proj; rewrite ?app_nil_r; auto; try (cbn; lia); try (intros ? ? ? [<-|[]]; discriminate); try (intros ? ? ? []).
Lemma live_step s l s' : qinv s -> live s -> hstep s l = Some s' -> live s'.
Proof.
  intros Q L H. destruct l as [p k|p|t|p].
  - unfold HubModel.hstep in H. destruct (halted s); [discriminate|]. destruct (handlers s p); try discriminate. cbv zeta in H.
    destruct k; injection H as <-; [lf s [ERecv p (PRegister slots)]|lf s [ERecv p (PReady slots)]| |lf s [ERecv p POther]].
    destruct L as [L1 L2]. constructor; proj; intros t.
    + intros p' f Ht. unfold updp. destruct (Nat.eqb_spec t (length (hist s))); [discriminate|]. apply nth_snoc in Ht. destruct Ht as [Ht|[X _]]; [eauto|congruence].
    + unfold updp. destruct (Nat.eqb_spec t (length (hist s))); [discriminate|]. intros Ht X. rewrite answers_app in X. apply app_eq_nil in X. exact (L2 _ Ht (proj1 X)).
  - unfold HubModel.hstep in H. destruct (halted s); [discriminate|].
    destruct (handlers s p) as [|t slots|t host port [|g todo]|t [|g todo]|t g i todo|t g i todo] eqn:Eh; try discriminate.
    + destruct (allocate black (assigned s (pickIP (raddr p)))); injection H as <-; auto; [lf s [EAlloc t p (pickIP (raddr p)) p0]|lf s (@nil event)].
    + injection H as <-. lf s [EReply p port].
    + injection H as <-. lf s [EPush g p host port].
    + injection H as <-. lf s (@nil event).
    + injection H as <-. lf s (@nil event).
    + destruct (nth_error (docks s g) i) as [st|] eqn:En; [|discriminate]. destruct (Nat.eqb_spec (st_peer st) p) as [Ep|Ep]; injection H as <-; [|lf s (@nil event)].
      lf s [EMark g i].
    + injection H as <-. lf s (@nil event).
  - unfold HubModel.hstep in H. destruct (halted s); [discriminate|]. destruct L as [L1 L2]. destruct (queries s t) as [|p g|p g i|] eqn:Eq; try discriminate.
    + injection H as <-. destruct (docks s g); [lf s [ERound t]; constructor; auto|]. constructor; proj; intros u.
      * intros p' f' Ht. unfold updp. destruct (Nat.eqb_spec u t); [discriminate|]. apply nth_snoc in Ht. destruct Ht as [Ht|[_ X]]; [eauto|discriminate X].
      * unfold updp. destruct (Nat.eqb_spec u t); [discriminate|]. intros Ht X. rewrite answers_app in X. apply app_eq_nil in X. exact (L2 _ Ht (proj1 X)).
    + destruct (nth_error (docks s g) i) as [st|]; [|discriminate]. destruct (st_ready st); injection H as <-; constructor; proj; intros u.
      * intros p' f' Ht. unfold updp. destruct (Nat.eqb_spec u t); [discriminate|]. apply nth_snoc in Ht. destruct Ht as [Ht|[_ X]]; [eauto|discriminate X].
      * unfold updp. destruct (Nat.eqb_spec u t) as [->|].
        -- intros _ X. rewrite answers_app in X. apply app_eq_nil in X. cbn in X. rewrite Nat.eqb_refl in X. destruct X as [_ X]. discriminate X.
        -- intros Ht X. rewrite answers_app in X. apply app_eq_nil in X. exact (L2 _ Ht (proj1 X)).
      * intros p' f' Ht. unfold updp. destruct (Nat.eqb_spec u t); [destruct i; discriminate|]. eauto.
      * unfold updp. destruct (Nat.eqb_spec u t); [destruct i; discriminate|]. auto.
  - steps H. lf s [EClosed p].
Qed.
Lemma live_exec ls s : exec hstep new_hub ls = Some s -> inv raddr s /\ marks s /\ qinv s /\ live s.
Proof.
  intros H. destruct (qinv_exec _ _ H) as (A & B & C). split; [exact A|]. split; [exact B|]. split; [exact C|].
  cut (qinv s /\ live s); [tauto|]. cut ((inv raddr s /\ marks s /\ qinv s) /\ live s); [tauto|]. clear A B C.
  revert H. apply (exec_inv hstep (fun s => (inv raddr s /\ marks s /\ qinv s) /\ live s)).
  - intros a l b ((I & M & Q) & L) H. split; [split; [eapply inv_step; eauto|]; split; [eapply marks_step; eauto|eapply qinv_step; eauto]|eapply live_step; eauto].
  - split; [apply (qinv_exec []); reflexivity|]. constructor; cbn; intros; [destruct t; discriminate|discriminate].
Qed.

Lemma never_stuck ls s t p f : exec hstep new_hub ls = Some s -> halted s = false -> nth_error (hist s) t = Some (ERecv p (PQuery f)) ->
  answers t (hist s) = [] -> hstep s (QStep t) <> None.
Proof.
  intros H Hh Ht Ha. destruct (live_exec _ _ H) as (I & M & Q & L). unfold HubModel.hstep. rewrite Hh.
  pose proof (l_born _ L _ _ _ Ht) as B. pose proof (l_done _ L t) as D. pose proof (q_pc _ Q t) as P.
  destruct (queries s t) as [|p' g|p' g i|]; try congruence; [|exfalso; exact (D eq_refl Ha)].
  destruct P as (_ & P & _). destruct (nth_error (docks s g) i) eqn:E; [destruct (st_ready s0); discriminate|].
  apply nth_error_None in E. lia.
Qed.

(* how many more turns a query takes once registration k of f is ready; N bounds the list *)
Definition rank (N k : nat) (q : qpc) : nat :=
  match q with QNone => 0 | QDone => 0 | QFetch _ _ => S N | QLook _ _ i => if k <=? i then S i else S i + S N end.
Lemma others_step s l s' t : qinv s -> queries s t <> QNone -> hstep s l = Some s' -> (forall u, l = QStep u -> u <> t) -> queries s' t = queries s t.
Proof.
  intros Q B H N. destruct l as [p k|p|u|p].
  - steps H; proj; auto. apply updp_other. intros ->. apply B. apply (q_bound _ Q). lia.
  - steps H; reflexivity.
  - specialize (N u eq_refl). unfold HubModel.hstep in H. destruct (halted s); [discriminate|]. destruct (queries s u) as [|p g|p g i|]; try discriminate.
    + injection H as <-. destruct (docks s g); proj; auto. apply updp_other. congruence.
    + destruct (nth_error (docks s g) i); [|discriminate]. destruct (st_ready s0); injection H as <-; proj; apply updp_other; congruence.
  - steps H. reflexivity.
Qed.
Definition asks (q : qpc) (f : name) : Prop := match q with QNone => False | QFetch _ g => g = f | QLook _ g _ => g = f | QDone => True end.
Lemma rank_step s t s' N k f st : qinv s -> asks (queries s t) f -> nth_error (docks s f) k = Some st -> st_ready st = true -> length (docks s f) <= N ->
  hstep s (QStep t) = Some s' -> asks (queries s' t) f /\ rank N k (queries s' t) < rank N k (queries s t).
Proof.
  intros Q A Hk Hr HN H. pose proof (nth_lt _ _ _ Hk) as Lk. unfold HubModel.hstep in H. destruct (halted s); [discriminate|].
  pose proof (q_pc _ Q t) as P. destruct (queries s t) as [|p g|p g i|] eqn:Eq; try discriminate; cbn in A; subst g.
  - injection H as <-. destruct (docks s f) as [|x l] eqn:Ed; [cbn in Lk; lia|]. proj. rewrite updp_same. cbn [asks rank]. split; [reflexivity|].
    cbn in Lk, HN. cbn [length pred]. destruct (Nat.leb_spec k (length l)); lia.
  - destruct P as (_ & P & _). destruct (nth_error (docks s f) i) as [x|] eqn:Ei; [|discriminate]. destruct (st_ready x) eqn:Ex; injection H as <-; proj; rewrite updp_same; cbn [asks rank].
    + split; [exact Logic.I|]. destruct (k <=? i); lia.
    + destruct i as [|i]; cbn [asks rank]; (split; [reflexivity|]).
      * destruct (Nat.leb_spec k 0) as [X|X]; [|lia]. assert (k = 0) by lia. subst k. congruence.
      * destruct (Nat.leb_spec k i), (Nat.leb_spec k (S i)); try lia. assert (k = S i) by lia. subst k. congruence.
Qed.
Lemma rank_exec N k f t : forall ls s s' st, inv raddr s -> marks s -> qinv s -> asks (queries s t) f -> nth_error (docks s f) k = Some st -> st_ready st = true ->
  exec hstep s ls = Some s' -> length (docks s' f) <= N ->
  asks (queries s' t) f /\ rank N k (queries s' t) + turns t ls <= rank N k (queries s t).
Proof.
  induction ls as [|l ls IH]; intros s s' st I M Q A Hk Hr H HN; [injection H as <-; cbn; split; [exact A|lia]|].
  cbn in H. destruct (hstep s l) as [s1|] eqn:E; [|discriminate].
  pose proof (docks_exec f _ _ _ H) as D1. destruct (docks_step _ _ _ f k E) as [D2 D3]. destruct (D3 _ Hk Hr) as (st1 & Hk1 & Hr1 & _).
  assert (T : turns t (l :: ls) = (match l with QStep u => if u =? t then 1 else 0 | _ => 0 end) + turns t ls).
  { unfold turns. cbn. destruct l; try reflexivity. destruct (t0 =? t); reflexivity. }
  assert (X : asks (queries s1 t) f /\ rank N k (queries s1 t) + (match l with QStep u => if u =? t then 1 else 0 | _ => 0 end) <= rank N k (queries s t)).
  { assert (BN : queries s t <> QNone) by (destruct (queries s t); cbn in A; [tauto|discriminate..]).
    assert (O : (forall u, l = QStep u -> u <> t) -> queries s1 t = queries s t) by (eapply others_step; eauto).
    destruct l as [p pk|p|u|p]; try (rewrite O by (intros; discriminate); split; [exact A|lia]).
    destruct (Nat.eqb_spec u t) as [->|Nu]; [|rewrite O by (intros v Hv; injection Hv as <-; exact Nu); split; [exact A|lia]].
    destruct (rank_step _ _ _ N k f st Q A Hk Hr ltac:(lia) E) as [X1 X2]. split; [exact X1|lia]. }
  destruct X as [X1 X2]. destruct (IH s1 s' st1) as [Y1 Y2]; auto; try (eapply inv_step; eauto); try (eapply marks_step; eauto); try (eapply qinv_step; eauto).
  split; [exact Y1|lia].
Qed.
Lemma asks_of ls s t p f : exec hstep new_hub ls = Some s -> nth_error (hist s) t = Some (ERecv p (PQuery f)) -> asks (queries s t) f.
Proof.
  intros H Ht. destruct (live_exec _ _ H) as (_ & _ & Q & L). pose proof (l_born _ L _ _ _ Ht) as B. pose proof (q_pc _ Q t) as P.
  destruct (queries s t); cbn; auto; first [congruence|destruct P; congruence].
Qed.
(* the number of turns a query takes while a registration of its feature is ready *)
Lemma turns_bound ls s ls' s' t p f k : exec hstep new_hub ls = Some s -> nth_error (hist s) t = Some (ERecv p (PQuery f)) -> In (EMark f k) (hist s) ->
  exec hstep s ls' = Some s' -> turns t ls' <= 2 * length (registrations f (hist s')) + 1.
Proof.
  intros H Ht Hm E. destruct (qinv_exec _ _ H) as (I & M & Q). destruct (m_ready _ M _ _ Hm) as (st & Hk & Hr).
  pose proof (asks_of _ _ _ _ _ H Ht) as A.
  assert (H' : exec hstep new_hub (ls ++ ls') = Some s') by (rewrite exec_app, H; exact E).
  assert (LN : length (registrations f (hist s')) = length (docks s' f)).
  { destruct (qinv_exec _ _ H') as (I' & _). rewrite <- (i_regs _ _ I' f). apply map_length. }
  rewrite LN. destruct (rank_exec (length (docks s' f)) k f t ls' s s' st I M Q A Hk Hr E ltac:(lia)) as [_ X].
  pose proof (docks_exec f _ _ _ E).
  assert (R : rank (length (docks s' f)) k (queries s t) <= 2 * length (docks s' f) + 1); [|lia].
  pose proof (q_pc _ Q t) as P. destruct (queries s t) as [|q g|q g i|]; cbn [rank asks] in *; try lia.
  subst g. destruct P as (_ & P & _). destruct (k <=? i); lia.
Qed.
Lemma qstep_docks s t s' : hstep s (QStep t) = Some s' -> docks s' = docks s /\ halted s' = halted s.
Proof.
  unfold HubModel.hstep. destruct (halted s) eqn:Eh; [discriminate|]. destruct (queries s t) as [|p g|p g i|]; try discriminate.
  - intros H. injection H as <-. destruct (docks s g); auto.
  - destruct (nth_error (docks s g) i); [|discriminate]. destruct (st_ready s0); intros H; injection H as <-; auto.
Qed.
Lemma can_finish ls s t p f k : exec hstep new_hub ls = Some s -> halted s = false -> nth_error (hist s) t = Some (ERecv p (PQuery f)) -> In (EMark f k) (hist s) ->
  exists n s', exec hstep s (repeat (QStep t) n) = Some s' /\ answers t (hist s') <> [].
Proof.
  intros H Hh Ht Hm. destruct (qinv_exec _ _ H) as (I & M & Q). destruct (m_ready _ M _ _ Hm) as (st & Hk & Hr).
  remember (rank (length (docks s f)) k (queries s t)) as m eqn:Em. revert ls s st H Hh Ht Hm I M Q Hk Hr Em.
  induction m as [m IH] using lt_wf_ind. intros ls s st H Hh Ht Hm I M Q Hk Hr Em.
  destruct (answers t (hist s)) eqn:Ea; [|exists 0, s; split; [reflexivity|rewrite Ea; discriminate]].
  destruct (hstep s (QStep t)) as [s1|] eqn:E1; [|destruct (never_stuck _ _ _ _ _ H Hh Ht Ea E1)].
  destruct (qstep_docks _ _ _ E1) as [D1 D2]. pose proof (asks_of _ _ _ _ _ H Ht) as A.
  destruct (rank_step _ _ _ (length (docks s f)) k f st Q A Hk Hr ltac:(lia) E1) as [A1 R1].
  assert (G : exists e, hist s1 = hist s ++ e).
  { revert E1. unfold HubModel.hstep. rewrite Hh. destruct (queries s t) as [|q g|q g i|]; try discriminate.
    - intros X. injection X as <-. exists [ERound t]. destruct (docks s g); reflexivity.
    - destruct (nth_error (docks s g) i); [|discriminate]. destruct (st_ready s0); intros X; injection X as <-; [eexists; reflexivity|exists []; proj; rewrite app_nil_r; reflexivity]. }
  destruct G as [e G].
  destruct (IH (rank (length (docks s1 f)) k (queries s1 t)) ltac:(rewrite D1; lia) (ls ++ [QStep t]) s1 st) as (n & s' & X & Y); auto.
  - rewrite exec_app, H. cbn. rewrite E1. reflexivity.
  - congruence.
  - rewrite G. apply nth_app. exact Ht.
  - rewrite G, in_app_iff. left. exact Hm.
  - eapply inv_step; eauto.
  - eapply marks_step; eauto.
  - eapply qinv_step; eauto.
  - rewrite D1. exact Hk.
  - exists (S n), s'. split; [|exact Y]. cbn. rewrite E1. exact X.
Qed.
End Proof.
