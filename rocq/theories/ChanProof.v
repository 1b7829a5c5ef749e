(* Lemmas for chancall. *)
From Verif Require Import Lts GoInt GoFloat ChanModel ChanSpec.
From Coq Require Import Arith Bool.
Open Scope nat_scope.

Lemma upd_same {A} (f : nat -> A) k v : upd f k v k = v.
Proof. unfold upd. rewrite Nat.eqb_refl. reflexivity. Qed.
Lemma upd_other {A} (f : nat -> A) k v x : x <> k -> upd f k v x = f x.
Proof. intros H. unfold upd. destruct (Nat.eqb_spec x k); congruence. Qed.

Ltac proj := cbn [reqs nreqs queue handler timer responses gor settings object now crashed hist
  with_reqs with_req with_handler with_timer with_responses with_gor with_queue with_object add respond
  rq_gor rq_caller rq_method rq_args rq_done rq_locked set_done set_locked known impl] in *.
(* all successful steps *)
Ltac steps H :=
  unfold cstep in H;
  repeat match type of H with
    | (let _ := _ in _) = _ => cbv zeta in H
    | context [match ?x with _ => _ end] => let E := fresh "E" in destruct x eqn:E; try discriminate H
    end;
  try (injection H as <-); proj.
Ltac upds := repeat (rewrite ?upd_same in *; match goal with
  | H : context [upd ?f ?k ?v ?x] |- _ => unfold upd in H; destruct (Nat.eqb_spec x k); subst
  | |- context [upd ?f ?k ?v ?x] => unfold upd; destruct (Nat.eqb_spec x k); subst
  end).

Section Proof.
Context {O V : Type} (T : target O V).
Implicit Types (s : chan O V).

(* identifiers in use are smaller than nreqs *)
Definition href (h : hpoint V) : list nat :=
  match h with HIdle => [] | HRun r => [r] | HResult r _ => [r] | HLocked r _ => [r] | HSet r _ => [r] | HSend r _ => [r] | HUnlock r => [r] end.
Definition gref (g : gpoint) : list nat := match g with GIdle => [] | GSending r => [r] | GWaiting r => [r] end.
Record bounded s : Prop := {
  b_queue : forall r, In r (queue s) -> r < nreqs s;
  b_handler : forall r, In r (href (handler s)) -> r < nreqs s;
  b_timer : forall r, timer s r <> TNone -> r < nreqs s;
  b_gor : forall g r, In r (gref (gor s g)) -> r < nreqs s;
  b_fresh : forall r, nreqs s <= r -> rq_done (reqs s r) = false /\ rq_locked (reqs s r) = false }.

Lemma bounded_step s l s' : bounded s -> cstep T s l = Some s' -> bounded s'.
Proof.
  intros [B1 B2 B3 B4 B5] H.
  destruct l; steps H.
  all: repeat match goal with
    | E : timer _ ?r = _ |- _ => pose proof (B3 r ltac:(rewrite E; discriminate)); revert E end; intros.
  all: repeat match goal with
    | E : gor _ ?g = GSending ?r |- _ => pose proof (B4 g r ltac:(rewrite E; left; reflexivity)); revert E
    | E : gor _ ?g = GWaiting ?r |- _ => pose proof (B4 g r ltac:(rewrite E; left; reflexivity)); revert E end; intros.
  all: repeat match goal with E : handler _ = _ |- _ => rewrite E in *; clear E; cbn [href] in * end.
  all: repeat match goal with E : queue _ = _ |- _ => rewrite E in *; clear E; cbn [In] in * end.
  all: constructor; proj; auto; intros; upds; cbn [href gref In] in *; rewrite ?in_app_iff in *; cbn [In] in *.
  all: try (match goal with r : nat |- _ /\ _ => match goal with H : nreqs _ <= r |- _ => pose proof (B5 r H) end end).
  all: proj; try tauto; try lia.
  all: try (intuition (subst; eauto; lia); fail).
  all: eauto using Nat.lt_lt_succ_r.
  all: try (apply B5; lia).
  all: exfalso; specialize (B2 _ (or_introl eq_refl)); lia.
Qed.

Lemma bounded_init o : bounded (new_chan o : chan O V).
Proof. constructor; cbn; intros; try tauto. Qed.
Lemma bounded_exec o ls s : exec (cstep T) (new_chan o) ls = Some s -> bounded s.
Proof. apply exec_inv; [apply bounded_step|apply bounded_init]. Qed.

(* --- the path of a request (C26) --- *)
Lemma enqueued_app (h e : list (event V)) : enqueued (h ++ e) = enqueued h ++ enqueued e.
Proof. apply flat_map_app. Qed.
Lemma started_app (h e : list (event V)) : started (h ++ e) = started h ++ started e.
Proof. apply flat_map_app. Qed.
Lemma ended_app (h e : list (event V)) : ended (h ++ e) = ended h ++ ended e.
Proof. apply flat_map_app. Qed.
Lemma answers_app r (h : list (event V)) e : answers r (h ++ e) = answers r h ++ answers r e.
Proof. apply flat_map_app. Qed.

Record flow s : Prop := {
  f_queue : enqueued (hist s) = started (hist s) ++ queue s;
  f_nodup : NoDup (enqueued (hist s));
  f_sending : forall g r, gor s g = GSending r -> ~ In r (enqueued (hist s)) /\ rq_gor (reqs s r) = g;
  f_waiting : forall g r, gor s g = GWaiting r -> In r (enqueued (hist s)) /\ rq_gor (reqs s r) = g;
  f_timer : forall r, timer s r <> TNone <-> In r (started (hist s));
  f_bound : forall r, In r (enqueued (hist s)) -> r < nreqs s;
  f_handler : forall r, In r (href (handler s)) -> In r (started (hist s)) }.

Lemma nodup_snoc {A} (l : list A) x : NoDup l -> ~ In x l -> NoDup (l ++ [x]).
Proof.
  intros N H. apply NoDup_rev in N. rewrite <- (rev_involutive (l ++ [x])). apply NoDup_rev.
  rewrite rev_app_distr. cbn. constructor; [rewrite <- in_rev; exact H|exact N].
Qed.

Lemma flow_step s l s' : bounded s -> flow s -> cstep T s l = Some s' -> flow s'.
Proof.
  intros B [F1 F2 F3 F4 F5 F6 F7] H. pose proof (b_gor _ B) as B4.
  destruct l; steps H.
  all: constructor; proj; auto.
  all: rewrite ?enqueued_app, ?started_app; cbn [enqueued started flat_map app]; rewrite ?app_nil_r; auto.
  (* only new requests, goroutines and timers matter *)
  all: try (intros rr Hr; apply F7; repeat match goal with E : handler _ = _ |- _ => rewrite E in * end; exact Hr).
  all: try (intros rr [<-|[]]; rewrite in_app_iff; right; left; reflexivity).
  all: try (intros rr []; fail).
  all: try (intros; upds; proj; eauto; fail).
  - intros g0 r H. unfold upd in H. destruct (Nat.eqb_spec g0 g) as [->|].
    + injection H as <-. split; [intros X; apply F6 in X; lia|]. rewrite upd_same. reflexivity.
    + destruct (F3 _ _ H) as [A D]. split; [exact A|]. rewrite upd_other; [exact D|].
      specialize (B4 g0 r). rewrite H in B4. specialize (B4 (or_introl eq_refl)). lia.
  - intros g0 r H. unfold upd in H. destruct (Nat.eqb_spec g0 g) as [->|]; [discriminate H|]. destruct (F4 _ _ H) as [A D]. split; [exact A|].
    rewrite upd_other; [exact D|]. specialize (F6 _ A). lia.
  - intros r H. apply F6 in H. lia.
  - rewrite F1, app_assoc. reflexivity.
  - apply nodup_snoc; [exact F2|]. eapply F3; exact E0.
  - intros g0 r0 H. upds; [discriminate H|]. destruct (F3 _ _ H) as [A D]. split; [|exact D].
    rewrite in_app_iff. intros [X|[->|[]]]; [exact (A X)|]. destruct (F3 _ _ E0). congruence.
  - intros g0 r0 H. rewrite in_app_iff. upds.
    + injection H as <-. split; [right; left; reflexivity|]. apply (F3 _ _ E0).
    + destruct (F4 _ _ H). split; [left|]; assumption.
  - intros r0. rewrite in_app_iff. intros [X|[<-|[]]]; [auto|]. apply (B4 g). rewrite E0. left. reflexivity.
  - intros g0 r0 H. upds; [discriminate H|]. eauto.
  - intros g0 r0 H. upds; [discriminate H|]. eauto.
  - rewrite F1, ?E1, <- app_assoc. reflexivity.
  - intros r. rewrite in_app_iff. cbn [In]. upds; [|rewrite F5; intuition congruence].
    split; intros; [tauto|discriminate].
  - intros r0. upds; [|apply F5]. rewrite <- F5, E0. split; intros; discriminate.
  - intros r0. upds; [|apply F5]. rewrite <- F5, E0. split; intros; discriminate.
  - intros r0. upds; [|apply F5]. rewrite <- F5, E0. split; intros; discriminate.
  - intros r0. upds; [|apply F5]. rewrite <- F5, E0. split; intros; discriminate.
  - intros r0. upds; [|apply F5]. rewrite <- F5, E0. split; intros; discriminate.
  - intros r0. upds; [|apply F5]. rewrite <- F5, E0. split; intros; discriminate.
  - intros r0. upds; [|apply F5]. rewrite <- F5, E0. split; intros; discriminate.
Qed.

Lemma flow_init o : flow (new_chan o : chan O V).
Proof. constructor; cbn; intros; try tauto; try discriminate. constructor. Qed.
Lemma queued_not_started s r : flow s -> In r (queue s) -> ~ In r (started (hist s)) /\ timer s r = TNone.
Proof.
  intros [F1 F2 _ _ F5 _ _] H. rewrite F1 in F2.
  assert (N : ~ In r (started (hist s))).
  { intros X. apply in_split in H. destruct H as (a & b & E). rewrite E, app_assoc in F2.
    apply NoDup_remove_2 in F2. apply F2. rewrite !in_app_iff. tauto. }
  split; [exact N|]. destruct (timer s r) eqn:E; [reflexivity|exfalso; apply N, F5; rewrite E; discriminate..].
Qed.

(* --- the request lock and the done flag (C25) --- *)
Definition b2n (b : bool) : nat := if b then 1 else 0.
Definition hcrit (h : hpoint V) (r : nat) : bool :=
  match h with HLocked q _ | HSet q _ | HSend q _ | HUnlock q => q =? r | _ => false end.
Definition hset (h : hpoint V) (r : nat) : bool := match h with HSet q _ => q =? r | _ => false end.
Definition hsend (h : hpoint V) (r : nat) : bool := match h with HSend q _ => q =? r | _ => false end.
Definition tcrit (t : tpoint) : bool := match t with TLocked | TSet | TSend | TUnlock => true | _ => false end.
Definition tset (t : tpoint) : bool := match t with TSet => true | _ => false end.
Definition tsend (t : tpoint) : bool := match t with TSend => true | _ => false end.
Record locking s : Prop := {
  l_lock : forall r, b2n (hcrit (handler s) r) + b2n (tcrit (timer s r)) = b2n (rq_locked (reqs s r));
  l_done : forall r, length (answers r (hist s)) + b2n (hsend (handler s) r) + b2n (tsend (timer s r)) = b2n (rq_done (reqs s r));
  l_seth : forall r, b2n (hset (handler s) r) + b2n (rq_done (reqs s r)) <= 1;
  l_sett : forall r, b2n (tset (timer s r)) + b2n (rq_done (reqs s r)) <= 1 }.

Lemma b2n_le b : b2n b <= 1. Proof. destruct b; cbn; lia. Qed.
Lemma hcrit_le h r : b2n (hset h r) + b2n (hsend h r) <= b2n (hcrit h r).
Proof. destruct h; cbn; try lia; destruct (_ =? _); cbn; lia. Qed.
Lemma tcrit_le t : b2n (tset t) + b2n (tsend t) <= b2n (tcrit t).
Proof. destruct t; cbn; lia. Qed.

Ltac facts s r := pose proof (b2n_le (rq_done (reqs s r))); pose proof (b2n_le (rq_locked (reqs s r)));
  pose proof (hcrit_le (handler s) r); pose proof (tcrit_le (timer s r)).
Lemma locking_step s l s' : bounded s -> flow s -> locking s -> cstep T s l = Some s' -> locking s'.
Proof.
  intros B F L H.
  assert (X : forall x,
    b2n (hcrit (handler s') x) + b2n (tcrit (timer s' x)) = b2n (rq_locked (reqs s' x)) /\
    length (answers x (hist s')) + b2n (hsend (handler s') x) + b2n (tsend (timer s' x)) = b2n (rq_done (reqs s' x)) /\
    b2n (hset (handler s') x) + b2n (rq_done (reqs s' x)) <= 1 /\ b2n (tset (timer s' x)) + b2n (rq_done (reqs s' x)) <= 1).
  2: { constructor; intros x; apply X. }
  intros x. pose proof (l_lock _ L x) as L1. pose proof (l_done _ L x) as L2.
  pose proof (l_seth _ L x) as L3. pose proof (l_sett _ L x) as L4. facts s x.
  pose proof (b_fresh _ B x) as B5.
  destruct l; steps H.
  all: rewrite ?answers_app, ?app_length; cbn [answers flat_map app length Nat.add]; rewrite ?app_nil_r.
  all: repeat match goal with E : handler _ = _ |- _ => rewrite E in *; clear E end.
  all: try match goal with |- context [if ?n =? ?y then _ else _] => destruct (Nat.eqb_spec n y); subst end.
  all: unfold upd; repeat match goal with |- context [?y =? ?n] => destruct (Nat.eqb_spec y n); subst end.
  all: proj; repeat match goal with E : timer _ _ = _ |- _ => rewrite E in *; clear E end.
  all: cbn [hcrit hset hsend tcrit tset tsend] in *.
  all: rewrite ?Nat.eqb_refl in *.
  all: repeat match goal with H : _ <> _ |- _ => apply Nat.eqb_neq in H; first [rewrite H in *|rewrite Nat.eqb_sym in H; rewrite H in *] end.
  all: cbn [b2n length] in *; try lia.
  all: try (destruct (B5 (le_n _)) as [F1 F2]; rewrite F1, F2 in *; cbn [b2n] in *; lia).
  all: repeat match goal with E : rq_done _ = _ |- _ => rewrite E in *; clear E | E : rq_locked _ = _ |- _ => rewrite E in *; clear E end; cbn [b2n] in *; try lia.
  - destruct (queued_not_started s n F) as [_ D]; [rewrite E1; left; reflexivity|]. rewrite D in *. cbn in *. lia.
  - destruct (Nat.eqb_spec r x); [subst; rewrite E1 in *|]; cbn [b2n] in *; lia.
  - apply andb_true_iff in E1. destruct E1 as [_ E1]. apply negb_true_iff in E1. rewrite E1 in *. cbn [b2n] in *. lia.
Qed.
Lemma locking_init o : locking (new_chan o : chan O V).
Proof. constructor; cbn; intros; lia. Qed.

Definition good s : Prop := bounded s /\ flow s /\ locking s.
Lemma good_step s l s' : good s -> cstep T s l = Some s' -> good s'.
Proof. intros (B & F & L) H. exact (conj (bounded_step _ _ _ B H) (conj (flow_step _ _ _ B F H) (locking_step _ _ _ B F L H))). Qed.
Lemma good_init o : good (new_chan o : chan O V).
Proof. exact (conj (bounded_init o) (conj (flow_init o) (locking_init o))). Qed.
Lemma good_exec o ls s : exec (cstep T) (new_chan o) ls = Some s -> good s.
Proof. apply exec_inv; [apply good_step|apply good_init]. Qed.

(* C25 *)
Lemma one_answer o ls s r : exec (cstep T) (new_chan o) ls = Some s -> length (answers r (hist s)) <= 1.
Proof. intros H. destruct (good_exec _ _ _ H) as (_ & _ & L). pose proof (l_done _ L r). pose proof (b2n_le (rq_done (reqs s r))). lia. Qed.
End Proof.
