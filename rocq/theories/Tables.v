(* Names, tables as functions, positions in lists. *)
From Verif Require Import GoVal.
From Coq Require Import Arith List ZArith Lia.
Import ListNotations.
Open Scope nat_scope.

Definition name := list Z.   (* Go strings, as bytes *)
Definition updn {A} (f : name -> A) (k : name) (v : A) : name -> A := fun x => if zlist_eqb x k then v else f x.
Definition updp {A} (f : nat -> A) (k : nat) (v : A) : nat -> A := fun x => if x =? k then v else f x.
Fixpoint set_nth {A} (l : list A) (i : nat) (x : A) : list A :=
  match l, i with [], _ => [] | _ :: r, O => x :: r | y :: r, S i' => y :: set_nth r i' x end.
Lemma zlist_refl a : zlist_eqb a a = true.
Proof. apply zlist_eqb_eq. reflexivity. Qed.
Lemma updn_same {A} (f : name -> A) k v : updn f k v k = v.
Proof. unfold updn. rewrite zlist_refl. reflexivity. Qed.
Lemma updn_other {A} (f : name -> A) k v x : x <> k -> updn f k v x = f x.
Proof. intros H. unfold updn. destruct (zlist_eqb x k) eqn:E; [apply zlist_eqb_eq in E; congruence|reflexivity]. Qed.
Lemma updn_case {A} (f : name -> A) k v x : (x = k /\ updn f k v x = v) \/ (x <> k /\ updn f k v x = f x).
Proof. destruct (zlist_eqb x k) eqn:E; [left|right]; unfold updn; rewrite E; split; auto; [apply zlist_eqb_eq; exact E|]. intros ->. rewrite zlist_refl in E. discriminate. Qed.
Lemma updp_same {A} (f : nat -> A) k v : updp f k v k = v.
Proof. unfold updp. rewrite Nat.eqb_refl. reflexivity. Qed.
Lemma updp_other {A} (f : nat -> A) k v x : x <> k -> updp f k v x = f x.
Proof. intros H. unfold updp. destruct (Nat.eqb_spec x k); congruence. Qed.
Lemma nth_app {A} (h e : list A) i x : nth_error h i = Some x -> nth_error (h ++ e) i = Some x.
Proof. intros H. rewrite nth_error_app1; [exact H|]. apply nth_error_Some. congruence. Qed.
Lemma nth_snoc {A} (h : list A) e i x : nth_error (h ++ [e]) i = Some x -> nth_error h i = Some x \/ (i = length h /\ x = e).
Proof.
  intros H. destruct (Nat.lt_ge_cases i (length h)); [left; rewrite nth_error_app1 in H; auto|].
  rewrite nth_error_app2 in H by lia. destruct (i - length h) eqn:E; [injection H as <-; right; split; [lia|reflexivity]|destruct n; discriminate].
Qed.
Lemma set_nth_length {A} (l : list A) i x : length (set_nth l i x) = length l.
Proof. revert i. induction l; destruct i; cbn; auto. Qed.
Lemma set_nth_same {A} (l : list A) i x : i < length l -> nth_error (set_nth l i x) i = Some x.
Proof. revert i. induction l; destruct i; cbn; intros; try lia; auto. apply IHl. lia. Qed.
Lemma set_nth_other {A} (l : list A) i j x : i <> j -> nth_error (set_nth l i x) j = nth_error l j.
Proof. revert i j. induction l; destruct i, j; cbn; intros; try lia; auto. Qed.
Lemma set_nth_in {A} (l : list A) i x y : In y (set_nth l i x) -> y = x \/ In y l.
Proof. revert i. induction l; destruct i; cbn; intros H; auto; destruct H as [H|H]; auto. destruct (IHl _ H); auto. Qed.
Lemma set_nth_map {A B} (f : A -> B) (l : list A) i x y : nth_error l i = Some y -> f x = f y -> map f (set_nth l i x) = map f l.
Proof. revert i. induction l; destruct i; cbn; intros H E; try discriminate; [injection H as ->; congruence|]. rewrite (IHl i); auto. Qed.

Lemma nth_lt {A} (l : list A) i x : nth_error l i = Some x -> i < length l.
Proof. intros H. apply nth_error_Some. congruence. Qed.
Lemma zlist_eqb_spec a b : Bool.reflect (a = b) (zlist_eqb a b).
Proof. destruct (zlist_eqb a b) eqn:E; constructor; [apply zlist_eqb_eq; exact E|]. intros ->. rewrite zlist_refl in E. discriminate. Qed.
Lemma set_nth_twice {A} (l : list A) n x y : set_nth (set_nth l n x) n y = set_nth l n y.
Proof. revert n; induction l as [|a l IH]; intros [|n]; cbn; try reflexivity. now rewrite IH. Qed.
Lemma set_nth_case {A} (l : list A) i j x y : nth_error (set_nth l i x) j = Some y -> (j = i /\ y = x) \/ (j <> i /\ nth_error l j = Some y).
Proof.
  intros H. destruct (Nat.eq_dec j i) as [->|N]; [left|right; rewrite set_nth_other in H by auto; auto].
  assert (i < length l) by (rewrite <- (set_nth_length l i x); eapply nth_lt; eauto). rewrite set_nth_same in H by auto. split; congruence.
Qed.
