(* The set: misc/set.go. *)
From Verif Require Import GoInt GoFloat MiscModel MiscSpec.
From Coq Require Import Arith List ZArith Lia Permutation.
Import ListNotations.
Open Scope nat_scope.

(* ---- equality of map keys ---- *)
Lemma ukind_sym a b : ukind_eqb a b = ukind_eqb b a.
Proof. destruct a, b; reflexivity. Qed.
Lemma ikind_sym a b : ikind_eqb a b = ikind_eqb b a.
Proof. destruct a, b; reflexivity. Qed.
Lemma zlist_sym a b : zlist_eqb a b = zlist_eqb b a.
Proof. revert b; induction a as [|x a IH]; destruct b; cbn; auto. rewrite IH, Z.eqb_sym. reflexivity. Qed.
Lemma f32_sym a b : f32_eqb a b = f32_eqb b a.
Proof. unfold f32_eqb. rewrite (Z.eqb_sym a b), (andb_comm (f32_is_zero a)), (andb_comm (negb (f32_is_nan a))). reflexivity. Qed.
Lemma f64_sym a b : f64_eqb a b = f64_eqb b a.
Proof. unfold f64_eqb. rewrite (Z.eqb_sym a b), (andb_comm (f64_is_zero a)), (andb_comm (negb (f64_is_nan a))). reflexivity. Qed.
Lemma key_sym a : forall b, key_eqb a b = key_eqb b a.
Proof.
  induction a using gval_rect'; intros b0; destruct b0; cbn [key_eqb]; try reflexivity;
    try (rewrite (Z.eqb_sym t)); try (rewrite (Z.eqb_sym i)); try reflexivity; try (match goal with k : akind |- _ => destruct k; reflexivity end).
  - destruct b, b0; reflexivity.
  - rewrite f32_sym; reflexivity.
  - rewrite f64_sym; reflexivity.
  - rewrite ukind_sym, (Z.eqb_sym n); reflexivity.
  - rewrite ikind_sym, (Z.eqb_sym z); reflexivity.
  - rewrite zlist_sym; reflexivity.
  - destruct k, k0; try reflexivity. rewrite (Z.eqb_sym t). f_equal.
    revert l0. induction H as [|x l Hx Hl IH]; intros [|y l0]; try reflexivity. rewrite Hx. f_equal. apply IH.
Qed.
Lemma f32_trans a b c : f32_eqb a b = true -> f32_eqb b c = true -> f32_eqb a c = true.
Proof.
  unfold f32_eqb. rewrite !andb_true_iff, !orb_true_iff, !andb_true_iff, !Z.eqb_eq.
  intros [[A B] C] [[D E] F]. repeat split; auto. destruct C as [->|[C1 C2]], F as [<-|[F1 F2]]; auto.
Qed.
Lemma f64_trans a b c : f64_eqb a b = true -> f64_eqb b c = true -> f64_eqb a c = true.
Proof.
  unfold f64_eqb. rewrite !andb_true_iff, !orb_true_iff, !andb_true_iff, !Z.eqb_eq.
  intros [[A B] C] [[D E] F]. repeat split; auto. destruct C as [->|[C1 C2]], F as [<-|[F1 F2]]; auto.
Qed.
Lemma key_trans a : forall b c, key_eqb a b = true -> key_eqb b c = true -> key_eqb a c = true.
Proof.
  induction a using gval_rect'; intros b0 c0; destruct b0; cbn [key_eqb]; try discriminate;
    try (match goal with k : akind |- _ => destruct k; discriminate end);
    destruct c0; try discriminate; auto;
    try (match goal with k : akind, k' : akind |- _ => destruct k, k'; discriminate end); rewrite ?andb_true_iff, ?Z.eqb_eq.
  - rewrite !Bool.eqb_true_iff. intros [-> ->] [-> ->]; auto.
  - intros [-> A] [-> B]. split; auto. eapply f32_trans; eauto.
  - intros [-> A] [-> B]. split; auto. eapply f64_trans; eauto.
  - rewrite !ukind_eqb_eq. intros [[-> ->] ->] [[-> ->] ->]; auto.
  - rewrite !ikind_eqb_eq. intros [[-> ->] ->] [[-> ->] ->]; auto.
  - rewrite !zlist_eqb_eq. intros [-> ->] [-> ->]; auto.
  - destruct k, k0, k1; try discriminate. rewrite ?andb_true_iff, ?Z.eqb_eq. intros [-> A] [-> B]. split; auto.
    revert l0 l1 A B. induction H as [|x l Hx Hl IH]; intros [|y l0] [|z l1]; try discriminate; auto.
    rewrite !andb_true_iff. intros [A1 A2] [B1 B2]. split; [eapply Hx; eauto|eapply IH; eauto].
  - intros -> ->. reflexivity.
Qed.
Lemma key_same a b x : key_eqb a b = true -> key_eqb a x = key_eqb b x.
Proof.
  intros H. destruct (key_eqb a x) eqn:A, (key_eqb b x) eqn:B; auto.
  - rewrite key_sym in H. rewrite (key_trans _ _ _ H A) in B. discriminate.
  - rewrite (key_trans _ _ _ H B) in A. discriminate.
Qed.

(* ---- the run against the specification ---- *)
Definition has (d : sdata) (x : gval) : bool := existsb (fun y => key_eqb y x) d.

Lemma present_snoc x ops o : present x (ops ++ [o]) =
  if key_eqb (item o) x then match o with SAdd _ => true | SRemove _ => false end else present x ops.
Proof. unfold present. rewrite fold_left_app. reflexivity. Qed.
Lemma has_snoc d y x : has (d ++ [y]) x = has d x || key_eqb y x.
Proof. unfold has. rewrite existsb_app. cbn. rewrite orb_false_r. reflexivity. Qed.
Lemma has_key d x y : key_eqb x y = true -> has d x = has d y.
Proof. intros H. unfold has. induction d as [|z d IH]; cbn; auto. rewrite IH, (key_sym z x), (key_sym z y), (key_same _ _ z H). reflexivity. Qed.
Lemma has_del d y x : has (filter (fun z => negb (key_eqb z y)) d) x = if key_eqb y x then false else has d x.
Proof.
  unfold has. induction d as [|z d IH]; cbn; [destruct (key_eqb y x); reflexivity|].
  destruct (key_eqb z y) eqn:E; cbn; rewrite IH.
  - rewrite (key_same _ _ x E). destruct (key_eqb y x); reflexivity.
  - destruct (key_eqb y x) eqn:F; cbn; auto. destruct (key_eqb z x) eqn:G; auto.
    rewrite key_sym in F. rewrite (key_trans _ _ _ G F) in E. discriminate.
Qed.
Lemma copies_snoc d y x : copies x (d ++ [y]) = copies x d + if key_eqb y x then 1 else 0.
Proof. unfold copies. rewrite filter_app, app_length. cbn. destruct (key_eqb y x); cbn; lia. Qed.
Lemma copies_del d y x : copies x (filter (fun z => negb (key_eqb z y)) d) = if key_eqb y x then 0 else copies x d.
Proof.
  unfold copies. induction d as [|z d IH]; cbn; [destruct (key_eqb y x); reflexivity|].
  destruct (key_eqb z y) eqn:E; cbn.
  - rewrite IH, (key_same _ _ x E). destruct (key_eqb y x); reflexivity.
  - destruct (key_eqb z x) eqn:G; cbn; rewrite IH; destruct (key_eqb y x) eqn:F; auto.
    rewrite key_sym in F. rewrite (key_trans _ _ _ G F) in E. discriminate.
Qed.
Lemma copies_has d x : copies x d = 0 <-> has d x = false.
Proof.
  unfold copies, has. induction d as [|z d IH]; cbn; [tauto|]. destruct (key_eqb z x); cbn; [|exact IH].
  split; intros; discriminate.
Qed.
Lemma copies_perm x a b : Permutation a b -> copies x a = copies x b.
Proof. unfold copies. induction 1; cbn; auto; [destruct (key_eqb x0 x); cbn; congruence| |congruence]. destruct (key_eqb y x), (key_eqb x0 x); reflexivity. Qed.

Definition sinv (ops : list sop) (d : sdata) : Prop :=
  (forall x, has d x = present x ops) /\ (forall x, copies x d <= 1 \/ key_eqb x x = false) /\
  (forall y, In y d -> In (SAdd y) ops).

Lemma has_odd d x : key_eqb x x = false -> has d x = false.
Proof.
  intros H. unfold has. induction d as [|z d IH]; cbn; auto. rewrite IH, orb_false_r.
  destruct (key_eqb z x) eqn:E; auto. assert (F := E). rewrite key_sym in F. rewrite (key_trans _ _ _ F E) in H. discriminate.
Qed.
Lemma present_odd x ops : key_eqb x x = false -> present x ops = false.
Proof.
  intros H. induction ops as [|o ops IH] using rev_ind; [reflexivity|]. rewrite present_snoc.
  destruct (key_eqb (item o) x) eqn:E; auto. assert (F := E). rewrite key_sym in F. rewrite (key_trans _ _ _ F E) in H. discriminate.
Qed.
Lemma key_self a b : key_eqb a b = true -> key_eqb b b = true.
Proof. intros E. assert (F := E). rewrite key_sym in F. exact (key_trans _ _ _ F E). Qed.

Lemma op_step ops d o : sinv ops d -> hashable (item o) = true ->
  exists d', set_op d o = Some (match o with SAdd x => negb (present x ops) | SRemove x => present x ops end, d') /\ sinv (ops ++ [o]) d'.
Proof.
  intros (A & B & C) H. unfold set_op, set_add, set_remove, set_get. fold (has d).
  destruct o as [x|x]; cbn [item] in H; rewrite H; fold (has d x); rewrite (A x); destruct (present x ops) eqn:P; cbn [negb]; eexists; (split; [reflexivity|]).
  - repeat split; auto; intros y; [|intros Hy; apply in_or_app; auto]. rewrite present_snoc. cbn [item]. destruct (key_eqb x y) eqn:E; [|apply A].
    rewrite <- (has_key d x y E), A. exact P.
  - repeat split; intros y.
    + rewrite has_snoc, present_snoc, A. cbn [item]. destruct (key_eqb x y); [apply orb_true_r|apply orb_false_r].
    + rewrite copies_snoc. destruct (key_eqb x y) eqn:E; [|rewrite Nat.add_0_r; apply B].
      left. assert (Z : copies y d = 0) by (apply copies_has; rewrite <- (has_key d x y E), A; exact P). lia.
    + rewrite in_app_iff, in_app_iff. cbn. intros [Hy|[->|[]]]; auto.
  - repeat split; intros y.
    + rewrite has_del, present_snoc, A. reflexivity.
    + rewrite copies_del. destruct (key_eqb x y); [left; lia|apply B].
    + rewrite filter_In. intros [Hy _]. apply in_or_app; auto.
  - repeat split; auto; intros y; [|intros Hy; apply in_or_app; auto]. rewrite present_snoc. cbn [item]. destruct (key_eqb x y) eqn:E; [|apply A].
    rewrite <- (has_key d x y E), A. exact P.
Qed.

Definition answer (a : list sop) (o : sop) : bool := match o with SAdd x => negb (present x a) | SRemove x => present x a end.
Lemma run_from ops : forall pre d, sinv pre d -> Forall (fun o => hashable (item o) = true) ops ->
  exists bs d', set_run d ops = Some (bs, d') /\ sinv (pre ++ ops) d' /\ length bs = length ops /\
    forall a o b, ops = a ++ o :: b -> nth_error bs (length a) = Some (answer (pre ++ a) o).
Proof.
  induction ops as [|o ops IH]; intros pre d I F; cbn [set_run].
  - exists [], d. rewrite app_nil_r. split; [reflexivity|]. split; [exact I|]. split; [reflexivity|]. intros [|] ? ? X; discriminate X.
  - inversion_clear F as [|? ? Ho Fr]. destruct (op_step pre d o I Ho) as (d1 & E & I1). rewrite E.
    destruct (IH (pre ++ [o]) d1 I1 Fr) as (bs & d2 & R & I2 & L & N). rewrite R. eexists _, d2. split; [reflexivity|].
    rewrite <- app_assoc in I2. split; [exact I2|]. split; [cbn; congruence|].
    intros [|o' a] o1 b X; cbn in X; injection X as -> X; cbn [length nth_error app].
    + rewrite app_nil_r. reflexivity.
    + rewrite (N a o1 b X). rewrite <- app_assoc. reflexivity.
Qed.
Lemma sinv_init : sinv [] new_set.
Proof. split; [reflexivity|]. split; [intros; left; cbn; lia|intros y []]. Qed.

Lemma set_answers ops : Forall (fun o => hashable (item o) = true) ops ->
  exists bs d, set_run new_set ops = Some (bs, d) /\ length bs = length ops /\
    forall a o b, ops = a ++ o :: b -> nth_error bs (length a) = Some (match o with SAdd x => negb (present x a) | SRemove x => present x a end).
Proof. intros F. destruct (run_from ops [] new_set sinv_init F) as (bs & d & R & _ & L & N). eauto. Qed.

Lemma set_listing ops bs d out : Forall (fun o => ordinary (item o)) ops -> set_run new_set ops = Some (bs, d) -> to_slice d out ->
  (forall x, ordinary x -> copies x out = if present x ops then 1 else 0) /\ (forall y, In y out -> In (SAdd y) ops) /\
  (forall y, In y out -> present y ops = true).
Proof.
  intros F R P. assert (F' : Forall (fun o => hashable (item o) = true) ops) by (eapply Forall_impl; [|exact F]; intros ? [? ?]; auto).
  destruct (run_from ops [] new_set sinv_init F') as (bs' & d' & R' & (A & B & C) & _). rewrite R in R'. injection R' as <- <-. cbn [app] in *.
  split; [|split].
  - intros x [_ Hx]. rewrite (copies_perm x _ _ P). rewrite <- A. destruct (B x) as [L|L]; [|congruence].
    destruct (has d x) eqn:E; [|apply copies_has; exact E]. destruct (copies x d) eqn:Z; [apply copies_has in Z; congruence|lia].
  - intros y Hy. apply C. eapply Permutation_in; eauto.
  - intros y Hy. apply (Permutation_in _ P) in Hy. rewrite <- A. assert (S := C _ Hy). rewrite Forall_forall in F. apply F in S. destruct S as [_ S]. cbn in S.
    unfold has. apply existsb_exists. eauto.
Qed.

(* items not equal to themselves *)
Lemma odd_op d d' o b : set_op d o = Some (b, d') ->
  length (filter odd_item d') = length (filter odd_item d) + match o with SAdd x => if odd_item x then 1 else 0 | SRemove _ => 0 end.
Proof.
  unfold set_op, set_add, set_remove, set_get. fold (has d). destruct o as [x|x]; destruct (hashable x); try discriminate; fold (has d x);
    destruct (has d x) eqn:H; intros E; injection E as <- <-; try lia.
  - unfold odd_item at 3. destruct (key_eqb x x) eqn:E; cbn [negb]; [lia|]. rewrite (has_odd d x E) in H. discriminate.
  - rewrite filter_app, app_length. cbn. destruct (odd_item x); reflexivity.
  - rewrite Nat.add_0_r. f_equal. clear H. induction d as [|y d IH]; cbn; auto. destruct (key_eqb y x) eqn:E; cbn.
    + unfold odd_item at 2. assert (F : key_eqb y y = true) by (rewrite key_sym in E; eapply key_self; eauto). rewrite F. exact IH.
    + destruct (odd_item y); [f_equal|]; exact IH.
Qed.
Lemma odd_count ops : forall d bs d', set_run d ops = Some (bs, d') ->
  length (filter odd_item d') = length (filter odd_item d) + length (filter (fun o => match o with SAdd x => odd_item x | SRemove _ => false end) ops).
Proof.
  induction ops as [|o ops IH]; intros d bs d'; cbn [set_run]; [intros E; injection E as <- <-; cbn; lia|].
  destruct (set_op d o) as [[b d1]|] eqn:E; [|discriminate]. destruct (set_run d1 ops) as [[bs1 d2]|] eqn:R; [|discriminate].
  intros X; injection X as <- <-. rewrite (IH _ _ _ R), (odd_op _ _ _ _ E). cbn [filter]. destruct o as [x|x]; [destruct (odd_item x)|]; cbn; lia.
Qed.
Lemma perm_filter {A} (p : A -> bool) a b : Permutation a b -> length (filter p a) = length (filter p b).
Proof. induction 1; cbn; auto; [destruct (p x); cbn; congruence| |congruence]. destruct (p y), (p x); reflexivity. Qed.
Lemma odd_never_found ops x : Forall (fun o => hashable (item o) = true) ops -> hashable x = true -> key_eqb x x = false ->
  exists bs d d', set_run new_set ops = Some (bs, d) /\ set_op d (SAdd x) = Some (true, d') /\ set_op d (SRemove x) = Some (false, d).
Proof.
  intros F H E. destruct (run_from ops [] new_set sinv_init F) as (bs & d & R & (A & _) & _).
  exists bs, d. unfold set_op, set_add, set_remove, set_get. rewrite H. fold (has d x). rewrite A, (present_odd _ _ E). eauto.
Qed.
Lemma odd_listing ops bs d out : set_run new_set ops = Some (bs, d) -> to_slice d out ->
  length (filter odd_item out) = length (filter (fun o => match o with SAdd x => odd_item x | SRemove _ => false end) ops).
Proof. intros R P. rewrite (perm_filter _ _ _ P), (odd_count _ _ _ _ R). reflexivity. Qed.
Lemma unhashable_panics a o b : hashable (item o) = false -> forall d, set_run d (a ++ o :: b) = None.
Proof.
  intros H. induction a as [|o' a IH]; intros d; cbn [app set_run].
  - unfold set_op, set_add, set_remove, set_get. destruct o as [x|x]; cbn in H; rewrite H; reflexivity.
  - destruct (set_op d o') as [[b' d1]|]; auto. rewrite IH. reflexivity.
Qed.
