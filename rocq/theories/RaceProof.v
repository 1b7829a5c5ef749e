(* C68: mutexes guard what they are meant to guard. *)
From Verif Require Import RaceModel RaceSpec.

(* How a location is protected: not at all, by a mutex, by never being written. *)
Inductive guard := Free | By (m : lock) | Never.

Section Discipline.
Variables (allowed : fn -> Prop) (need : loc -> guard).

(* [a], started holding [h] (at most one mutex), ends holding [h']. *)
Fixpoint ok (a : stm) (h h' : option lock) : Prop :=
  match a with
  | Skip => h' = h
  | Rd x => h' = h /\ match need x with By m => h = Some m | _ => True end
  | Wr x => h' = h /\ match need x with By m => h = Some m | Free => True | Never => False end
  | Lk m => h = None /\ h' = Some m
  | Un m => h = Some m /\ h' = None
  | Go f => h' = h /\ allowed f
  | Seq b c => exists g, ok b h g /\ ok c g h'
  | Alt b c => ok b h h' /\ ok c h h'
  | Star b => h' = h /\ ok b h h
  | Any f => forall n, ok (f n) h h'
  end.
Fixpoint oks (k : list stm) (h : option lock) : Prop :=
  match k with [] => h = None | a :: r => exists g, ok a h g /\ oks r g end.

Definition inv (s : st) : Prop :=
  (forall t k, nth_error (threads s) t = Some k -> exists h, oks k h /\ forall m, held s m = Some t <-> h = Some m) /\
  forall m t, held s m = Some t -> t < length (threads s).

Lemma nth_put_same ts t k k0 : nth_error ts t = Some k0 -> nth_error (put ts t k) t = Some k.
Proof. revert t. induction ts as [|x ts IH]; intros [|t]; cbn; try discriminate; auto. Qed.
Lemma nth_put_other ts t k u : t <> u -> nth_error (put ts t k) u = nth_error ts u.
Proof. revert t u. induction ts as [|x ts IH]; intros [|t] [|u] N; cbn; auto; congruence. Qed.
Lemma put_length ts t k : length (put ts t k) = length ts.
Proof. revert t. induction ts as [|x ts IH]; intros [|t]; cbn; auto. Qed.
Lemma set_same l m v : set_lock l m v m = v.
Proof. unfold set_lock. destruct (lock_eq m m); congruence. Qed.
Lemma set_other l m v m' : m <> m' -> set_lock l m v m' = l m'.
Proof. unfold set_lock. destruct (lock_eq m m'); congruence. Qed.

Hypothesis bodies : forall f, allowed f -> ok (body f) None None.

(* a step of t that leaves the mutexes *)
Lemma inv_go s t k k' h : inv s -> nth_error (threads s) t = Some k -> (forall m, held s m = Some t <-> h = Some m) -> oks k' h ->
  inv (mkSt (put (threads s) t k') (held s)).
Proof.
  intros [I J] E H O. split; cbn; [|intros m u; rewrite put_length; apply J].
  intros u k0. destruct (Nat.eq_dec t u) as [<-|N]; [|rewrite nth_put_other by exact N; apply I].
  rewrite (nth_put_same _ _ _ _ E). intros [= <-]. eauto.
Qed.

Lemma inv_step s l s' : inv s -> rstep s l = Some s' -> inv s'.
Proof.
  intros Hi. destruct l as [t n]. unfold rstep. destruct (nth_error (threads s) t) as [[|a k]|] eqn:E; try discriminate.
  pose proof Hi as [I J]. destruct (I _ _ E) as (h & (g & Oa & Ok) & H).
  destruct a; cbn in Oa; intros X.
  - injection X as <-. subst g. eapply inv_go; eauto.
  - injection X as <-. destruct Oa as [-> _]. eapply inv_go; eauto.
  - injection X as <-. destruct Oa as [-> _]. eapply inv_go; eauto.
  - destruct (held s m) eqn:Em; [discriminate|]. injection X as <-. destruct Oa as [-> ->]. split; cbn.
    + intros u k0. destruct (Nat.eq_dec t u) as [<-|N].
      * rewrite (nth_put_same _ _ _ _ E). intros [= <-]. exists (Some m). split; [exact Ok|]. intros m'. destruct (lock_eq m m') as [<-|Nm].
        -- rewrite set_same. tauto.
        -- rewrite set_other by auto. rewrite H. split; [discriminate|congruence].
      * rewrite nth_put_other by exact N. intros Eu. destruct (I _ _ Eu) as (hu & Ou & Hu). exists hu. split; [exact Ou|]. intros m'. destruct (lock_eq m m') as [<-|Nm].
        -- rewrite set_same. rewrite <- Hu, Em. split; intros X; [congruence|discriminate].
        -- rewrite set_other by auto. apply Hu.
    + intros m' u. rewrite put_length. destruct (lock_eq m m') as [<-|Nm]; [rewrite set_same|rewrite set_other by auto; apply J].
      intros [= <-]. apply nth_error_Some. congruence.
  - injection X as <-. destruct Oa as [-> ->]. split; cbn.
    + intros u k0. destruct (Nat.eq_dec t u) as [<-|N].
      * rewrite (nth_put_same _ _ _ _ E). intros [= <-]. exists None. split; [exact Ok|]. intros m'. destruct (lock_eq m m') as [<-|Nm].
        -- rewrite set_same. split; discriminate.
        -- rewrite set_other by auto. rewrite H. split; congruence.
      * rewrite nth_put_other by exact N. intros Eu. destruct (I _ _ Eu) as (hu & Ou & Hu). exists hu. split; [exact Ou|]. intros m'. destruct (lock_eq m m') as [<-|Nm].
        -- rewrite set_same. rewrite <- Hu. destruct (H m) as [_ Ht]. rewrite Ht by reflexivity. split; congruence.
        -- rewrite set_other by auto. apply Hu.
    + intros m' u. rewrite put_length. destruct (lock_eq m m') as [<-|Nm]; [rewrite set_same; discriminate|rewrite set_other by auto; apply J].
  - injection X as <-. destruct Oa as [-> Af]. destruct (inv_go _ _ _ _ _ Hi E H Ok) as [I' J']. cbn in I', J'. split; cbn.
    + intros u k0 Eu. destruct (Nat.lt_ge_cases u (length (put (threads s) t k))) as [L|L].
      * rewrite nth_error_app1 in Eu by exact L. eauto.
      * rewrite nth_error_app2 in Eu by exact L. destruct (u - length (put (threads s) t k)) as [|v] eqn:Ev; cbn in Eu; [|destruct v; discriminate].
        injection Eu as <-. exists None. cbn. split; [exists None; auto|]. intros m. split; [|discriminate].
        intros Hm. apply J' in Hm. lia.
    + intros m u Hm. apply J' in Hm. rewrite app_length. lia.
  - injection X as <-. destruct Oa as (g' & O1 & O2). eapply inv_go; eauto. cbn. eauto.
  - injection X as <-. destruct Oa as (O1 & O2). eapply inv_go; eauto. cbn. destruct n; eauto.
  - injection X as <-. destruct Oa as (-> & O2). eapply inv_go; eauto. cbn. destruct n; cbn; eauto 6.
  - injection X as <-. eapply inv_go; eauto. cbn. eauto.
Qed.

Lemma inv_start fs : Forall allowed fs -> inv (start fs).
Proof.
  intros A. split; cbn; [|discriminate]. intros t k E. exists None. split; [|intros m; split; discriminate].
  rewrite nth_error_map in E. destruct (nth_error fs t) as [f|] eqn:Ef; [|discriminate]. injection E as <-.
  cbn. exists None. split; [|reflexivity]. apply bodies. rewrite Forall_forall in A. eauto using nth_error_In.
Qed.
Lemma inv_reach fs ls s : Forall allowed fs -> exec rstep (start fs) ls = Some s -> inv s.
Proof. intros A. apply exec_inv; [exact inv_step|apply inv_start, A]. Qed.

Lemma no_race s x : inv s -> need x <> Free -> ~ race s x.
Proof.
  intros [I _] N (t & u & w & Ntu & (k & Et) & (k' & Eu)).
  destruct (I _ _ Et) as (h & (g & Oa & _) & H), (I _ _ Eu) as (h' & (g' & Oa' & _) & H').
  cbn in Oa. destruct Oa as [_ Oa]. destruct (need x) as [|m|] eqn:En; [congruence| |tauto].
  assert (h' = Some m) as -> by (destruct w; cbn in Oa'; rewrite En in Oa'; tauto). subst h.
  destruct (H m) as [_ X], (H' m) as [_ Y]. rewrite X in Y by reflexivity. specialize (Y eq_refl). congruence.
Qed.

(* The holder of a mutex can release it by itself. *)
Fixpoint size (a : stm) : nat :=
  match a with
  | Seq b c => 1 + size b + size c
  | Alt b _ => 1 + size b
  | Any f => 1 + size (f 0)
  | _ => 1
  end.
Fixpoint sizes (k : list stm) : nat := match k with [] => 0 | a :: r => size a + sizes r end.
Lemma release s u m : inv s -> held s m = Some u -> exists n s', exec rstep s (repeat (u, 0) n) = Some s' /\ held s' m = None.
Proof.
  intros Hi Hm. pose proof Hi as [_ J]. apply J in Hm as L. apply nth_error_Some in L.
  destruct (nth_error (threads s) u) as [k|] eqn:E; [|congruence]. clear L J. remember (sizes k) as z eqn:Ez.
  revert s k Hi Hm E Ez. induction z as [z IH] using (well_founded_induction lt_wf). intros s k Hi Hm E Ez.
  pose proof Hi as [I J]. destruct (I _ _ E) as (h & O & H). destruct (H m) as [Hh _]. specialize (Hh Hm). subst h.
  destruct k as [|a k]; [cbn in O; discriminate|]. destruct O as (g & Oa & Ok).
  destruct (rstep s (u, 0)) as [s1|] eqn:Es; [|exfalso; unfold rstep in Es; rewrite E in Es; destruct a; try discriminate; cbn in Oa; destruct Oa; discriminate].
  pose proof (inv_step _ _ _ Hi Es) as Hi1.
  assert (D : held s1 m = None \/ held s1 m = Some u /\ exists k1, nth_error (threads s1) u = Some k1 /\ sizes k1 < z).
  { unfold rstep in Es. rewrite E in Es. rewrite Ez. destruct a; cbn in Oa.
    - injection Es as <-. right. cbn. split; [exact Hm|]. exists k. rewrite (nth_put_same _ _ _ _ E). split; [reflexivity|lia].
    - injection Es as <-. right. cbn. split; [exact Hm|]. exists k. rewrite (nth_put_same _ _ _ _ E). split; [reflexivity|lia].
    - injection Es as <-. right. cbn. split; [exact Hm|]. exists k. rewrite (nth_put_same _ _ _ _ E). split; [reflexivity|lia].
    - destruct Oa; discriminate.
    - injection Es as <-. left. destruct Oa as [[= <-] _]. cbn. apply set_same.
    - injection Es as <-. right. cbn. split; [exact Hm|]. exists k.
      rewrite nth_error_app1 by (rewrite put_length; apply nth_error_Some; congruence).
      rewrite (nth_put_same _ _ _ _ E). split; [reflexivity|lia].
    - injection Es as <-. right. cbn. split; [exact Hm|]. eexists. rewrite (nth_put_same _ _ _ _ E). split; [reflexivity|cbn; lia].
    - injection Es as <-. right. cbn. split; [exact Hm|]. eexists. rewrite (nth_put_same _ _ _ _ E). split; [reflexivity|cbn; lia].
    - injection Es as <-. right. cbn. split; [exact Hm|]. eexists. rewrite (nth_put_same _ _ _ _ E). split; [reflexivity|cbn; lia].
    - injection Es as <-. right. cbn. split; [exact Hm|]. eexists. rewrite (nth_put_same _ _ _ _ E). split; [reflexivity|cbn; lia]. }
  destruct D as [D|(D & k1 & E1 & L1)].
  - exists 1, s1. split; [|exact D]. unfold repeat, exec. rewrite Es. reflexivity.
  - destruct (IH _ L1 _ _ Hi1 D E1 eq_refl) as (n & s2 & X & Y). exists (S n), s2. split; [|exact Y]. simpl repeat. unfold exec. rewrite Es. exact X.
Qed.
End Discipline.

(* The functions, first with ferry.Close, then without. *)
Definition need_all (x : loc) : guard :=
  match x with DRemote d => By (LRemote d) | Done r => By (LReq r) | Registry => Never | _ => Free end.
Definition need_open (x : loc) : guard :=
  match x with
  | HDocks h => By (LDocks h) | HPorts h => By (LPorts h) | HBlack _ | DSlots _ | PSink _ => Never
  | x => need_all x
  end.
Definition open_fn (f : fn) : Prop := f <> FClose.

Ltac tree := repeat first [progress intros | match goal with
  | |- exists g, _ /\ _ => eexists
  | |- _ /\ _ => split
  | |- True => exact I
  | |- _ = _ => reflexivity
  | |- open_fn _ => discriminate
  | |- match ?o with OHub _ => _ | ODock _ => _ end => destruct o
  end | progress cbn].
Lemma bodies_all f : True -> ok (fun _ => True) need_all (body f) None None.
Proof. intros _. destruct f as [| | | | | |[] |  |[] | | | | | ]; cbn; tree. Qed.
Lemma bodies_open f : open_fn f -> ok open_fn need_open (body f) None None.
Proof. intros A. destruct f as [| | | | | |[] |  |[] | | | | | ]; cbn; try (exfalso; apply A; reflexivity); tree. Qed.
