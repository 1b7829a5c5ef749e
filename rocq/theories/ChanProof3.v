(* Lemmas for chancall: timeouts, and requests stuck behind a running method. *)
From Verif Require Import Lts GoInt GoFloat ChanModel ChanSpec ChanProof ChanProof2.
From Coq Require Import Arith Bool.
Open Scope nat_scope.

Section Proof.
Context {O V : Type} (T : target O V).
Implicit Types (s : chan O V).

(* --- C28 --- *)
(* the earliest time at which the timer of r can fire, by the history *)
Definition due (h : list (event V)) (r : nat) (u : Z) : Prop :=
  exists t0 x, In (EStart r t0 x) h /\ (t0 + Z.max 0 (sleep_ns x) <= u)%Z.
Record timed s : Prop := {
  t_started : forall r ns, timer s r = TStarted ns -> exists t0 x, In (EStart r t0 x) (hist s) /\ ns = sleep_ns x /\ (t0 <= now s)%Z;
  t_asleep : forall r u, timer s r = TAsleep u -> due (hist s) r u;
  t_crit : forall r, timer s r = TLocked \/ timer s r = TSet \/ timer s r = TSend -> due (hist s) r (now s);
  t_answer : forall r m t, In (ERespond r (ATimeout m) t) (hist s) -> due (hist s) r t }.
Lemma due_mono h h' r u u' : due h r u -> (u <= u')%Z -> due (h ++ h') r u'.
Proof. intros (t0 & x & A & B) H. exists t0, x. rewrite in_app_iff. split; [tauto|lia]. Qed.
Lemma due_later h r u u' : due h r u -> (u <= u')%Z -> due h r u'.
Proof. intros (t0 & x & A & B) H. exists t0, x. split; [exact A|lia]. Qed.
Lemma started_mono (h h' : list (event V)) r ns n :
  (exists t0 x, In (EStart r t0 x) h /\ ns = sleep_ns x /\ (t0 <= n)%Z) -> exists t0 x, In (EStart r t0 x) (h ++ h') /\ ns = sleep_ns x /\ (t0 <= n)%Z.
Proof. intros (t0 & x & A & B). exists t0, x. rewrite in_app_iff. tauto. Qed.

Lemma timed_step s l s' : timed s -> cstep T s l = Some s' -> timed s'.
Proof.
  intros [T1 T2 T3 T4] H.
  assert (T4' : forall h' r m t, In (ERespond r (ATimeout m) t) h' -> In (ERespond r (ATimeout m) t) (hist s) -> due (hist s ++ h') r t).
  { intros h' r m t _ Y. eapply due_mono; [apply (T4 _ _ _ Y)|lia]. }
  assert (K : forall r, timer s r = TLocked \/ timer s r = TSet \/ timer s r = TSend -> forall e, due (hist s ++ e) r (now s)).
  { intros r Y e. eapply due_mono; [apply T3; exact Y|lia]. }
  destruct l; steps H; try (constructor; proj; assumption).
  1: { constructor; proj; auto. - intros r ns Y. destruct (T1 _ _ Y) as (t0 & x & A & D & E1). exists t0, x. repeat split; auto.
         apply Z.ltb_lt in E0. lia.
       - intros r Y. eapply due_later; [apply T3; exact Y|]. apply Z.ltb_lt in E0. lia. }
  all: constructor; proj; auto.
  all: try (intros r0 ns0 Y; apply started_mono; apply T1; exact Y).
  all: try (intros r0 u0 Y; eapply due_mono; [apply T2; exact Y|lia]).
  all: try (intros r0 m0 t0; rewrite in_app_iff; intros [Y|[Y|[]]]; [eapply due_mono; [eapply T4; exact Y|lia]|]; try discriminate Y).
  all: try (intros r0; intros; unfold upd in *; match goal with Y : context [?y =? ?n] |- _ => destruct (Nat.eqb_spec y n) end;
    [subst; try discriminate; intuition discriminate|first [solve [eauto]|solve [apply started_mono; eauto]|solve [eapply due_mono; [eauto|lia]]]]; fail).
  - intros r ns Y. unfold upd in Y. destruct (Nat.eqb_spec r n); [|apply started_mono; auto].
    subst. injection Y as <-. do 2 eexists. rewrite in_app_iff. split; [right; left; reflexivity|]. split; [reflexivity|lia].
  - intros r0 u Y. unfold upd in Y. destruct (Nat.eqb_spec r0 r); [|auto]. subst. injection Y as <-.
    destruct (T1 _ _ E0) as (t0 & x & A & D & F). subst. exists t0, x. split; [exact A|lia].
  - intros r0 Y. unfold upd in Y. destruct (Nat.eqb_spec r0 r); [|auto]. subst.
    apply andb_true_iff in E1. destruct E1 as [E1 _]. apply Z.leb_le in E1. eapply due_later; [apply T2; exact E0|exact E1].
  - intros r0 Y. unfold upd in Y. destruct (Nat.eqb_spec r0 r); [|auto]. subst. apply T3. tauto.
  - intros r0 Y. unfold upd in Y. destruct (Nat.eqb_spec r0 r); [|auto]. subst. apply T3. tauto.
  - injection Y as <- <- <-. eapply due_mono; [apply T3; tauto|lia].
Qed.
Lemma timed_init o : timed (new_chan o : chan O V).
Proof. constructor; cbn; intros; try discriminate; try tauto. intuition discriminate. Qed.
Lemma timed_exec o ls s : exec (cstep T) (new_chan o) ls = Some s -> timed s.
Proof. apply exec_inv; [apply timed_step|apply timed_init]. Qed.

Lemma in_started (r : nat) t x (h : list (event V)) : In (EStart r t x) h -> In r (started h).
Proof. intros H. unfold started. rewrite in_flat_map. eexists. split; [exact H|]. left. reflexivity. Qed.
Lemma start_unique (h : list (event V)) : NoDup (started h) -> forall r t x t' x', In (EStart r t x) h -> In (EStart r t' x') h -> t = t' /\ x = x'.
Proof.
  induction h as [|e h IH]; intros N r t x t' x' A B; [destruct A|].
  assert (N' : NoDup (started h)). { destruct e; cbn in N; auto. inversion N; assumption. }
  destruct A as [->|A], B as [B|B].
  - injection B as <- <-. auto.
  - exfalso. cbn in N. inversion N. subst. apply H1. eapply in_started. exact B.
  - subst. exfalso. cbn in N. inversion N. subst. apply H1. eapply in_started. exact A.
  - eapply IH; eauto.
Qed.
Lemma nodup_app_l {A} (a b : list A) : NoDup (a ++ b) -> NoDup a.
Proof. induction a; cbn; intros H; constructor; inversion H; subst; auto. rewrite in_app_iff in *. tauto. Qed.
Lemma started_nodup o ls s : exec (cstep T) (new_chan o) ls = Some s -> NoDup (started (hist s)).
Proof. intros H. destruct (arrival_order T _ _ _ H) as (rest & E & N). rewrite E in N. eapply nodup_app_l; exact N. Qed.

Lemma timeout_sleep o ls s r m t t0 x : exec (cstep T) (new_chan o) ls = Some s ->
  In (ERespond r (ATimeout m) t) (hist s) -> In (EStart r t0 x) (hist s) -> (t0 + Z.max 0 (sleep_ns x) <= t)%Z.
Proof.
  intros H A B. destruct (t_answer _ (timed_exec _ _ _ H) _ _ _ A) as (t1 & x1 & C & D).
  destruct (start_unique _ (started_nodup _ _ _ H) _ _ _ _ _ B C). subst. exact D.
Qed.

(* SetTimeout *)
Lemma setting_exec o ls : forall s, exec (cstep T) (new_chan o) ls = Some s -> forall m, known T m = true -> settings s m = setting ls m.
Proof.
  induction ls as [|l ls IH] using rev_ind; intros s H m Km; [injection H as <-; reflexivity|].
  apply exec_split in H. destruct H as (mm & H1 & H2). cbn in H2. destruct (cstep T mm l) eqn:E; [|discriminate]. injection H2 as <-.
  unfold setting. rewrite fold_left_app. cbn. fold (setting ls m). rewrite <- (IH _ H1 m Km).
  destruct l; steps E; auto.
  - unfold upd. rewrite Nat.eqb_sym. destruct (_ =? _); reflexivity.
  - destruct (Nat.eqb_spec m0 m); [congruence|reflexivity].
Qed.
Lemma pick_setting o ls s : exec (cstep T) (new_chan o) (ls ++ [LPick]) = Some s ->
  exists h r t g c m args, hist s = h ++ [EStart r t (if known T m then setting ls m else 0x3f800000%Z)] /\ In (EIssue r g c m args) h.
Proof.
  intros H. apply exec_split in H. destruct H as (mm & H1 & H2). cbn [exec] in H2. destruct (cstep T mm LPick) eqn:E; [|discriminate]. injection H2 as <-.
  destruct (whole_exec T _ _ _ H1) as ((B & _ & _) & I & _). steps E.
  do 7 eexists. split; [|apply (i_in _ I); apply (b_queue _ B); match goal with Q : queue _ = _ |- _ => rewrite Q end; left; reflexivity].
  unfold timeout_of. destruct (known T (rq_method (reqs mm n))) eqn:K; [|reflexivity]. rewrite (setting_exec _ _ _ H1 _ K). reflexivity.
Qed.

(* a zero sleep fires at once *)
Lemma zero_timeout o ls s r q : exec (cstep T) (new_chan o) ls = Some s -> crashed s = false -> one_goroutine_per_caller ls ->
  handler s = HIdle -> queue s = r :: q -> (sleep_ns (timeout_of T s (rq_method (reqs s r))) <= 0)%Z ->
  exists s', exec (cstep T) s [LPick; TSleep r; TLock r; TCheck r; TDone r; TRespond r] = Some s' /\ now s' = now s /\
    answers r (hist s') = [ATimeout (rq_method (reqs s r))] /\ handler s' = HRun r.
Proof.
  intros H C D Eh Eq Hz. destruct (good_exec T _ _ _ H) as (B & F & L). destruct (own_exec T _ _ _ H D) as [W _].
  destruct (queued_not_started s r F) as [Ns Tn]; [rewrite Eq; left; reflexivity|].
  pose proof (l_lock _ L r) as L1. pose proof (l_done _ L r) as L2. rewrite Eh, Tn in *. cbn in L1, L2.
  assert (A : answers r (hist s) = []).
  { destruct (answers r (hist s)) eqn:EA; [reflexivity|]. exfalso.
    assert (X : In a (answers r (hist s))) by (rewrite EA; left; reflexivity).
    apply answers_in in X. destruct X as [t Ht].
    destruct a.
    - destruct (p_answer _ (paid_exec T _ _ _ H) _ _ _ Ht) as [_ X].
      apply Ns. destruct (serial_execution T _ _ _ H) as (cur & _ & ->). rewrite in_app_iff. left.
      apply in_map_iff. exists (r, l0). split; [reflexivity|]. unfold ended. rewrite in_flat_map. eexists. split; [exact X|]. left. reflexivity.
    - destruct (t_answer _ (timed_exec _ _ _ H) _ _ _ Ht) as (t1 & x1 & X & _). apply Ns. eapply in_started. exact X. }
  rewrite A in L2. cbn in L2.
  assert (Dn : rq_done (reqs s r) = false) by (destruct (rq_done (reqs s r)); [discriminate L2|reflexivity]).
  assert (Lk : rq_locked (reqs s r) = false) by (destruct (rq_locked (reqs s r)); [discriminate L1|reflexivity]).
  assert (Cr : responses s (rq_caller (reqs s r)) = []).
  { destruct (responses s (rq_caller (reqs s r))) as [|(p, a) rest] eqn:E; [reflexivity|]. exfalso.
    destruct (o_chan _ W (rq_caller (reqs s r)) p a) as (D1 & D2 & D3); [rewrite E; left; reflexivity|].
    assert (Hr : r < nreqs s) by (apply (b_queue _ B); rewrite Eq; left; reflexivity).
    pose proof (o_open _ W r Hr A) as X.
    assert (rq_gor (reqs s p) = rq_gor (reqs s r)) as Eg. { apply (o_excl _ W _ _ p r); unfold active in *; [rewrite D2|..]; auto. }
    unfold active in X. rewrite <- Eg, D2 in X. injection X as ->. rewrite A in D3. destruct D3. }
  eexists. split.
  - cbn [exec]. unfold cstep at 1. rewrite C, Eh, Eq. cbn [exec].
    unfold cstep at 1. proj. rewrite C, upd_same. cbn [exec].
    unfold cstep at 1. proj. rewrite C, upd_same. rewrite Lk. rewrite Z.max_l by exact Hz. rewrite Z.add_0_r, Z.leb_refl. cbn [andb negb].
    unfold cstep at 1. proj. rewrite C, upd_same. rewrite upd_same. proj. rewrite Dn.
    unfold cstep at 1. proj. rewrite C, upd_same.
    unfold cstep at 1. proj. rewrite C, upd_same. unfold can_respond. proj. rewrite !upd_same. proj. rewrite Cr. cbn. reflexivity.
  - proj. split; [reflexivity|]. split; [|reflexivity].
    rewrite !answers_app, A. cbn. rewrite Nat.eqb_refl, ?upd_same. reflexivity.
Qed.

(* --- C29 --- *)
Lemma stuck_step s l s' r : good s -> handler s = HRun r -> l <> LEnd -> cstep T s l = Some s' ->
  handler s' = HRun r /\ started (hist s') = started (hist s) /\
  forall q, ~ In q (started (hist s)) -> answers q (hist s') = answers q (hist s).
Proof.
  intros (B & F & L) Hh Hl H.
  destruct l; try congruence; steps H; try (rewrite Hh in *; congruence).
  all: rewrite ?started_app; cbn [started flat_map]; rewrite ?app_nil_r; split; [assumption|]; split; [reflexivity|].
  all: intros q Hq; rewrite ?answers_app; cbn [answers flat_map app]; rewrite ?app_nil_r; auto.
  destruct (Nat.eqb_spec r0 q); [|apply app_nil_r]. subst. exfalso. apply Hq. apply (f_timer _ F). rewrite E0. discriminate.
Qed.
Lemma stuck_exec ls : forall s s' r, good s -> handler s = HRun r -> ~ In LEnd ls -> exec (cstep T) s ls = Some s' ->
  handler s' = HRun r /\ started (hist s') = started (hist s) /\
  forall q, ~ In q (started (hist s)) -> answers q (hist s') = answers q (hist s).
Proof.
  induction ls as [|l ls IH]; intros s s' r G Hh Hl H; cbn in H; [injection H as <-; auto|].
  destruct (cstep T s l) as [m|] eqn:E; [|discriminate].
  assert (Nl : l <> LEnd) by (intros X; apply Hl; left; exact X).
  assert (Nl2 : ~ In LEnd ls) by (intros X; apply Hl; right; exact X).
  destruct (stuck_step _ _ _ r G Hh Nl E) as (A1 & A2 & A3).
  destruct (IH m s' r (good_step T _ _ _ G E) A1 Nl2 H) as (B1 & B2 & B3).
  rewrite <- A2. split; [exact B1|]. split; [exact B2|]. intros q Hq. rewrite B3 by exact Hq. apply A3. rewrite <- A2. exact Hq.
Qed.
Lemma unstarted_unanswered o ls s q : exec (cstep T) (new_chan o) ls = Some s -> ~ In q (started (hist s)) -> answers q (hist s) = [].
Proof.
  intros H Ns. destruct (answers q (hist s)) eqn:EA; [reflexivity|]. exfalso.
  assert (X : In a (answers q (hist s))) by (rewrite EA; left; reflexivity).
  apply answers_in in X. destruct X as [t Ht]. destruct a.
  - destruct (p_answer _ (paid_exec T _ _ _ H) _ _ _ Ht) as [_ X].
    apply Ns. destruct (serial_execution T _ _ _ H) as (cur & _ & ->). rewrite in_app_iff. left.
    apply in_map_iff. exists (q, l0). split; [reflexivity|]. unfold ended. rewrite in_flat_map. eexists. split; [exact X|]. left. reflexivity.
  - destruct (t_answer _ (timed_exec _ _ _ H) _ _ _ Ht) as (t1 & x1 & X & _). apply Ns. eapply in_started. exact X.
Qed.
Lemma stuck_behind o ls1 ls2 s1 s2 r : exec (cstep T) (new_chan o) ls1 = Some s1 -> handler s1 = HRun r ->
  exec (cstep T) s1 ls2 = Some s2 -> ~ In LEnd ls2 ->
  started (hist s2) = started (hist s1) /\ forall q, ~ In q (started (hist s1)) -> answers q (hist s2) = [].
Proof.
  intros H1 Hh H2 N. destruct (stuck_exec ls2 s1 s2 r (good_exec T _ _ _ H1) Hh N H2) as (_ & A & B).
  split; [exact A|]. intros q Hq. rewrite B by exact Hq. eapply unstarted_unanswered; eauto.
Qed.
End Proof.

(* --- truncation of float32 settings --- *)
Open Scope Z_scope.
Lemma truncated_unique b k k' : truncated b k -> truncated b k' -> k = k'.
Proof.
  unfold truncated. intros (A & P & N) (A' & P' & N').
  assert (0 < 2 ^ 1074) by (apply Z.pow_pos_nonneg; lia).
  assert (Z.abs k < Z.abs k' + 1) by nia. assert (Z.abs k' < Z.abs k + 1) by nia.
  destruct (Z.le_ge_cases 0 (f32_scaled b)) as [C|C].
  - specialize (P C). specialize (P' C). lia.
  - specialize (N C). specialize (N' C). lia.
Qed.
Lemma f32_trunc_spec b : in_u 32 b -> f32_finite b -> truncated b (f32_trunc b).
Proof.
  intros Hb Hf. destruct (f32_decompose b Hb) as (_ & Hs & He & Hm). unfold f32_finite in Hf.
  unfold truncated, f32_trunc, f32_scaled.
  set (M := if f32_exp b =? 0 then f32_man b else f32_man b + 2 ^ 23).
  set (E := if f32_exp b =? 0 then -149 else f32_exp b - 150).
  assert (HM : 0 <= M) by (unfold M; destruct (_ =? _); lia).
  assert (HE : -149 <= E <= 104) by (unfold E; destruct (Z.eqb_spec (f32_exp b) 0); lia).
  replace (if f32_exp b =? 0 then f32_man b * 2 ^ (1074 - 149) else (f32_man b + 2 ^ 23) * 2 ^ (f32_exp b - 150 + 1074))
    with (M * 2 ^ (E + 1074)) by (unfold M, E; destruct (_ =? _); reflexivity).
  set (a := if 0 <=? E then M * 2 ^ E else M / 2 ^ - E).
  assert (P : 0 < 2 ^ 1074) by (apply Z.pow_pos_nonneg; lia).
  assert (Ha : 0 <= a /\ a * 2 ^ 1074 <= M * 2 ^ (E + 1074) < (a + 1) * 2 ^ 1074).
  { unfold a. destruct (Z.leb_spec 0 E).
    - assert (0 < 2 ^ E) by (apply Z.pow_pos_nonneg; lia). rewrite Z.pow_add_r by lia. nia.
    - set (d := 2 ^ - E). assert (Hd : 0 < d) by (apply Z.pow_pos_nonneg; lia).
      assert (X : 2 ^ 1074 = d * 2 ^ (E + 1074)) by (unfold d; rewrite <- Z.pow_add_r by lia; f_equal; lia).
      assert (0 < 2 ^ (E + 1074)) by (apply Z.pow_pos_nonneg; lia).
      rewrite X. pose proof (Z.div_mod M d ltac:(lia)). pose proof (Z.mod_pos_bound M d Hd).
      split; [apply Z.div_pos; lia|]. nia. }
  generalize dependent (2 ^ 1074). generalize dependent (M * 2 ^ (E + 1074)). intros v Hv P0 HP.
  destruct (Z.eqb_spec (f32_sign b) 0); nia.
Qed.
Lemma sleep_truncated b k : in_u 32 b -> f32_finite b -> truncated b k -> -9223372036 <= k <= 9223372036 -> sleep_ns b = k * 1000000000.
Proof.
  intros Hb Hf Ht Hk. rewrite (truncated_unique _ _ _ Ht (f32_trunc_spec _ Hb Hf)) in *. unfold sleep_ns.
  apply swrap_id; unfold in_s; lia.
Qed.

Lemma truncated_total b : in_u 32 b -> f32_finite b -> exists! k, truncated b k.
Proof.
  intros Hb Hf. exists (f32_trunc b). split; [apply f32_trunc_spec; assumption|].
  intros k Hk. apply (truncated_unique b); [apply f32_trunc_spec; assumption|exact Hk].
Qed.
Lemma timeout_seconds O V (T : target O V) o ls s r m t t0 x k : exec (cstep T) (new_chan o) ls = Some s ->
  In (EStart r t0 x) (hist s) -> In (ERespond r (ATimeout m) t) (hist s) ->
  in_u 32 x -> f32_finite x -> truncated x k -> (-9223372036 <= k <= 9223372036)%Z -> (t0 + Z.max 0 (k * 1000000000) <= t)%Z.
Proof.
  intros H A B Hu Hf Ht Hk. rewrite <- (sleep_truncated x k Hu Hf Ht Hk). exact (timeout_sleep T o ls s r m t t0 x H B A).
Qed.
Lemma zero_setting O V (T : target O V) o ls s r q x k : exec (cstep T) (new_chan o) ls = Some s -> crashed s = false ->
  one_goroutine_per_caller ls -> handler s = HIdle -> queue s = r :: q ->
  x = (if known T (rq_method (reqs s r)) then setting ls (rq_method (reqs s r)) else 0x3f800000%Z) ->
  in_u 32 x -> f32_finite x -> truncated x k -> (-9223372036 <= k <= 0)%Z ->
  exists s', exec (cstep T) s [LPick; TSleep r; TLock r; TCheck r; TDone r; TRespond r] = Some s' /\ now s' = now s /\
    answers r (hist s') = [ATimeout (rq_method (reqs s r))] /\ handler s' = HRun r.
Proof.
  intros H C D Hh Hq Hx Hu Hf Ht Hk. apply (zero_timeout T o ls s r q H C D Hh Hq).
  assert (E : timeout_of T s (rq_method (reqs s r)) = x).
  { unfold timeout_of. subst x. destruct (known T (rq_method (reqs s r))) eqn:Ek; [|reflexivity]. apply (setting_exec T o ls s H _ Ek). }
  rewrite E, (sleep_truncated x k Hu Hf Ht) by lia. lia.
Qed.
