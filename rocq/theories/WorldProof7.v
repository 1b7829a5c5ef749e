(* Dialling reaches the dock the hub meant. *)
From Verif Require Import Lts GoVal Tables DockModel DockSpec DockProof DockProof2 DockProof3 DockProof4 DockProof8.
From Verif Require Import SysModel SysSpec SysProof SysProof2 SysProof3 WorldModel WorldSpec WorldProof WorldProof2 WorldProof3.
From Verif Require HubModel HubSpec HubProof HubProof2 HubProof3 HubProof4.
From Coq Require Import Arith Bool List ZArith Lia Sorting.Sorted.
Import ListNotations.
Open Scope nat_scope.

Section Dock.
Context {V : Type}.
Implicit Types d : dock V.
Lemma query_call c0 ls d k f : exec dstep (new_dock c0) ls = Some d -> In (EQuery k f) (hist d) -> exists c q, In (ENew c q) (hist d) /\ q_slot q = f.
Proof.
  intros E H. apply in_split in H as (a & b & H). destruct (behind _ _ _ _ _ _ E H) as (ls1 & l & ls2 & d1 & d2 & es1 & es2 & _ & E1 & T & _ & F & G).
  assert (X : exists c q, In (ENew c q) (hist d1) /\ q_slot q = f).
  { assert (Y : forall c r q, nth_error (calls d1) c = Some r -> c_req r = Some q -> exists c q', In (ENew c q') (hist d1) /\ q_slot q' = q_slot q).
    { intros c r q Hr Hq. exists c, (c_orig r). split; [eapply new_of_call; eauto|]. destruct (proj1 (committing_inv _ _ _ E1) _ _ Hr) as ([Z|Z] & _); congruence. }
    event T G; eauto. }
  destruct X as (c & q & X & Y). exists c, q. split; auto. rewrite H, F. rewrite <- app_assoc. apply in_or_app. auto.
Qed.
Definition told d : Prop := forall p, match handlers d p with
  | BListen n | BAppend n => In (ERecv p (KRegistered n)) (hist d) | ADial a => In (ERecv p (KAddress a)) (hist d) | _ => True end.
Lemma told_inv c0 ls d : exec dstep (new_dock c0) ls = Some d -> told d.
Proof.
  apply (reach (fun d => told d)); [intros p; exact I|]. clear. intros d l d' I _ T p. specialize (I p).
  assert (M : forall es, match handlers d p with
    | BListen n | BAppend n => In (ERecv p (KRegistered n)) (hist d ++ es) | ADial a => In (ERecv p (KAddress a)) (hist d ++ es) | _ => True end).
  { intros es. destruct (handlers d p); auto; apply in_or_app; auto. }
  destruct T; proj; rewrite <- ?app_assoc; try exact I; try apply M; unfold updp; (destruct (Nat.eqb_spec p p0) as [->|]; [|first [exact I | apply M]]);
    try (apply in_or_app; right; now left); try exact Logic.I; match goal with E : handlers _ _ = _ |- _ => rewrite E in I; exact I end.
Qed.
End Dock.

Section Hub.
Variables (black : list Z) (raddr : nat -> name).
Lemma same_source {A B} (f : A -> list B) (l : list A) x y z : NoDup (flat_map f l) -> In x l -> In y l -> In z (f x) -> In z (f y) -> x = y.
Proof.
  induction l as [|e l IH]; [intros _ []|]. cbn. intros N X Y Zx Zy. assert (N' : NoDup (flat_map f l)) by (clear - N; induction (f e); auto; inversion N; auto).
  assert (D : forall u, In z (f e) -> In u l -> In z (f u) -> False).
  { clear - N. intros u He Hu Hz. induction (f e) as [|b t IH]; [destruct He|]. cbn in N. inversion N; subst. destruct He as [->|He]; auto. apply H1. apply in_or_app. right. apply in_flat_map. eauto. }
  destruct X as [<-|X], Y as [<-|Y]; auto; exfalso; eauto.
Qed.
Lemma sorted_nodup l : StronglySorted Z.lt l -> NoDup l.
Proof. induction 1; constructor; auto. intros X. rewrite Forall_forall in H0. apply H0 in X. lia. Qed.
Lemma alloc_unique ls s t a t' b host n : exec (HubModel.hstep black raddr) HubModel.new_hub ls = Some s ->
  In (HubModel.EAlloc t a host n) (HubModel.hist s) -> In (HubModel.EAlloc t' b host n) (HubModel.hist s) -> a = b.
Proof.
  intros E X Y. assert (N := sorted_nodup _ (HubProof.ports_increase _ _ _ _ host E)).
  assert (Z : forall t a, In n ((fun e => match e with HubModel.EAlloc _ _ x port => if zlist_eqb x host then [port] else [] | _ => [] end) (HubModel.EAlloc t a host n)))
    by (intros; cbn; rewrite (proj2 (zlist_eqb_eq _ _) eq_refl); now left).
  pose proof (same_source _ _ _ _ n N X Y (Z t a) (Z t' b)). congruence.
Qed.
Lemma alloc_host ls s t a host n : exec (HubModel.hstep black raddr) HubModel.new_hub ls = Some s -> In (HubModel.EAlloc t a host n) (HubModel.hist s) -> host = HubModel.pickIP (raddr a).
Proof.
  apply (exec_inv (HubModel.hstep black raddr) (fun s => In (HubModel.EAlloc t a host n) (HubModel.hist s) -> host = HubModel.pickIP (raddr a))); [|intros []].
  clear s. intros s l s' I E X. destruct (hstep_grows _ _ _ _ _ E) as (es & He & _). rewrite He in X. apply in_app_or in X as [X|X]; auto.
  unfold HubModel.hstep in E. destruct (HubModel.halted s); [discriminate|].
  assert (U : forall e : HubModel.event, HubModel.hist s' = HubModel.hist s ++ [e] -> HubModel.EAlloc t a host n = e).
  { intros e U. rewrite He in U. apply app_inv_head in U. subst es. destruct X as [<-|[]]. reflexivity. }
  assert (U0 : HubModel.hist s' = HubModel.hist s -> False).
  { intros U0. rewrite He in U0. rewrite <- (app_nil_r (HubModel.hist s)) in U0 at 2. apply app_inv_head in U0. subst es. destruct X. }
  destruct l as [p k|p|u|p].
  - destruct (HubModel.handlers s p); try discriminate. destruct k; injection E as E; specialize (U _ ltac:(rewrite <- E; reflexivity)); discriminate.
  - destruct (HubModel.handlers s p) as [|u sl|u h m [|g sl]|u [|g sl]|u g i sl|u g i sl]; try discriminate.
    + destruct (HubModel.allocate _ _); injection E as E; [specialize (U _ ltac:(rewrite <- E; reflexivity)); congruence|exfalso; apply U0; rewrite <- E; reflexivity|exfalso; apply U0; rewrite <- E; reflexivity].
    + injection E as E; specialize (U _ ltac:(rewrite <- E; reflexivity)); discriminate.
    + injection E as E; specialize (U _ ltac:(rewrite <- E; reflexivity)); discriminate.
    + exfalso. apply U0. injection E as <-. reflexivity.
    + exfalso. apply U0. injection E as <-. reflexivity.
    + destruct (nth_error _ _); [|discriminate]. destruct (_ =? _); injection E as E; [specialize (U _ ltac:(rewrite <- E; reflexivity)); discriminate|exfalso; apply U0; rewrite <- E; reflexivity].
    + exfalso. apply U0. injection E as <-. reflexivity.
  - destruct (HubModel.queries s u); try discriminate.
    + injection E as E. destruct (HubModel.docks s f); specialize (U _ ltac:(rewrite <- E; reflexivity)); discriminate.
    + destruct (nth_error _ _); [|discriminate]. destruct (HubModel.st_ready _); injection E as E; [specialize (U _ ltac:(rewrite <- E; reflexivity)); discriminate|exfalso; apply U0; rewrite <- E; reflexivity].
  - injection E as E; specialize (U _ ltac:(rewrite <- E; reflexivity)); discriminate.
Qed.
Lemma reply_alloc ls s a n : exec (HubModel.hstep black raddr) HubModel.new_hub ls = Some s -> In (HubModel.EReply a n) (HubModel.hist s) ->
  exists t, In (HubModel.EAlloc t a (HubModel.pickIP (raddr a)) n) (HubModel.hist s).
Proof.
  intros E X. destruct (HubProof4.replies_own_ports _ _ _ _ a E) as (rest & G & _).
  assert (Y : In n (HubSpec.granted a (HubModel.hist s))).
  { rewrite G. apply in_or_app. left. apply in_flat_map. eexists. split; [exact X|]. cbn. rewrite Nat.eqb_refl. now left. }
  apply in_flat_map in Y as (e & He & Y). destruct e; try destruct Y. destruct (Nat.eqb_spec p a) as [->|]; [|destruct Y]. destruct Y as [->|[]].
  rewrite (alloc_host _ _ _ _ _ _ E He) in He. eauto.
Qed.
End Hub.

Section P.
Context {V : Type}.
Variables (carried : nat -> list (name * bool)).
Variable carry : nat -> nat -> list V -> option (list V).
Variables (black : list Z) (raddr : nat -> name).
Notation wstep := (wstep carry black raddr).
Notation run ls w := (exec wstep (winit carried) ls = Some w).
Implicit Types w : world V.
Notation machine := (machine raddr).
Notation leads := (leads carried raddr).

Lemma listeners_told ls w : run ls w -> forall j n, In (j, n) (listeners w) -> exists p, In (ERecv p (KRegistered n)) (hist (sd (ws w) j)).
Proof.
  revert ls w. apply (run_ind carried carry black raddr (fun ls w => forall j n, In (j, n) (listeners w) -> exists p, In (ERecv p (KRegistered n)) (hist (sd (ws w) j)))); [intros j n []|].
  intros ls w l w' R Wi IH R' X.
  assert (K : forall E s b l es s' j p k, dmove carry E s b l es s' -> In (ERecv p k) (hist (sd s j)) -> In (ERecv p k) (hist (sd s' j))).
  { clear. intros E s b l es s' j p k M I. destruct (Nat.eq_dec j b) as [->|Nb]; [|rewrite (dm_other _ _ _ _ _ _ _ M); auto]. rewrite (dm_hist _ _ _ _ _ _ _ M). apply in_or_app. auto. }
  intros j n I. inversion X as [i0 l0 es w1 M E1 E2 E3 E4 Nn wl Hwl|i0 p k es w1 M E1 E2 E3 E4|i0 p m es w1 M E1 E2 E3 Hh Pf E4|i0 p es w1 M E1 E2 E3 E4 E5|l0 es w1 M E1 E2 E3 E4 wl Hwl
      |i0 es1 es2 s1 w1 M1 M2 E1 E2 E3 E4|i0 p j' m a es1 es2 s1 s2 M1 M2 Hh Ha Hl|w1 E1 E2 E3 E4 E5 E6 wl Hwl]; subst.
  - rewrite E4 in I. destruct (IH _ _ I) as [p Y]. eauto.
  - rewrite E4 in I. destruct (IH _ _ I) as [p' Y]. eauto.
  - rewrite E4 in I. apply in_app_or in I as [I|[I|[]]]; [destruct (IH _ _ I) as [p' Y]; eauto|]. injection I as -> ->.
    destruct (docks_run _ _ _ _ _ _ _ _ (run_ok _ _ _ _ _ _ R) j) as [lj Lj]. assert (Y := told_inv _ _ _ Lj p). rewrite Hh in Y. eauto.
  - rewrite E5 in I. destruct (IH _ _ I) as [p' Y]. eauto.
  - rewrite E4 in I. destruct (IH _ _ I) as [p' Y]. rewrite (hm_docks _ _ _ _ _ _ M). eauto.
  - rewrite E4 in I. destruct (IH _ _ I) as [p' Y]. eauto.
  - destruct (IH _ _ I) as [p' Y]. cbn [ws with_sys]. eauto.
  - rewrite E4 in I. destruct (IH _ _ I) as [p' Y]. rewrite E5. eauto.
Qed.
Lemma from_hub ls w i p k : run ls w -> In (ERecv p k) (hist (sd (ws w) i)) -> match k with KRegistered _ | KAddress _ => True | _ => False end ->
  In k (hub_out hostport i (HubModel.hist (sh (ws w)))).
Proof.
  intros R I Hk. assert (O := run_ok _ _ _ _ _ _ R). pose proof (came_from _ _ _ _ _ _ _ _ _ _ _ O I) as C. destruct (run_sys _ _ _ _ _ _ R) as (Wi & _).
  destruct (ends w i p) as [|j p'|h] eqn:El; [destruct C| |].
  - destruct C as (k0 & Hs & A). destruct (docks_run _ _ _ _ _ _ _ _ O j) as [lj Lj]. apply (dock_sends _ _ _ _ _ _ Lj) in Hs. inversion A; subst; destruct Hk || destruct k; tauto.
  - apply (wi_wired _ Wi) in El. injection El as -> _. exact C.
Qed.
Lemma told_port ls w j n : run ls w -> In (j, n) (listeners w) -> exists t, In (HubModel.EAlloc t j (machine j) n) (HubModel.hist (sh (ws w))).
Proof.
  intros R I. destruct (listeners_told _ _ R _ _ I) as [p X]. apply (from_hub _ _ _ _ _ R) in X; [|exact Logic.I].
  destruct (hub_runs _ _ _ _ _ _ _ _ (run_ok _ _ _ _ _ _ R)) as [lh Lh]. eapply reply_alloc; eauto.
  apply in_flat_map in X as (e & He & X). destruct e; try destruct X; (destruct (Nat.eqb_spec p0 j) as [->|]; [|destruct X]; destruct X as [X|[]]; try discriminate).
  injection X as ->. exact He.
Qed.
Lemma own_port ls w a b n : run ls w -> In (a, n) (listeners w) -> In (b, n) (listeners w) -> machine a = machine b -> a = b.
Proof.
  intros R A B M. destruct (told_port _ _ _ _ R A) as [t X]. destruct (told_port _ _ _ _ R B) as [t' Y]. rewrite <- M in Y.
  destruct (hub_runs _ _ _ _ _ _ _ _ (run_ok _ _ _ _ _ _ R)) as [lh Lh]. eapply alloc_unique; eauto.
Qed.
Lemma dial_meant ls w i p j n : run ls w -> handlers (sd (ws w) i) p = ADial (hostport (machine j) n) -> listens w j n = true ->
  exists t f k, In (HubModel.EAnswer t i f k (machine j) n) (HubModel.hist (sh (ws w))) /\ carries (carried j) f true /\
    (exists c q, In (ENew c q) (hist (sd (ws w) i)) /\ q_slot q = f) /\ (~ cleared (hist (sd (ws w) i)) -> j <> i).
Proof.
  intros R Eh L.
  assert (O := run_ok _ _ _ _ _ _ R). destruct (docks_run _ _ _ _ _ _ _ _ O i) as [li Li]. assert (Y := told_inv _ _ _ Li p). rewrite Eh in Y.
  apply (from_hub _ _ _ _ _ R) in Y; [|exact Logic.I]. apply in_flat_map in Y as (e & He & X).
  destruct e; try destruct X; (destruct (Nat.eqb_spec p0 i) as [->|]; [|destruct X]; destruct X as [X|[]]; try discriminate). injection X as X.
  destruct (answer_leads _ _ _ _ _ _ _ _ _ _ _ _ R He) as (j' & n' & I & E & C).
  destruct (run_sys _ _ _ _ _ _ R) as (Wi & ls' & R' & _). specialize (R' _ (extends_refl _)).
  destruct (answer_source carried (ends w) hub_end carry black raddr hostport (wi_wired _ Wi) _ _ _ _ _ _ _ _ R' He) as (i1 & p1 & k1 & j1 & p2 & h' & n1 & Ha & Hq & _ & _ & Hh & _).
  injection Ha as <- <-.
  assert (host = machine j /\ port = n) as [-> ->].
  { apply hostport_inj in X as [-> ->]; auto; [rewrite Hh|]; apply HubProof.pickIP_no_colon. }
  apply hostport_inj in E as [E <-]; try apply HubProof.pickIP_no_colon.
  assert (j' = j) as ->.
  { unfold listens in L. rewrite !andb_true_iff in L. destruct L as [[L _] _]. apply existsb_exists in L as ([x y] & Hx & Q'). cbn in Q'. apply andb_prop in Q' as [Q1 Q2].
    apply Nat.eqb_eq in Q1. apply Z.eqb_eq in Q2. subst x y. eapply own_port; eauto. }
  destruct (query_call _ _ _ _ _ Li Hq) as (c & q & Nq & Eq). exists t, f, k. split; auto. split; auto. split; [eauto|].
  intros Nc ->. apply in_split in Nq as (u & v & Eu). destruct (new_event _ _ _ _ _ _ _ Li Eu) as [Y|Y].
  - apply Nc. rewrite Eu. apply in_or_app. auto.
  - apply Y. rewrite Eq. destruct C as (x & y & -> & _). rewrite map_app. apply in_or_app. right. now left.
Qed.
Lemma dial_right ls w i p j n w' : run ls w -> wstep w (WConnect i p j n) = Some w' ->
  exists t f k, In (HubModel.EAnswer t i f k (machine j) n) (HubModel.hist (sh (ws w))) /\ carries (carried j) f true /\
    (exists c q, In (ENew c q) (hist (sd (ws w) i)) /\ q_slot q = f) /\ (~ cleared (hist (sd (ws w) i)) -> j <> i).
Proof.
  intros R H. cbn in H. destruct (handlers (sd (ws w) i) p) as [| | | | | | | | | | |a|] eqn:Eh; try discriminate.
  destruct (zlist_eqb_spec a (hostport (machine j) n)) as [->|]; [|discriminate]. destruct (listens w j n) eqn:L; [|discriminate]. eapply dial_meant; eauto.
Qed.
End P.
