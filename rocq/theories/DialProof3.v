(* A dock that stops calling stops dialling. *)
From Verif Require Import Lts GoVal Tables DockModel DockSpec DockProof DockProof2 DockProof3 DockProof4 SysModel SysSpec SysProof SysProof2 SysProof3 WorldModel WorldSpec WorldProof WorldProof2 WorldProof3 WorldProof7 LiveSpec LiveProof LiveProof2 LiveProof3 LiveProof4 LiveProof5 DialSpec DialProof.
From Verif Require HubModel HubSpec.
From Coq Require Import Arith Bool List ZArith Lia.
Import ListNotations.
Open Scope nat_scope.

Section Dock.
Context {V : Type}.
Implicit Types d : dock V.
Lemma sent_asks d l d' es : tr V d l d' -> hist d' = hist d ++ es -> (forall c r, nth_error (calls d) c = Some r -> c_req r = None) -> asked es = 0.
Proof.
  intros T H N. destruct T; proj; try (rewrite <- app_nil_r in H at 1); repeat rewrite <- app_assoc in H; apply app_inv_head in H; subst es; try reflexivity;
    repeat match goal with X : nth_error (calls d) _ = Some _ |- _ => apply N in X end; congruence.
Qed.
End Dock.

Section Live.
Context {V : Type}.
Variables (carried : nat -> list (name * bool)).
Variable carry : nat -> nat -> list V -> option (list V).
Variables (black : list Z) (raddr : nat -> name).
Variables (r : nat -> world V) (lab : nat -> option (wlab V)).
Hypothesis Run : endless carried carry black raddr r lab.
Hypothesis Fair : fair carry black raddr r lab.
Hypothesis Calm : undisturbed r lab.
Hypothesis Range : ranges_end r.
Hypothesis Total : forall i j l, carry i j l <> None.
Notation run ls w := (exec (wstep carry black raddr) (winit carried) ls = Some w).
Notation dk n i := (sd (ws (r n)) i).
Let Hh := Hh r lab Calm.
Let Wi := Wi carried carry black raddr r lab Run Calm.
Let Ok := Ok carried carry black raddr r lab Run Calm.
Let drun := drun carried carry black raddr r lab Run Calm.
Let dock_next := dock_next carried carry black raddr r lab Run Calm.
Let event_stays := event_stays carried carry black raddr r lab Run Calm.

Lemma labels_run n : run (labels lab n) (r n).
Proof.
  induction n as [|n IH].
  - unfold labels. cbn. now rewrite (e_start _ _ _ _ _ _ Run).
  - unfold labels. rewrite seq_S, flat_map_app. fold (labels lab n). rewrite exec_app, IH. cbn. pose proof (e_step _ _ _ _ _ _ Run n) as S.
    destruct (lab n); cbn; [rewrite S; reflexivity|now rewrite S].
Qed.
Lemma executed_committed n i c q j k x : In (ENew c q) (hist (dk n i)) -> executed carried (ends (r n)) carry (ws (r n)) i q j k x -> exists p, In (ECommit c p true) (hist (dk n i)).
Proof.
  intros Nq (_ & args & res & err & _ & (p & p' & Lk & Acc) & _). apply nth_error_In, accepted_recv in Acc as [Acc _].
  destruct (request_source _ _ _ _ _ _ _ (wi_wired _ (Wi n)) _ _ _ _ (Ok n) Acc) as (i' & p1 & c' & q0 & E1 & E2 & N' & C & _ & A & _).
  rewrite Lk in E2. injection E2 as <- <-. exists p'. destruct (drun n i) as [ls L]. inversion A; subst; [|exfalso; match goal with H : forall q, _ <> KRequest q |- _ => now eapply H end].
  destruct (call_unique _ _ _ _ _ _ _ L (h_ids _ (Hh n) i) Nq N') as [<- _]; [cbn; reflexivity|exact C].
Qed.
Variables (i n0 : nat).
Hypothesis Last : forall n c q, In (ENew c q) (hist (dk n i)) -> In (ENew c q) (hist (dk n0 i)).
Hypothesis Known : forall c q, In (ENew c q) (hist (dk n0 i)) -> exists j n', lab n' = Some (WDial j true) /\ carries (carried j) (q_slot q) true.
Lemma all_committed h : incl h (hist (dk n0 i)) -> exists m, n0 <= m /\ forall c q, In (ENew c q) h -> exists p, In (ECommit c p true) (hist (dk m i)).
Proof.
  induction h as [|e h IH]; intros Ic; [exists n0; split; [lia|intros c q []]|]. destruct IH as (m & L & H); [intros y Y; apply Ic; now right|].
  assert (D : (exists c q, e = ENew c q) \/ forall c q, e <> ENew c q) by (destruct e; eauto; right; discriminate).
  destruct D as [(c & q & ->)|D].
  - assert (Nq : In (ENew c q) (hist (dk n0 i))) by (apply Ic; now left). destruct (Known _ _ Nq) as (j & n' & Dj & Cf).
    destruct (fair_call carried carry black raddr r lab Run Fair Calm Range Total _ _ _ _ _ _ Nq Dj Cf) as (m1 & x & j' & k & L1 & _ & X).
    destruct (executed_committed _ _ _ _ _ _ _ (event_stays _ _ _ _ L1 Nq) X) as (p & C).
    exists (max m m1). split; [lia|]. intros c0 q0 [E|I].
    + injection E as <- <-. exists p. eapply event_stays; [|exact C]. lia.
    + destruct (H _ _ I) as (p0 & C0). exists p0. eapply event_stays; [|exact C0]. lia.
  - exists m. split; auto. intros c q [E|I]; [destruct (D _ _ E)|eauto].
Qed.
Theorem dials_end : exists b, forall n, dials i (labels lab n) <= b.
Proof.
  destruct (all_committed _ (incl_refl _)) as (m & L & H). exists (asked (hist (dk m i))). intros n. pose proof (dials_asked carried carry black raddr _ _ i (labels_run n)) as D.
  assert (K : forall n, m <= n -> asked (hist (dk n i)) = asked (hist (dk m i))).
  { clear n D. intros n Ln. induction Ln as [|n Ln IH]; [reflexivity|]. rewrite <- IH. destruct (dock_next n i) as [[-> _]|(l & es & d1 & x & N)]; [reflexivity|].
    rewrite (dn_hist _ _ _ _ _ _ _ _ _ N), asked_app. enough (asked es = 0) by lia. eapply sent_asks; [apply (dn_tr _ _ _ _ _ _ _ _ _ N)|apply (dn_hist1 _ _ _ _ _ _ _ _ _ N)|].
    intros c r0 E. destruct (drun n i) as [ls Li]. destruct (H c (c_orig r0)) as (p & C); [eapply Last, new_of_call; eauto|].
    destruct (proj1 (committing_inv _ _ _ Li) _ _ E) as (_ & _ & X & _). destruct (c_req r0); [|reflexivity]. exfalso.
    apply (event_stays m n) in C; [|lia]. assert (Y : In p (commits c (hist (dk n i)))).
    { unfold commits. apply in_flat_map. exists (ECommit c p true). split; auto. rewrite Nat.eqb_refl. now left. }
    rewrite X in Y by discriminate. destruct Y. }
  destruct (le_ge_dec m n) as [Ln|Ln]; [now rewrite K in D|].
  destruct (LiveProof.hist_stay carried carry black raddr r lab Run Calm n m i Ln) as (es & E). rewrite E, asked_app. lia.
Qed.
End Live.
