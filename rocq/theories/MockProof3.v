(* Listeners and Reset of the mock network. *)
From Verif Require Import MockModel MockSpec MockProof MockProof2.
From Coq Require Import Arith Bool Lia List ZArith.
Import ListNotations.
Open Scope nat_scope.

Notation is_listen := (fun x => match x with MListen _ => true | _ => false end).
Lemma listeners ls : forall s, mexec ls = Some s -> nl s = length (filter is_listen ls).
Proof.
  induction ls as [|l ls IH] using rev_ind; intros s H; [injection H as <-; reflexivity|].
  apply exec_split in H as (m & H1 & H2). cbn in H2. destruct (mstep m l) as [s2|] eqn:E; [|discriminate]. injection H2 as <-.
  rewrite filter_app, app_length, <- (IH _ H1). destruct l; minv E; cbn; lia.
Qed.
Lemma snoc_cons {A} (a : list A) x l1 y l2 : a ++ [x] = l1 ++ y :: l2 -> (l2 = [] /\ x = y /\ a = l1) \/ exists l3, l2 = l3 ++ [x] /\ a = l1 ++ y :: l3.
Proof.
  destruct l2 as [|z l2 _] using rev_ind; intros H.
  - apply app_inj_tail in H as [-> ->]. auto.
  - right. exists l2. rewrite app_comm_cons, app_assoc in H. apply app_inj_tail in H as [-> ->]. auto.
Qed.
(* listening, one call more *)
Lemma listening_snoc ls x a l : listening (ls ++ [x]) a l <->
  match x with
  | MReset => False
  | MListen b => (same_port a b /\ l = length (filter is_listen ls)) \/ (~ same_port a b /\ listening ls a l)
  | _ => listening ls a l
  end.
Proof.
  split.
  - intros (l1 & b & l2 & E & P & L & R & N). apply snoc_cons in E as [(-> & -> & ->)|(l3 & -> & ->)]; [left; auto|].
    assert (K : listening (l1 ++ MListen b :: l3) a l).
    { exists l1, b, l3. repeat split; auto; [intros X; apply R, in_or_app; auto|]. intros b' X. apply N, in_or_app. auto. }
    destruct x; auto.
    + right. split; auto. apply N, in_or_app. right. now left.
    + apply R, in_or_app. right. now left.
  - assert (K : (forall b, x <> MListen b) -> x <> MReset -> listening ls a l -> listening (ls ++ [x]) a l).
    { intros N1 N2 (l1 & b & l2 & -> & P & L & R & N). exists l1, b, (l2 ++ [x]). rewrite <- app_assoc. repeat split; auto.
      - intros X. apply in_app_iff in X as [X|[X|[]]]; auto.
      - intros b' X. apply in_app_iff in X as [X|[X|[]]]; auto. exfalso. eapply N1. exact X. }
    destruct x; try (apply K; discriminate); [|tauto].
    intros [[P ->]|[P (l1 & b & l2 & -> & Q & L & R & N)]].
    + exists ls, a0, []. repeat split; auto.
    + exists l1, b, (l2 ++ [MListen a0]). rewrite <- app_assoc. repeat split; auto.
      * intros X. apply in_app_iff in X as [X|[X|[]]]; auto; discriminate.
      * intros b' X. apply in_app_iff in X as [X|[X|[]]]; auto. now injection X as <-.
Qed.
Lemma listener_found ls : forall s a l, mexec ls = Some s -> lmap s (format_addr a) = Some l <-> listening ls a l.
Proof.
  induction ls as [|x ls IH] using rev_ind; intros s a l H.
  - injection H as <-. cbn. split; [discriminate|]. intros (l1 & b & l2 & E & _). destruct l1; discriminate.
  - apply exec_split in H as (m & H1 & H2). cbn in H2. destruct (mstep m x) as [s2|] eqn:E; [|discriminate]. injection H2 as <-.
    rewrite listening_snoc. assert (Q := fun m' Hm => IH m' a l Hm). specialize (Q m H1).
    destruct x; minv E; cbn; auto.
    + unfold updn. destruct (zlist_eqb (format_addr a) (format_addr a0)) eqn:Ef.
      * apply zlist_eqb_eq, format_iff in Ef. rewrite (listeners _ _ H1). split; [intros X; injection X as <-; auto|]. intros [[_ ->]|[N _]]; auto. contradiction.
      * assert (~ same_port a a0) by (intros X; apply format_iff in X; rewrite X, zlist_refl in Ef; discriminate). rewrite Q. tauto.
    + split; [discriminate|tauto].
Qed.
Lemma dial_reaches ls s d b l : mexec ls = Some s -> crash s = false -> dial s d = DLoop (format_addr b) -> stat s d = SNew ->
  listening ls b l -> chanconn s l = [] ->
  forall e, exists s', exec mstep s [MTick d e; MTick d e] = Some s' /\ dial s' d = DLoop (format_addr b) /\ stat s' d = SQueued /\ chanconn s' l = [Some d].
Proof. intros H C D S L Q. eapply dial_offers; eauto. now apply (listener_found _ _ _ _ H). Qed.

(* after a Reset *)
Record beyond (N C : nat) (s : mst) : Prop := {
  b_nl : N <= nl s; b_nc : C <= nc s;
  b_map : forall a l, lmap s a = Some l -> N <= l;
  b_push : forall d a l, dial s d = DPush a l -> C <= d -> N <= l;
  b_queue : forall d l, In (Some d) (chanconn s l) -> C <= d -> N <= l;
  b_gor : forall g l c d, gor s g = GLink l c d -> C <= d -> N <= l;
  b_link : forall l c d, In (ELinked l c d) (hist s) -> C <= d -> N <= l }.
Lemma beyond_step N C s l s' : beyond N C s -> mstep s l = Some s' -> beyond N C s'.
Proof.
  intros [B1 B2 B3 B4 B5 B6 B7] H. destruct l; minv H; constructor; proj; intros; upd; eauto; try lia; try discriminate; try congruence.
  all: repeat match goal with X : In _ (_ ++ [_]) |- _ => apply in_app_iff in X as [X|[X|[]]] end; eauto; try discriminate.
  all: try match goal with X : updn _ _ _ _ = _ |- _ => unfold updn in X; destruct (zlist_eqb _ _); [injection X as <-; lia|eauto] end.
  all: try (match goal with X : In _ [_] |- _ => destruct X as [X|[]]; try discriminate X; injection X as -> end; solve [eauto]).
  all: try match goal with X : DPush _ _ = DPush _ _ |- _ => injection X as <- <-; eauto end.
  all: try match goal with X : ELinked _ _ _ = ELinked _ _ _ |- _ => injection X as <- <- <-; eauto end.
  all: try match goal with X : match ?k with AWrite => _ | AClose => _ end = _ |- _ => destruct k; discriminate X end.
  all: try match goal with X : GLink _ _ _ = GLink _ _ _ |- _ => injection X as <- <- <-; eauto end.
  all: eapply B5; [|eassumption]; match goal with X : chanconn _ _ = _ |- _ => rewrite X end; cbn; auto.
Qed.
Lemma after_reset ls1 s1 ls2 s l c d : mexec ls1 = Some s1 -> exec mstep s1 (MReset :: ls2) = Some s ->
  l < nl s1 -> nc s1 <= d -> ~ In (ELinked l c d) (hist s).
Proof.
  intros H1 H2 L D X. pose proof (reach_links _ _ H1) as K. cbn in H2. destruct (mstep s1 MReset) as [m|] eqn:E; [|discriminate].
  assert (O : forall d, nc s1 <= d -> dial s1 d = DNone) by (intros d' Hd; destruct (dial s1 d') eqn:Ed; auto; exfalso; assert (d' < nc s1) by (apply (dial_old _ K); congruence); lia).
  assert (B : beyond (nl s1) (nc s1) m).
  { minv E. constructor; cbn; auto; try discriminate.
    - intros d' a l' P Hd. rewrite O in P; [discriminate|auto].
    - intros d' l' P Hd. exfalso. eapply (q_dialled _ K); eauto.
    - intros g l' c' d' P Hd. exfalso. eapply (g_dialled _ K); eauto.
    - intros l' c' d' P Hd. exfalso. eapply (k_dialled _ K); eauto. }
  assert (Bs : beyond (nl s1) (nc s1) s) by (eapply (exec_inv mstep (beyond (nl s1) (nc s1))); eauto using beyond_step).
  pose proof (b_link _ _ _ Bs _ _ _ X D). lia.
Qed.
(* after its own Close *)
Lemma write_after_close ls s g c d b : mexec ls = Some s -> crash s = false -> gor s g = GIdle ->
  ends (hist s) c d -> ~ In (EClosed c) (hist s) -> length (sent c (hist s)) = length (reads d (hist s)) ->
  exists s', exec mstep s [MClose g c; MGo g; MGo g; MGo g; MWrite g c b] = Some s' /\
    hist s' = hist s ++ [EWrote c d None; EClosed c; EWriteErr c] /\ gor s' g = GIdle /\ crash s' = false.
Proof.
  intros R C G E N Q. rewrite (buffer_count _ _ _ _ R E) in Q.
  destruct (chanbuf s d) eqn:Eb; [|cbn in Q; lia]. destruct (open_peer _ (reach_paired _ _ R) _ _ E) as [P|P]; [|tauto].
  pose proof (ends_old _ _ _ _ R E) as O. apply Nat.ltb_lt in O.
  unfold exec, mstep. rewrite C, G, O, P. proj. rewrite C, updp_same, P. proj. rewrite C, updp_same, Eb.
  proj. rewrite C, updp_same. proj. rewrite C, updp_same, O, updp_same.
  eexists. split; [reflexivity|]. proj. rewrite updp_same, <- !app_assoc. auto.
Qed.
