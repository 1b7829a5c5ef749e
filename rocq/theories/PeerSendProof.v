(* Lemmas for the sending half of a peer. *)
From Verif Require Import Lts PeerSendModel PeerSendSpec.
From Coq Require Import Arith Bool Lia.

Section Proof.
Context {P : Type}.
Implicit Types s : peer P.

Lemma written_app a b : @written P (a ++ b) = written a ++ written b. Proof. apply flat_map_app. Qed.
Lemma failed_app a b : @failed P (a ++ b) = failed a ++ failed b. Proof. apply flat_map_app. Qed.
Lemma pushed_app a b : @pushed P (a ++ b) = pushed a ++ pushed b. Proof. apply flat_map_app. Qed.
Lemma popped_app a b : @popped P (a ++ b) = popped a ++ popped b. Proof. apply flat_map_app. Qed.
Lemma admitted_app a b : @admitted P (a ++ b) = admitted a ++ admitted b. Proof. apply flat_map_app. Qed.
Lemma sends_of_app t a b : @sends_of P t (a ++ b) = sends_of t a ++ sends_of t b. Proof. apply flat_map_app. Qed.
Lemma admitted_of_app t a b : @admitted_of P t (a ++ b) = admitted_of t a ++ admitted_of t b. Proof. apply flat_map_app. Qed.
Lemma pushed_of_app t a b : @pushed_of P t (a ++ b) = pushed_of t a ++ pushed_of t b. Proof. apply flat_map_app. Qed.
Hint Rewrite written_app failed_app pushed_app popped_app admitted_app sends_of_app admitted_of_app pushed_of_app app_nil_r : evs.

Lemma pstep_inv s l s' : pstep s l = Some s' ->
  (exists t x, l = LCheck t x /\ find_pending t (pending s) = None /\ length (queue s) = cSendChanSize /\
     s' = mkPeer (queue s) (pending s) (routine s) (open s) (log s ++ [EDrop t x])) \/
  (exists t x, l = LCheck t x /\ find_pending t (pending s) = None /\ length (queue s) <> cSendChanSize /\
     s' = mkPeer (queue s) (pending s ++ [(t, x)]) (routine s) (open s) (log s ++ [EAdmit t x])) \/
  (exists t x, l = LPush t /\ find_pending t (pending s) = Some x /\ (length (queue s) < cSendChanSize)%nat /\
     s' = mkPeer (queue s ++ [x]) (del_pending t (pending s)) (routine s) (open s) (log s ++ [EPush t x])) \/
  (exists x q, l = LPop /\ routine s = WWaiting /\ queue s = x :: q /\
     s' = mkPeer q (pending s) (match x with None => WEnded | Some p => WHolding p end) (open s) (log s ++ [EPop x])) \/
  (exists p, l = LWrite /\ routine s = WHolding p /\ open s = true /\
     s' = mkPeer (queue s) (pending s) WWaiting (open s) (log s ++ [EWrite p])) \/
  (exists p, l = LWriteFails /\ routine s = WHolding p /\
     s' = mkPeer (queue s) (pending s) WEnded (open s) (log s ++ [EFail p])) \/
  (l = LConnClose /\ s' = mkPeer (queue s) (pending s) (routine s) false (log s ++ [EConnClosed])).
Proof.
  destruct l as [t x|t| | | |]; cbn [pstep].
  - destruct (find_pending t (pending s)) eqn:Ef; [discriminate|].
    destruct (Nat.eqb_spec (length (queue s)) cSendChanSize) as [E|E]; intros H; injection H as <-.
    + left. eauto 10.
    + right; left. eauto 10.
  - destruct (find_pending t (pending s)) eqn:Ef; [|discriminate].
    destruct (Nat.ltb_spec (length (queue s)) cSendChanSize) as [E|E]; [|discriminate]. intros H; injection H as <-.
    do 2 right; left. eauto 10.
  - destruct (routine s) eqn:Er; try discriminate. destruct (queue s) as [|x q] eqn:Eq; [discriminate|].
    intros H; injection H as <-. do 3 right; left. exists x, q. auto.
  - destruct (routine s) eqn:Er; try discriminate. destruct (open s) eqn:Eo; [|discriminate].
    intros H; injection H as <-. do 4 right; left. eauto.
  - destruct (routine s) eqn:Er; try discriminate. intros H; injection H as <-. do 5 right; left. eauto.
  - intros H; injection H as <-. do 6 right. auto.
Qed.
Ltac pcases H := apply pstep_inv in H as
  [(t & x & -> & Hf & Hq & ->)|[(t & x & -> & Hf & Hq & ->)|[(t & x & -> & Hf & Hq & ->)|[(x & q & -> & Hr & Hq & ->)|
   [(p & -> & Hr & Ho & ->)|[(p & -> & Hr & ->)|(-> & ->)]]]]]].

Ltac pcases' H := apply pstep_inv in H as
  [(t0 & x0 & -> & Hf & Hq & ->)|[(t0 & x0 & -> & Hf & Hq & ->)|[(t0 & x0 & -> & Hf & Hq & ->)|[(x0 & q0 & -> & Hr & Hq & ->)|
   [(p0 & -> & Hr & Ho & ->)|[(p0 & -> & Hr & ->)|(-> & ->)]]]]]].

Definition holding s : list (option P) := match routine s with WHolding p => [Some p] | _ => [] end.

(* the log accounts for everything *)
Record ok (s : peer P) : Prop := mkOk {
  ok_fifo : pushed (log s) = popped (log s) ++ queue s;
  ok_out : popped (log s) = map Some (written (log s)) ++
             match routine s with
             | WWaiting => [] | WHolding p => [Some p]
             | WEnded => match failed (log s) with [] => [None] | l => map Some l end
             end;
  ok_fail : (length (failed (log s)) <= 1)%nat /\ (routine s <> WEnded -> failed (log s) = []);
  ok_size : (length (queue s) <= cSendChanSize)%nat;
  ok_uniq : NoDup (map fst (pending s));
  ok_pend : forall t, admitted_of t (log s) = pushed_of t (log s) ++ match find_pending t (pending s) with Some x => [x] | None => [] end }.

Lemma find_app t (a b : list (nat * option P)) : find_pending t (a ++ b) =
  match find_pending t a with Some x => Some x | None => find_pending t b end.
Proof. induction a as [|[u x] a IH]; cbn; [reflexivity|]. destruct (t =? u); auto. Qed.
Lemma find_none t (l : list (nat * option P)) : find_pending t l = None <-> ~ In t (map fst l).
Proof.
  induction l as [|[u x] l IH]; cbn; [tauto|]. destruct (Nat.eqb_spec t u) as [->|H].
  - split; [discriminate|]. intros H. exfalso. apply H. auto.
  - rewrite IH. split; intros A; [intros [B|B]; [congruence|auto]|tauto].
Qed.
Lemma find_del t u (l : list (nat * option P)) : find_pending t (del_pending u l) = if t =? u then None else find_pending t l.
Proof.
  unfold del_pending. induction l as [|[v x] l IH]; cbn [find_pending filter fst]; [destruct (t =? u); reflexivity|].
  destruct (Nat.eqb_spec u v) as [->|H]; cbn [negb].
  - rewrite IH. destruct (Nat.eqb_spec t v); reflexivity.
  - cbn [find_pending]. rewrite IH. destruct (Nat.eqb_spec t v) as [->|]; [|reflexivity].
    destruct (Nat.eqb_spec v u); [congruence|reflexivity].
Qed.
Lemma del_nodup u (l : list (nat * option P)) : NoDup (map fst l) -> NoDup (map fst (del_pending u l)).
Proof.
  unfold del_pending. induction l as [|[v x] l IH]; cbn; [auto|]. intros H. inversion H; subst.
  destruct (u =? v); cbn; [auto|]. constructor; [|auto]. intros Hin. apply H2.
  apply in_map_iff in Hin as ([w y] & E & Hin). apply filter_In in Hin as [Hin _]. apply in_map_iff. eauto.
Qed.
Lemma nodup_snoc {A} (l : list A) x : NoDup l -> ~ In x l -> NoDup (l ++ [x]).
Proof.
  intros H Hx. apply NoDup_rev in H. rewrite <- (rev_involutive (l ++ [x])). apply NoDup_rev. rewrite rev_app_distr. cbn.
  constructor; [rewrite <- in_rev; exact Hx|exact H].
Qed.

Lemma ok_new : ok (@new_peer P).
Proof. constructor; cbn; auto; try lia; try (split; [lia|auto]); constructor. Qed.
Lemma ok_step s l s' : ok s -> pstep s l = Some s' -> ok s'.
Proof.
  intros [K1 K2 K3 K4 K5 K6] H. pcases H; constructor; cbn [queue pending routine open log]; autorewrite with evs; cbn;
    autorewrite with evs; auto; try (intros u; autorewrite with evs; cbn).
  - apply K6.
  - rewrite map_app. apply nodup_snoc; [exact K5|]. apply find_none. exact Hf.
  - rewrite K6, find_app. cbn. destruct (Nat.eqb_spec u t) as [->|Hu].
    + rewrite Hf. autorewrite with evs. reflexivity.
    + destruct (find_pending u (pending s)); autorewrite with evs; reflexivity.
  - rewrite K1, <- app_assoc. reflexivity.
  - rewrite app_length. cbn. lia.
  - apply del_nodup, K5.
  - rewrite find_del. destruct (Nat.eqb_spec u t) as [->|Hu].
    + rewrite K6, Hf. autorewrite with evs. reflexivity.
    + rewrite K6. autorewrite with evs. reflexivity.
  - rewrite K1, Hq, <- app_assoc. reflexivity.
  - rewrite Hr in K2. rewrite K2. autorewrite with evs. destruct K3 as [_ K3]. rewrite K3 by congruence. destruct x; reflexivity.
  - destruct K3 as [K3 K3']. rewrite K3' by congruence. cbn. auto.
  - rewrite Hq in K4. cbn in K4. lia.
  - autorewrite with evs. apply K6.
  - rewrite Hr in K2. rewrite K2, map_app. reflexivity.
  - split; [tauto|]. intros _. apply K3. congruence.
  - autorewrite with evs. apply K6.
  - rewrite Hr in K2. rewrite K2. destruct K3 as [_ K3]. rewrite K3 by congruence. reflexivity.
  - destruct K3 as [_ K3]. rewrite K3 by congruence. cbn. split; [lia|congruence].
  - autorewrite with evs. apply K6.
  - autorewrite with evs. apply K6.
Qed.
Lemma ok_exec ls s : exec pstep new_peer ls = Some s -> ok s.
Proof. intros H. eapply exec_inv; [exact ok_step|exact ok_new|exact H]. Qed.

(* C23 *)
Lemma written_prefix ls s : exec pstep new_peer ls = Some s -> exists rest, pushed (log s) = map Some (written (log s)) ++ rest.
Proof. intros H. apply ok_exec in H as [K1 K2 _ _ _ _]. rewrite K1, K2, <- app_assoc. eauto. Qed.
Lemma sender_order ls s t : exec pstep new_peer ls = Some s ->
  exists rest, admitted_of t (log s) = pushed_of t (log s) ++ rest /\ (length rest <= 1)%nat.
Proof.
  intros H. apply ok_exec in H as [_ _ _ _ _ K6]. rewrite K6. eexists. split; [reflexivity|]. destruct (find_pending t (pending s)); cbn; lia.
Qed.
Lemma log_grows s l s' : pstep s l = Some s' -> exists e, log s' = log s ++ [e].
Proof. intros H. pcases' H; cbn; eauto. Qed.
Lemma exec_prefix ls : forall s s' a e b, exec pstep s ls = Some s' -> log s' = a ++ e :: b -> (length (log s) <= length a)%nat ->
  exists ls1 l ls2 m m', ls = ls1 ++ l :: ls2 /\ exec pstep s ls1 = Some m /\ log m = a /\ pstep m l = Some m' /\ log m' = a ++ [e].
Proof.
  induction ls as [|l ls IH]; intros s s' a e b H E Hl; cbn in H.
  - injection H as <-. rewrite E, app_length in Hl. cbn in Hl. lia.
  - destruct (pstep s l) as [m|] eqn:Em; [|discriminate]. destruct (log_grows _ _ _ Em) as [e' Ee].
    assert (Hg : exists t, log s' = log m ++ t).
    { clear -H. eapply (exec_rel pstep (fun x y => exists t, log y = log x ++ t)); [| | |exact H].
      - intros. exists []. autorewrite with evs. reflexivity.
      - intros x y z [t Ht] [u Hu]. exists (t ++ u). rewrite Hu, Ht, app_assoc. reflexivity.
      - intros x l' y Hy. destruct (log_grows _ _ _ Hy) as [e ->]. eauto. }
    destruct (Nat.eq_dec (length (log s)) (length a)) as [Hn|Hn].
    + exists [], l, ls, s, m. cbn. destruct Hg as [t Ht]. rewrite Ht, Ee, <- app_assoc in E.
      assert (Ea : log s = a).
      { assert (X : firstn (length a) (log s ++ [e'] ++ t) = firstn (length a) (a ++ e :: b)) by congruence.
        rewrite !firstn_app, Hn, Nat.sub_diag, !firstn_O, !app_nil_r, firstn_all in X. rewrite <- Hn, firstn_all in X. exact X. }
      rewrite Ea in E. apply app_inv_head in E. cbn in E. injection E as -> ->. repeat split; auto. rewrite Ee, Ea. reflexivity.
    + destruct (IH m s' a e b H E) as (ls1 & l1 & ls2 & m1 & m1' & -> & A & B & C & D).
      { rewrite Ee, app_length. cbn. lia. }
      exists (l :: ls1), l1, ls2, m1, m1'. cbn. rewrite Em. auto.
Qed.
Lemma drop_only_full ls s a t x b : exec pstep new_peer ls = Some s -> log s = a ++ EDrop t x :: b ->
  length (pushed a) = (length (popped a) + cSendChanSize)%nat.
Proof.
  intros H E. destruct (exec_prefix ls new_peer s a _ b H E) as (ls1 & l & ls2 & m & m' & -> & A & B & C & D); [cbn; lia|].
  pose proof (ok_exec _ _ A) as [K1 _ _ _ _ _]. rewrite B in K1. rewrite K1, app_length. f_equal.
  pcases' C; cbn [log] in D; rewrite B in D; apply app_inv_head in D; try discriminate. injection D as <- <-. exact Hq.
Qed.
Lemma admit_not_full ls s a t x b : exec pstep new_peer ls = Some s -> log s = a ++ EAdmit t x :: b ->
  (length (pushed a) < length (popped a) + cSendChanSize)%nat.
Proof.
  intros H E. destruct (exec_prefix ls new_peer s a _ b H E) as (ls1 & l & ls2 & m & m' & -> & A & B & C & D); [cbn; lia|].
  pose proof (ok_exec _ _ A) as [K1 _ _ K4 _ _]. rewrite B in K1. rewrite K1, app_length.
  pcases' C; cbn [log] in D; rewrite B in D; apply app_inv_head in D; try discriminate. lia.
Qed.
Lemma quiet_all ls s : exec pstep new_peer ls = Some s -> quiet s ->
  map Some (written (log s)) = pushed (log s) /\ forall t, pushed_of t (log s) = admitted_of t (log s).
Proof.
  intros H (Q1 & Q2 & Q3). apply ok_exec in H as [K1 K2 _ _ _ K6]. rewrite Q1 in K1. rewrite Q3 in K2. autorewrite with evs in *.
  split; [congruence|]. intros t. rewrite K6, Q2. cbn. autorewrite with evs. reflexivity.
Qed.
Lemma single_sender ls s t : exec pstep new_peer ls = Some s -> quiet s ->
  (forall u x, In (LCheck u x) ls -> u = t) -> map Some (written (log s)) = admitted (log s).
Proof.
  intros H Hqt Ht. destruct (quiet_all ls s H Hqt) as [E1 E2]. rewrite E1. specialize (E2 t).
  assert (Hall : forall ls s0 s, exec pstep s0 ls = Some s -> (forall u x, In (LCheck u x) ls -> u = t) ->
     (forall u x, In (u, x) (pending s0) -> u = t) -> pushed (log s0) = pushed_of t (log s0) -> admitted (log s0) = admitted_of t (log s0) ->
     pushed (log s) = pushed_of t (log s) /\ admitted (log s) = admitted_of t (log s)).
  { clear. induction ls as [|l ls IH]; intros s0 s H Hu Hp H1 H2; cbn in H; [injection H as <-; auto|].
    destruct (pstep s0 l) as [m|] eqn:Em; [|discriminate]. apply (IH m s H); [intros; eapply Hu; right; eauto| | |]; clear IH H.
    - pcases' Em; cbn [pending]; try exact Hp.
      + intros u y Hin. apply in_app_or in Hin as [Hin|[Hin|[]]]; [eauto|]. injection Hin as <- <-. eapply Hu. left. reflexivity.
      + intros u y Hin. unfold del_pending in Hin. apply filter_In in Hin as [Hin _]. eauto.
    - pcases' Em; cbn [log]; autorewrite with evs; cbn; autorewrite with evs; try exact H1.
      rewrite H1. replace (t =? t0) with true; [reflexivity|]. symmetry. apply Nat.eqb_eq.
      assert (In (t0, x0) (pending s0)) as Hin.
      { revert Hf. clear. induction (pending s0) as [|[u y] l IH]; cbn; [discriminate|]. destruct (Nat.eqb_spec t0 u) as [->|]; intros E; [injection E as ->; auto|auto]. }
      symmetry. eauto.
    - pcases' Em; cbn [log]; autorewrite with evs; cbn; autorewrite with evs; try exact H2.
      rewrite H2. replace (t =? t0) with true; [reflexivity|]. symmetry. apply Nat.eqb_eq. symmetry. eapply Hu. left. reflexivity. }
  destruct (Hall ls new_peer s H Ht) as [A B]; [intros u x []|reflexivity|reflexivity|]. rewrite A, B. exact E2.
Qed.
(* a sender that raced past the check blocks for good once the routine ended *)
Lemma blocked_forever s : routine s = WEnded -> length (queue s) = cSendChanSize -> forall ls s', exec pstep s ls = Some s' ->
  queue s' = queue s /\ pending s' = pending s /\ routine s' = WEnded.
Proof.
  intros Hr1 Hq1 ls s' H0. eapply (exec_inv pstep (fun x => queue x = queue s /\ pending x = pending s /\ routine x = WEnded)); [|auto|exact H0].
  clear ls s' H0. intros m l m' (A & B & C) H. pcases' H; cbn [queue pending routine]; auto; rewrite ?A in *; try congruence; lia.
Qed.

(* C24 *)
Lemma some_none_prefix (l : list P) (a b : list (option P)) r : map Some l ++ r = a ++ None :: b -> exists r', a = map Some l ++ r'.
Proof.
  revert a. induction l as [|p l IH]; intros a E; cbn in E; [exists a; reflexivity|]. destruct a as [|x a]; cbn in E; [discriminate|].
  injection E as <- E. destruct (IH a E) as [r' ->]. exists r'. reflexivity.
Qed.
Lemma nothing_after_mark ls s a t b : exec pstep new_peer ls = Some s -> log s = a ++ EPush t None :: b ->
  exists rest, pushed a = map Some (written (log s)) ++ rest.
Proof.
  intros H E. destruct (written_prefix ls s H) as [r Hr]. rewrite E, pushed_app in Hr at 1. cbn in Hr.
  symmetry in Hr. exact (some_none_prefix _ _ _ _ Hr).
Qed.
Lemma nothing_after_close ls s a b : exec pstep new_peer ls = Some s -> log s = a ++ EConnClosed :: b ->
  written (log s) = written a /\ (length (popped (log s)) <= length (popped a) + 1)%nat.
Proof.
  intros H E. destruct (exec_prefix ls new_peer s a _ b H E) as (ls1 & l & ls2 & m & m' & -> & A & B & C & D); [cbn; lia|].
  pcases' C; cbn [log] in D; rewrite B in D; apply app_inv_head in D; try discriminate.
  rewrite exec_app, A in H. cbn in H. rewrite B in H.
  assert (I : open s = false /\ written (log s) = written a /\
     (length (popped (log s)) <= length (popped a) + match routine s with WWaiting => 0 | _ => 1 end)%nat).
  { eapply (exec_inv pstep (fun x => open x = false /\ written (log x) = written a /\
      (length (popped (log x)) <= length (popped a) + match routine x with WWaiting => 0 | _ => 1 end)%nat)); [| |exact H].
    - intros x l y (I1 & I2 & I3) Hs. pcases' Hs; cbn [open log routine]; autorewrite with evs; cbn [written popped flat_map app];
        autorewrite with evs; try congruence; (split; [first [assumption|reflexivity]|split; [assumption|]]); rewrite ?app_length; cbn [length];
        try rewrite Hr in I3; try assumption; try (destruct x0; lia); lia.
    - cbn [open log routine]. autorewrite with evs. cbn. autorewrite with evs. split; [auto|]. split; [reflexivity|]. destruct (routine m); lia. }
  destruct I as (_ & I2 & I3). split; [exact I2|]. destruct (routine s); lia.
Qed.
Lemma ended_flushes ls s : exec pstep new_peer ls = Some s -> routine s = WEnded -> failed (log s) = [] ->
  exists rest, pushed (log s) = map Some (written (log s)) ++ None :: rest.
Proof.
  intros H Hr Hf. apply ok_exec in H as [K1 K2 _ _ _ _]. rewrite Hr, Hf in K2. rewrite K1, K2, <- app_assoc. cbn. eauto.
Qed.
Lemma ended_reason ls s : exec pstep new_peer ls = Some s -> routine s = WEnded ->
  In None (pushed (log s)) \/ failed (log s) <> [].
Proof.
  intros H Hr. destruct (failed (log s)) eqn:E; [left|right; discriminate]. destruct (ended_flushes ls s H Hr E) as [r ->].
  apply in_or_app. right. left. reflexivity.
Qed.
End Proof.
