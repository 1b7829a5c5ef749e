From Verif Require Import Lts PeerLifeModel.
From Coq Require Import Arith Bool Lia.

(* --- sink --- *)
Definition sink_ok (s : sinkst) : Prop :=
  on_closed s = match sink s, closing s with true, Some (_, CNotified) => 1 | true, _ => 0 | false, _ => 1 end /\
  (closes s > 0 \/ match closing s with Some (_, CConn) => True | _ => False end -> sink s = false).
Lemma at_close_eq s t c : at_close s t c = true -> closing s = Some (t, c).
Proof.
  unfold at_close. destruct (closing s) as [[u d]|]; [|discriminate]. rewrite andb_true_iff, Nat.eqb_eq. intros [-> H].
  destruct c, d; congruence.
Qed.
Ltac sinv H := unfold sstep in H; destruct (panicked _) eqn:?; [discriminate|];
  repeat match type of H with
  | match ?x with _ => _ end = Some _ => let E := fresh "E" in destruct x eqn:E; try discriminate
  end; injection H as <-.
Lemma sink_ok_step s l s' : sink_ok s -> sstep s l = Some s' -> sink_ok s'.
Proof.
  intros [A B] H. destruct l; sinv H;
    repeat match goal with E : at_close _ _ _ = true |- _ => apply at_close_eq in E end;
    unfold sink_ok in *; cbn [sink recv closing on_packet on_closed closes panicked];
    repeat match goal with E : closing _ = _ |- _ => rewrite E in * end;
    destruct (sink s) eqn:Es; try discriminate;
    try (assert (closes s = 0) by (destruct (closes s); [reflexivity|exfalso; discriminate B; left; lia]));
    try (exfalso; discriminate B; right; exact I);
    try (split; [assumption|assumption]); try (split; [lia|intros; intuition (auto; lia)]).
Qed.
Lemma sink_ok_exec ls s : exec sstep new_sink ls = Some s -> sink_ok s.
Proof. intros H. eapply exec_inv; [exact sink_ok_step| |exact H]. split; [reflexivity|]. cbn. intuition lia. Qed.
Lemma closed_once ls s : exec sstep new_sink ls = Some s -> on_closed s <= 1.
Proof. intros H. destruct (sink_ok_exec _ _ H) as [-> _]. destruct (sink s), (closing s) as [[? []]|]; lia. Qed.
Lemma closed_exact ls s : exec sstep new_sink ls = Some s -> closes s > 0 -> on_closed s = 1 /\ sink s = false.
Proof. intros H Hc. destruct (sink_ok_exec _ _ H) as [A B]. rewrite B in A by auto. rewrite B by auto. auto. Qed.
Lemma remote_disconnect ls s : exec sstep new_sink ls = Some s -> (forall t, ~ In (LNotify t) ls) ->
  on_closed s = 0 /\ sink s = true /\ panicked s = false.
Proof.
  assert (G : forall ls s0 s, exec sstep s0 ls = Some s -> (forall t, ~ In (LNotify t) ls) ->
    on_closed s0 = 0 /\ sink s0 = true /\ panicked s0 = false /\ (forall t c, closing s0 = Some (t, c) -> c = CMark \/ c = CSink) ->
    on_closed s = 0 /\ sink s = true /\ panicked s = false).
  { clear. induction ls as [|l ls IH]; intros s0 s H Hn (A & B & C & D); cbn in H; [injection H as <-; auto|].
    destruct (sstep s0 l) as [m|] eqn:Em; [|discriminate]. apply (IH m s H); [intros t Hi; exact (Hn t (or_intror Hi))|]. clear IH H.
    destruct l; sinv Em; repeat match goal with E : at_close _ _ _ = true |- _ => apply at_close_eq in E end;
      cbn [sink recv closing on_packet on_closed closes panicked]; try congruence;
      try (exfalso; exact (Hn _ (or_introl eq_refl)));
      try (repeat split; auto; fail);
      try (repeat split; auto; intros u c Hc; injection Hc as <- <-; auto; fail).
    - specialize (D _ _ E). destruct D; discriminate.
    - specialize (D _ _ E). destruct D; discriminate. }
  intros H Hn. apply (G ls new_sink s H Hn). cbn. repeat split; auto. discriminate.
Qed.

(* the last thing the receive routine did *)
Definition recv_label (l : slabel) : bool :=
  match l with LArrive | LCheckSink | LCallSink | LReadError => true | _ => false end.
Definition last_recv (ls : list slabel) : option slabel := hd_error (filter recv_label (rev ls)).
Lemma last_recv_snoc ls l : last_recv (ls ++ [l]) = if recv_label l then Some l else last_recv ls.
Proof. unfold last_recv. rewrite rev_app_distr. cbn. destruct (recv_label l); reflexivity. Qed.
Lemma serial_close_safe ls s : exec sstep new_sink ls = Some s ->
  (forall a t b, ls = a ++ LClear t :: b -> last_recv a <> Some LCheckSink) -> panicked s = false.
Proof.
  intros H Hs.
  assert (G : panicked s = false /\ (recv s = RChecked -> sink s = true /\ last_recv ls = Some LCheckSink)); [|tauto].
  revert s H Hs. induction ls as [|l ls IH] using rev_ind; intros s H Hs.
  - cbn in H. injection H as <-. cbn. split; [reflexivity|discriminate].
  - apply exec_split in H as (m & Hm & Hl). cbn in Hl. destruct (sstep m l) as [m'|] eqn:Em; [|discriminate]. injection Hl as <-.
    destruct (IH m Hm) as [P R]. { intros a t b E. apply (Hs a t (b ++ [l])). rewrite E, <- app_assoc. reflexivity. }
    rewrite last_recv_snoc. destruct l; sinv Em; cbn [sink recv closing on_packet on_closed closes panicked recv_label]; try (split; [reflexivity|]);
      try discriminate; try assumption; try (intros _; auto; fail).
    + destruct (sink m); [auto|discriminate].
    + exfalso. destruct (R eq_refl) as [X _]. discriminate X.
    + intros X. destruct (R X) as [_ Y]. exfalso. exact (Hs ls t [] eq_refl Y).
Qed.
(* once a close has returned, the sink hears no more *)
Lemma silent_after_close ls1 ls2 s1 s2 : exec sstep new_sink ls1 = Some s1 -> closes s1 > 0 -> exec sstep s1 ls2 = Some s2 ->
  on_packet s2 = on_packet s1 /\ on_closed s2 = on_closed s1.
Proof.
  intros H1 Hc H2. destruct (closed_exact _ _ H1 Hc) as [_ Hs].
  assert (I : sink s2 = false /\ on_packet s2 = on_packet s1 /\ on_closed s2 = on_closed s1); [|tauto].
  eapply (exec_inv sstep (fun s => sink s = false /\ on_packet s = on_packet s1 /\ on_closed s = on_closed s1)); [|repeat split; assumption|exact H2].
  intros s l s' (A & B & C) H. destruct l; sinv H; cbn [sink on_packet on_closed]; auto; congruence.
Qed.

(* --- socket --- *)
Ltac kinv H := unfold kstep in H;
  repeat match type of H with
  | match ?x with _ => _ end = Some _ => let E := fresh "E" in destruct x eqn:E; try discriminate
  end; injection H as <-.
Record sock_ok (s : sock) : Prop := {
  so_peers : match close_pc s with KDone => True | _ => peers s = seq 0 (next s) end;
  so_bound : forall p, In p (peers s) -> p < next s;
  so_nodup : NoDup (peers s);
  so_run : forall p, In p (running s) -> p < next s }.
Lemma sock_ok_step s l s' : sock_ok s -> kstep s l = Some s' -> sock_ok s'.
Proof.
  intros [A B C D] H. destruct l; kinv H; constructor; cbn [peers accepting close_pc next running sent] in *;
    try rewrite E in A; try rewrite E0 in A; auto.
  - destruct (close_pc s); try exact I; rewrite A, seq_S; reflexivity.
  - intros p Hp. apply in_app_or in Hp as [Hp|[<-|[]]]; [specialize (B p Hp)|]; lia.
  - apply NoDup_Add with (a := next s) (l := peers s).
    + rewrite <- (app_nil_r (peers s)) at 1. apply Add_app.
    + split; [exact C|]. intros Hin. specialize (B _ Hin). lia.
  - intros p Hp. apply in_app_or in Hp as [Hp|[<-|[]]]; [specialize (D p Hp)|]; lia.
  - intros p Hp. apply filter_In in Hp as [Hp _]. auto.
  - intros p [].
  - constructor.
Qed.
Lemma sock_ok_exec ls s : exec kstep new_sock ls = Some s -> sock_ok s.
Proof.
  intros H. eapply exec_inv; [exact sock_ok_step| |exact H]. constructor; cbn; auto; [intros p []|constructor|intros p []].
Qed.
(* before Close ends, Send hands the packet to every connection accepted so far, once each, in order *)
Lemma send_all ls s x s' : exec kstep new_sock ls = Some s -> close_pc s <> KDone -> kstep s (KSend x) = Some s' ->
  sent s' = sent s ++ map (fun p => (p, x)) (seq 0 (next s)).
Proof.
  intros H Hc E. destruct (sock_ok_exec _ _ H) as [A _ _ _]. cbn in E. injection E as <-. cbn. destruct (close_pc s); try congruence; rewrite A; reflexivity.
Qed.
(* accepting does not overlap with closing: every peer is closed in the end *)
Definition quiet_accept (ls : list klabel) : Prop :=
  forall a b, ls = a ++ KClose :: b -> ~ In KAppend b /\ ~ In KAccept b.
Lemma close_all ls s : exec kstep new_sock ls = Some s -> quiet_accept ls -> close_pc s = KDone -> running s = [] /\ peers s = [].
Proof.
  intros H Hq Hd.
  assert (G : forall ls s, exec kstep new_sock ls = Some s -> quiet_accept ls ->
    match close_pc s with
    | KOpen => running s = peers s
    | KClosing todo => (forall p, In p (running s) -> In p todo) /\ In KClose ls
    | KDone => running s = [] /\ peers s = [] /\ In KClose ls
    end).
  { clear. intros ls. induction ls as [|l ls IH] using rev_ind; intros s H Hq.
    - cbn in H. injection H as <-. reflexivity.
    - apply exec_split in H as (m & Hm & Hl). cbn in Hl. destruct (kstep m l) as [m'|] eqn:Em; [|discriminate]. injection Hl as <-.
      assert (Hq' : quiet_accept ls). { intros a b E. destruct (Hq a (b ++ [l])) as [Q1 Q2]; [rewrite E, <- app_assoc; reflexivity|].
        split; intros X; [apply Q1|apply Q2]; apply in_or_app; auto. }
      specialize (IH m Hm Hq').
      assert (Hin : In KClose ls -> l <> KAppend).
      { intros Hi ->. apply in_split in Hi as (a & b & ->). destruct (Hq a (b ++ [KAppend])) as [Q _]; [rewrite <- app_assoc; reflexivity|].
        apply Q. apply in_or_app. cbn. auto. }
      destruct l; kinv Em; cbn [peers accepting close_pc next running sent] in *; try rewrite E in *; try rewrite E0 in *;
        try (destruct (close_pc m); intuition (try apply in_or_app; auto); fail).
      + destruct (close_pc m); [rewrite IH; reflexivity| |]; exfalso; apply Hin; tauto.
      + split; [rewrite IH; auto|]. apply in_or_app. cbn. auto.
      + destruct IH as [I1 I2]. split; [|apply in_or_app; auto]. intros p Hp. apply filter_In in Hp as [Hp Hn].
        specialize (I1 p Hp). destruct I1 as [->|]; [|assumption]. rewrite Nat.eqb_refl in Hn. discriminate.
      + destruct IH as [I1 I2]. split; [|split; [reflexivity|apply in_or_app; auto]]. destruct (running m) as [|p r]; [reflexivity|].
        exfalso. exact (I1 p (or_introl eq_refl)). }
  specialize (G ls s H Hq). rewrite Hd in G. tauto.
Qed.
(* a peer accepted during Close is never closed *)
Lemma leak_forever p s : close_pc s = KDone -> In p (running s) -> forall ls s', exec kstep s ls = Some s' -> In p (running s').
Proof.
  intros Hd Hp ls s' H. assert (I : close_pc s' = KDone /\ In p (running s')); [|tauto].
  refine (exec_inv kstep (fun x => close_pc x = KDone /\ In p (running x)) _ ls s s' _ H); [|split; assumption].
  intros x l y (A & B) Hs. destruct l; kinv Hs; cbn [close_pc running]; auto; try congruence. split; [auto|]. apply in_or_app. auto.
Qed.
