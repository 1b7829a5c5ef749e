(* Features: local calls, announcements. *)
From Verif Require Import Lts GoVal Tables DockModel DockSpec DockProof.
From Coq Require Import Arith Bool List ZArith Lia Permutation.
Import ListNotations.
Open Scope nat_scope.

Ltac proj := cbn [slots remote rpcs calls handlers announcers servers callbacks starters sockets runner closer state hist
  adds with_slots with_remote with_rpcs with_calls with_handler with_announcers with_servers with_callbacks with_starters with_sockets
  with_runner with_closer with_state open_socket with_req with_chan with_pc] in *.

(* association lists *)
Lemma aget_aput {A} (l : list (name * A)) k v x : aget (aput l k v) x = if zlist_eqb k x then Some v else aget l x.
Proof.
  induction l as [|[y w] l IH]; cbn; [reflexivity|]. destruct (zlist_eqb_spec y k) as [E|N]; cbn.
  - subst y. destruct (zlist_eqb k x); reflexivity.
  - destruct (zlist_eqb_spec y x) as [E|N']; [|exact IH]. subst y. destruct (zlist_eqb_spec k x); congruence.
Qed.
Lemma aput_keys {A} (l : list (name * A)) k v : NoDup (map fst l) -> NoDup (map fst (aput l k v)).
Proof.
  intros H. assert (S : forall x, In x (map fst (aput l k v)) -> x = k \/ In x (map fst l)).
  { intros x. induction l as [|[y w] l IH]; cbn; [intuition|]. inversion H; subst. destruct (zlist_eqb y k) eqn:E; cbn; [intuition|]. intuition. }
  induction l as [|[y w] l IH]; cbn; [constructor; [intros []|constructor]|]. inversion H; subst.
  destruct (zlist_eqb_spec y k) as [E|N]; cbn; [exact H|]. constructor; [|apply IH; auto].
  - intros X. destruct (zlist_eqb_spec y k); [congruence|]. clear S.
    assert (S : forall l, In y (map fst (aput l k v)) -> In y (map fst l)).
    { clear - N. induction l as [|[z w] l IH]; cbn; [intuition congruence|]. destruct (zlist_eqb z k); cbn; intuition. }
    auto.
  - intros x X. assert (S' : forall l, In x (map fst (aput l k v)) -> x = k \/ In x (map fst l)).
    { clear. induction l as [|[z w] l IH]; cbn; [intuition|]. destruct (zlist_eqb z k); cbn; intuition. }
    auto.
Qed.
Lemma aget_in {A} (l : list (name * A)) k v : NoDup (map fst l) -> (aget l k = Some v <-> In (k, v) l).
Proof.
  intros N. induction l as [|[y w] l IH]; cbn; [split; [discriminate|intros []]|]. inversion N; subst.
  destruct (zlist_eqb_spec y k) as [->|Ne].
  - split; [intros E; left; congruence|]. intros [E|E]; [congruence|]. exfalso. apply H1. apply (in_map fst) in E. exact E.
  - rewrite IH by auto. split; [auto|]. intros [E|E]; [congruence|auto].
Qed.
Lemma aget_none {A} (l : list (name * A)) k : aget l k = None <-> ~ In k (map fst l).
Proof.
  induction l as [|[y w] l IH]; cbn; [tauto|]. destruct (zlist_eqb_spec y k) as [->|N]; [split; [discriminate|tauto]|]. rewrite IH. intuition.
Qed.

Definition table (carried : list (name * bool)) := fold_left (fun m s => aput m (fst s) (snd s)) carried [].
Lemma table_snoc c f v : table (c ++ [(f, v)]) = aput (table c) f v.
Proof. unfold table. rewrite fold_left_app. reflexivity. Qed.
Lemma table_nodup c : NoDup (map fst (table c)).
Proof. induction c as [|[f v] c IH] using rev_ind; [constructor|]. rewrite table_snoc. apply aput_keys, IH. Qed.
Lemma table_get c f v : aget (table c) f = Some v <-> carries c f v.
Proof.
  induction c as [|[g w] c IH] using rev_ind.
  - split; [discriminate|]. intros (l1 & l2 & E & _). destruct l1; discriminate.
  - rewrite table_snoc, aget_aput. destruct (zlist_eqb_spec g f) as [->|N].
    + split; [intros E; injection E as ->; exists c, []; split; [reflexivity|intros []]|].
      intros (l1 & l2 & E & Hn). destruct l2 as [|z l2 _] using rev_ind; [apply app_inj_tail in E as [_ E]; congruence|].
      exfalso. apply Hn. change ((f, v) :: l2 ++ [z]) with (((f, v) :: l2) ++ [z]) in E. rewrite app_assoc in E. apply app_inj_tail in E as [_ E]. subst z.
      rewrite map_app, in_app_iff. right. left. reflexivity.
    + rewrite IH. split.
      * intros (l1 & l2 & -> & Hn). exists l1, (l2 ++ [(g, w)]). split; [rewrite <- app_assoc; reflexivity|]. rewrite map_app, in_app_iff. cbn. tauto.
      * intros (l1 & l2 & E & Hn). destruct l2 as [|z l2 _] using rev_ind; [apply app_inj_tail in E as [_ E]; congruence|].
        change ((f, v) :: l2 ++ [z]) with (((f, v) :: l2) ++ [z]) in E. rewrite app_assoc in E. apply app_inj_tail in E as [E _].
        exists l1, l2. split; [auto|]. rewrite map_app, in_app_iff in Hn. tauto.
Qed.
Lemma table_none c f : aget (table c) f = None <-> ~ In f (map fst c).
Proof.
  induction c as [|[g w] c IH] using rev_ind; [cbn; tauto|]. rewrite table_snoc, aget_aput, map_app, in_app_iff. cbn.
  destruct (zlist_eqb_spec g f) as [->|N]; [split; [discriminate|tauto]|]. rewrite IH. intuition.
Qed.

(* orders *)
Lemma takeout_perm x l r : takeout x l = Some r -> Permutation l (x :: r).
Proof.
  revert r. induction l as [|y l IH]; intros r; cbn; [discriminate|]. destruct (zlist_eqb_spec y x) as [->|N]; [intros E; injection E as ->; reflexivity|].
  destruct (takeout x l) as [r'|]; [|discriminate]. cbn. intros E. injection E as <-. rewrite (IH r' eq_refl). apply perm_swap.
Qed.
Lemma takeout_some x l : In x l -> exists r, takeout x l = Some r.
Proof.
  induction l as [|y l IH]; cbn; [intros []|]. destruct (zlist_eqb_spec y x) as [->|N]; [eauto|]. intros [E|E]; [congruence|].
  destruct (IH E) as [r ->]. cbn. eauto.
Qed.
Lemma reorders_perm a b : reorders a b = true <-> Permutation a b.
Proof.
  revert b. induction a as [|x a IH]; intros b; cbn.
  - destruct b; split; auto; try discriminate. intros H. apply Permutation_nil in H. discriminate.
  - destruct (takeout x b) as [b'|] eqn:E.
    + rewrite IH. apply takeout_perm in E. split; [intros P; rewrite E; auto|]. intros P. rewrite E in P. apply Permutation_cons_inv in P. exact P.
    + split; [discriminate|]. intros P. assert (In x b) by (eapply Permutation_in; [exact P|left; auto]).
      destruct (takeout_some _ _ H) as [r E']. congruence.
Qed.

Section P.
Context {V : Type}.
Notation dock := (DockModel.dock V).
Implicit Types d : dock.
Notation tr := (tr V).

Lemma tr_hist d l d' : tr d l d' -> exists es, hist d' = hist d ++ es.
Proof. intros T. destruct T; proj; rewrite <- ?app_assoc; try (eexists; reflexivity); exists []; symmetry; apply app_nil_r. Qed.
Lemma dstep_grows d l d' : dstep d l = Some d' -> exists es, hist d' = hist d ++ es.
Proof. intros H. apply dstep_tr in H as [_ T]. eapply tr_hist; eauto. Qed.

(* invariants of all reachable states *)
Lemma reach (I : dock -> Prop) carried : I (new_dock carried) -> (forall d l d', I d -> state d = Alive -> tr d l d' -> I d') ->
  forall ls d, exec dstep (new_dock carried) ls = Some d -> I d.
Proof. intros H0 Hs ls d E. eapply exec_inv; [|exact H0|exact E]. intros s l s' Is St. apply dstep_tr in St as [A T]. eauto. Qed.
Lemma reach_from (I : dock -> Prop) : (forall d l d', I d -> state d = Alive -> tr d l d' -> I d') ->
  forall ls d0 d, I d0 -> exec dstep d0 ls = Some d -> I d.
Proof. intros Hs ls d0 d H0 E. eapply exec_inv; [|exact H0|exact E]. intros s l s' Is St. apply dstep_tr in St as [A T]. eauto. Qed.

Definition slots_ok carried (sl : list (name * bool)) (h : list (event V)) := (~ cleared h /\ sl = table carried) \/ (cleared h /\ sl = []).
Lemma slots_frame carried sl h e : slots_ok carried sl h -> ~ In ECleared e -> slots_ok carried sl (h ++ e).
Proof. unfold slots_ok, cleared. rewrite in_app_iff. tauto. Qed.
Ltac fr lem I := first [exact I | rewrite <- ?app_assoc; apply lem; [exact I|cbn; intuition congruence]].
Lemma slots_inv carried ls d : exec dstep (new_dock carried) ls = Some d -> slots_ok carried (slots d) (hist d).
Proof.
  apply (reach (fun d => slots_ok carried (slots d) (hist d))); [left; split; [intros []|reflexivity]|].
  clear. intros d l d' I _ T. destruct T; proj; try (fr slots_frame I).
  right. split; [|reflexivity]. unfold cleared. rewrite in_app_iff. right; left; reflexivity.
Qed.

(* the step behind an event *)
Lemma behind carried ls d a e b : exec dstep (new_dock carried) ls = Some d -> hist d = a ++ e :: b ->
  exists ls1 l ls2 d1 d2 es1 es2, ls = ls1 ++ l :: ls2 /\ exec dstep (new_dock carried) ls1 = Some d1 /\ tr d1 l d2 /\ exec dstep d2 ls2 = Some d /\
    a = hist d1 ++ es1 /\ hist d2 = hist d1 ++ es1 ++ e :: es2.
Proof.
  intros E H. destruct (origin _ _ dstep_grows _ _ _ E _ _ _ H) as (ls1 & l & ls2 & s1 & s2 & es1 & es2 & A & B & C & D & F & G); [cbn; lia|].
  apply dstep_tr in C as [_ C]. eauto 15.
Qed.
End P.

(* the events of one step: [G : hist d2 = hist d1 ++ es1 ++ e :: es2], [T : tr d1 l d2] *)
Lemma split1 {A} (h es1 es2 : list A) x e : h ++ [x] = h ++ es1 ++ e :: es2 -> es1 = [] /\ es2 = [] /\ x = e.
Proof. intros H. apply app_inv_head in H. destruct es1 as [|y [|z es1]]; cbn in H; try discriminate; try (injection H as <- <-; auto). Qed.
Lemma split0 {A} (h es1 es2 : list A) e : h = h ++ es1 ++ e :: es2 -> False.
Proof. intros H. apply (f_equal (@length A)) in H. rewrite !app_length in H. cbn in H. lia. Qed.
Lemma split2 {A} (h es1 es2 : list A) x y e : h ++ [x; y] = h ++ es1 ++ e :: es2 -> (es1 = [] /\ es2 = [y] /\ x = e) \/ (es1 = [x] /\ es2 = [] /\ y = e).
Proof.
  intros H. apply app_inv_head in H. destruct es1 as [|u [|w es1]]; cbn in H.
  - injection H as <- <-. auto.
  - injection H as <- <- <-. auto.
  - destruct es1; discriminate.
Qed.
Ltac event T G := destruct T; proj; rewrite <- ?app_assoc in G; cbn [app] in G;
  first [apply split0 in G; contradiction
        |apply split1 in G as (? & ? & G); first [discriminate G | injection G; clear G; intros; subst | match type of G with ?x = ?x => clear G; subst end]
        |apply split2 in G as [(? & ? & G)|(? & ? & G)]; first [discriminate G | injection G; clear G; intros; subst | match type of G with ?x = ?x => clear G; subst end]].

Section Q.
Context {V : Type}.
Notation dock := (DockModel.dock V).
Implicit Types d : dock.

(* C36 *)
Lemma local_event carried ls d a f m args w b : exec dstep (new_dock carried) ls = Some d -> hist d = a ++ @ELocal V f m args w :: b ->
  ~ cleared a /\ In f (map fst carried).
Proof.
  intros E H. destruct (behind _ _ _ _ _ _ E H) as (ls1 & l & ls2 & d1 & d2 & es1 & es2 & _ & E1 & T & _ & F & G). pose proof (slots_inv _ _ _ E1) as I.
  event T G. rewrite app_nil_r. destruct I as [[Nc I]|[Nc I]]; rewrite I in *; [|discriminate]. split; [exact Nc|].
  destruct (in_dec (list_eq_dec Z.eq_dec) f (map fst carried)) as [X|X]; [exact X|]. apply table_none in X. congruence.
Qed.
Lemma new_event carried ls d a c q b : exec dstep (new_dock carried) ls = Some d -> hist d = a ++ @ENew V c q :: b ->
  cleared a \/ ~ In (q_slot q) (map fst carried).
Proof.
  intros E H. destruct (behind _ _ _ _ _ _ E H) as (ls1 & l & ls2 & d1 & d2 & es1 & es2 & _ & E1 & T & _ & F & G). pose proof (slots_inv _ _ _ E1) as I.
  event T G. rewrite app_nil_r. destruct I as [[Nc I]|[Nc I]]; [|auto]. right. rewrite I in *. apply table_none. assumption.
Qed.
Lemma call_step carried ls d f m args w clock : exec dstep (new_dock carried) ls = Some d -> state d = Alive ->
  exists d', dstep d (@LCall V f m args w clock) = Some d' /\
    ((~ cleared (hist d) /\ In f (map fst carried) /\ hist d' = hist d ++ [ELocal f m args w] /\ rpcs d' = rpcs d /\ calls d' = calls d) \/
     ((cleared (hist d) \/ ~ In f (map fst carried)) /\ hist d' = hist d ++ [ENew (length (calls d)) (mkReq clock f m args w)] /\
        zget (rpcs d') clock = Some (length (calls d)) /\ length (calls d') = S (length (calls d)))).
Proof.
  intros E A. pose proof (slots_inv _ _ _ E) as I. unfold dstep. rewrite A.
  assert (Z : forall l, zget (zput l clock (length (calls d))) clock = Some (length (calls d))).
  { induction l as [|[k v] l IHl]; cbn; [rewrite Z.eqb_refl; reflexivity|]. destruct (Z.eqb_spec k clock); cbn; [subst; rewrite Z.eqb_refl; reflexivity|].
    destruct (Z.eqb_spec k clock); [congruence|exact IHl]. }
  destruct (aget (slots d) f) eqn:Ea; eexists; (split; [reflexivity|]); proj.
  - left. destruct I as [[Nc I]|[Nc I]]; rewrite I in *; [|discriminate]. repeat split; auto.
    destruct (in_dec (list_eq_dec Z.eq_dec) f (map fst carried)) as [X|X]; [exact X|]. apply table_none in X. congruence.
  - right. repeat split; auto.
    + destruct I as [[Nc I]|[Nc I]]; [right|auto]. rewrite I in *. apply table_none. assumption.
    + rewrite app_length. cbn. lia.
Qed.

(* C37 *)
Lemma collected_spec carried ns : Permutation ns (map fst (filter snd (table carried))) -> NoDup ns /\ forall f, In f ns <-> carries carried f true.
Proof.
  intros P. split.
  - eapply Permutation_NoDup; [symmetry; exact P|]. pose proof (table_nodup carried) as N. clear P.
    induction (table carried) as [|[f []] l IH]; cbn; [constructor| |]; inversion N; subst; auto. constructor; auto.
    intros X. apply H1. apply in_map_iff in X as ((g & v) & <- & X). apply filter_In in X as [X _]. apply (in_map fst) in X. exact X.
  - intros f. rewrite <- table_get, aget_in by apply table_nodup. split.
    + intros X. apply (Permutation_in _ P) in X. apply in_map_iff in X as ((g & v) & <- & X). apply filter_In in X as [X Y]. cbn in Y. subst v. exact X.
    + intros X. apply (Permutation_in _ (Permutation_sym P)). apply in_map_iff. exists (f, true). split; [reflexivity|]. apply filter_In. auto.
Qed.
Lemma announce_event carried ls d a p k ns acc b : exec dstep (new_dock carried) ls = Some d -> hist d = a ++ @ESend V p k acc :: b -> (k = KRegister ns \/ k = KReady ns) ->
  (~ cleared a -> NoDup ns /\ forall f, In f ns <-> carries carried f true) /\ (cleared a -> ns = []).
Proof.
  intros E H K. destruct (behind _ _ _ _ _ _ E H) as (ls1 & l & ls2 & d1 & d2 & es1 & es2 & _ & E1 & T & _ & F & G). pose proof (slots_inv _ _ _ E1) as I.
  assert (X : es1 = [] /\ reorders ns (collected d1) = true).
  { event T G; destruct K as [K|K]; try discriminate K; injection K as <-; auto. }
  destruct X as [-> X]. rewrite app_nil_r in F. subst a. apply reorders_perm in X. unfold collected in X.
  destruct I as [[Nc I]|[Nc I]]; rewrite I in X; (split; [intros Y; try contradiction|intros Y; try contradiction]).
  - exact (collected_spec _ _ X).
  - apply Permutation_sym, Permutation_nil in X. exact X.
Qed.
End Q.
