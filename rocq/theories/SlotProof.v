(* What a feature lets others call; calls of the methods of IFeature. *)
From Verif Require Import Lts GoInt GoVal Tables CodecSpec DockModel DockSpec DockProof2 DockProof8 SysModel SysSpec SysCodec WorldModel ByteModel ByteSpec FleetModel FleetSpec FleetLiveSpec HarborModel HarborSpec HarborProof HarborProof2 HarborProof3 IsleSpec IsleProof2 MetaModel SlotModel SlotSpec.
From Verif Require ChanModel ChanSpec ChanProof ChanProof2 ChanProof3 ChanLiveSpec ChanLiveProof HarborProof4.
From Coq Require Import Arith Bool List ZArith Lia.
Import ListNotations.
Open Scope nat_scope.

Section Table.
Context {O : Type}.
Implicit Types (ms : list (method O)) (m : method O) (t : table O).

Lemma exported_capital n : exported n = true <-> capital n.
Proof.
  unfold exported, capital. destruct n as [|c r]; [split; [discriminate|intros (c & r & H & _); discriminate H]|].
  rewrite andb_true_iff, !Z.leb_le. split; [intros H; exists c, r; auto|intros (c' & r' & [= <- <-] & H); exact H].
Qed.
Lemma lookup_in t n f : NoDup (map fst t) -> (lookup t n = Some f <-> In (n, f) t).
Proof.
  induction t as [|[k g] t IH]; intros N; cbn; [split; [discriminate|intros []]|]. inversion N as [|? ? Nk Nt]; subst.
  destruct (zlist_eqb k n) eqn:E.
  - apply zlist_eqb_eq in E as ->. split; [intros [= ->]; auto|]. intros [[= ->]|H]; [reflexivity|]. elim Nk. apply in_map_iff. exists (n, f). auto.
  - rewrite (IH Nt). split; [auto|]. intros [[= -> ->]|H]; [rewrite zlist_refl in E; discriminate|exact H].
Qed.
Definition put t m : table O := (m_name m, mkFcall (m_params m) (m_body m)) :: filter (fun e => negb (zlist_eqb (fst e) (m_name m))) t.
Lemma put_fresh t m : ~ In (m_name m) (map fst t) -> put t m = (m_name m, mkFcall (m_params m) (m_body m)) :: t.
Proof.
  intros N. unfold put. f_equal. induction t as [|[k g] t IH]; [reflexivity|]. cbn in *. destruct (zlist_eqb k (m_name m)) eqn:E.
  - apply zlist_eqb_eq in E. tauto.
  - cbn. f_equal. apply IH. tauto.
Qed.
Lemma collected ms : NoDup (map m_name ms) -> forall t, (forall m, In m ms -> ~ In (m_name m) (map fst t)) -> fold_left put ms t = rev (map (fun m => (m_name m, mkFcall (m_params m) (m_body m))) ms) ++ t.
Proof.
  induction ms as [|m ms IH]; intros N t F; [reflexivity|]. inversion N as [|? ? Nm Ns]; subst. cbn [fold_left map rev]. rewrite put_fresh by (apply F; now left).
  rewrite IH; auto; [rewrite <- app_assoc; reflexivity|]. intros m' I. cbn. intros [E|E]; [|exact (F m' (or_intror I) E)]. apply Nm. rewrite E. apply in_map. exact I.
Qed.
Lemma nodup_filter {A B} (h : A -> B) p l : NoDup (map h l) -> NoDup (map h (filter p l)).
Proof.
  induction l as [|a l IH]; intros N; [constructor|]. inversion N as [|? ? Na Nl]; subst. cbn. destruct (p a); [|auto]. cbn. constructor; [|auto].
  intros I. apply Na. apply in_map_iff in I as (x & E & I). apply filter_In in I as [I _]. apply in_map_iff. eauto.
Qed.
Lemma table_methods ms d sl n f : new_slot ms d = Some sl -> NoDup (map m_name ms) ->
  (lookup (sl_table sl) n = Some f <-> exists m, In m ms /\ m_name m = n /\ capital n /\ params f = m_params m /\ body f = m_body m).
Proof.
  unfold new_slot. destruct (is_feature ms); [|discriminate]. intros [= <-] N. cbn [sl_table]. unfold collect. fold put.
  pose proof (nodup_filter m_name (fun m => exported (m_name m)) ms N) as N'. change (fold_left _ (filter ?p ms) []) with (fold_left put (filter p ms) []). rewrite collected by (auto; intros ? ? []).
  rewrite app_nil_r, lookup_in.
  - rewrite <- in_rev, in_map_iff. split.
    + intros (m & E & I). injection E as <- <-. apply filter_In in I as [I X]. exists m. rewrite <- exported_capital. auto.
    + intros (m & I & <- & C & E1 & E2). exists m. split; [destruct f; cbn in *; subst; reflexivity|]. apply filter_In. split; [exact I|apply exported_capital, C].
  - rewrite map_rev, map_map. cbn. apply NoDup_rev, N'.
Qed.
Lemma not_in_table ms d sl ws open o n args : new_slot ms d = Some sl -> NoDup (map m_name ms) -> (forall m, In m ms -> m_name m = n -> ~ capital n) ->
  meta_call ws open (sl_table sl) o n args = Unknown.
Proof.
  intros S N H. unfold meta_call. destruct (lookup (sl_table sl) n) as [f|] eqn:E; [|reflexivity]. apply (table_methods _ _ _ _ _ S N) in E as (m & I & En & C & _). destruct (H m I En C).
Qed.
Lemma feature_has ms : is_feature ms = true <-> has ms onStart /\ has ms onDestroy.
Proof.
  unfold is_feature. cbn [forallb]. rewrite andb_true_r, andb_true_iff, !existsb_exists.
  assert (K : forall n, (exists m, In m ms /\ zlist_eqb (m_name m) n && takes_slot m = true) <-> has ms n).
  { intros n. unfold has, takes_slot. split; intros (m & I & X); exists m; split; auto.
    - apply andb_prop in X as [X Y]. apply zlist_eqb_eq in X. split; auto. destruct (m_params m) as [|[| | | | | | | | |[| |]] [|]]; try discriminate Y. destruct (m_results m); [auto|discriminate].
    - destruct X as (-> & -> & ->). now rewrite zlist_refl. }
  now rewrite !K.
Qed.
Lemma slot_features ms d : (exists sl, new_slot ms d = Some sl) <-> has ms onStart /\ has ms onDestroy.
Proof. rewrite <- feature_has. unfold new_slot. destruct (is_feature ms); split; intros H; eauto; try discriminate H. destruct H as (? & H). discriminate H. Qed.
Lemma embedded own d : (forall m, In m own -> ~ life_cycle (m_name m)) -> exists sl, new_slot (embed own) d = Some sl.
Proof.
  intros H. apply slot_features.
  assert (K : forall b, In b feature_base -> In b (embed own)).
  { intros b I. unfold embed. apply in_app_iff. right. apply filter_In. split; [exact I|]. apply negb_true_iff. destruct (existsb _ own) eqn:E; [|reflexivity].
    apply existsb_exists in E as (m & Im & E). apply zlist_eqb_eq in E. elim (H m Im). rewrite E. unfold life_cycle. cbn in I. destruct I as [<-|[<-|[]]]; cbn; auto. }
  split; [eexists; split; [apply K; left; reflexivity|cbn; auto]|eexists; split; [apply K; right; left; reflexivity|cbn; auto]].
Qed.
Lemma life_capital n : life_cycle n -> capital n.
Proof. intros [->| ->]; eexists _, _; (split; [reflexivity|lia]). Qed.
Lemma life_in_table ms d sl n : new_slot ms d = Some sl -> NoDup (map m_name ms) -> life_cycle n -> exists f, lookup (sl_table sl) n = Some f /\ params f = [islot].
Proof.
  intros S N L. assert (H : has ms n). { destruct (proj1 (slot_features ms d) (ex_intro _ sl S)). destruct L as [->| ->]; auto. }
  destruct H as (m & I & En & P & _). exists (mkFcall (m_params m) (m_body m)). split; [|exact P]. apply (table_methods _ _ _ _ _ S N). exists m. repeat split; auto. apply life_capital, L.
Qed.
(* no list of values without methods fits the parameters *)
Lemma no_slot ws open v : bare v = true -> convert ws (with_islot open) islot v = None.
Proof. intros B. destruct v as [| | | | | | |k l|ifc l|]; cbn in *; try discriminate B; rewrite ?B; reflexivity. Qed.
Lemma life_not_run ms d sl ws open o n args : new_slot ms d = Some sl -> NoDup (map m_name ms) -> life_cycle n -> forallb bare args = true ->
  meta_call ws (with_islot open) (sl_table sl) o n args = NotRun.
Proof.
  intros S N L B. destruct (life_in_table _ _ _ _ S N L) as (f & E & P). unfold meta_call. rewrite E, P. destruct args as [|v args]; [reflexivity|].
  cbn [forallb] in B. apply andb_prop in B as [B _]. cbn [convert_args]. now rewrite no_slot.
Qed.
Lemma life_panics ms d sl ws open decode k : new_slot ms d = Some sl -> NoDup (map m_name ms) -> life_cycle (decode k) ->
  ChanModel.known (slot_target ws open decode sl) k = true /\ forall o args, forallb bare args = true -> ChanModel.impl (slot_target ws open decode sl) o k args = None.
Proof.
  intros S N L. cbn. split; [destruct (life_in_table _ _ _ _ S N L) as (f & -> & _); reflexivity|]. intros o args B. now rewrite (life_not_run _ _ _ _ _ _ _ _ S N L B).
Qed.
End Table.

(* what the codec brings has no methods *)
Lemma wire_bare v v' : CodecSpec.wire v = Some v' -> bare v' = true.
Proof.
  destruct v as [| | | | | | |k l|ifc l|]; cbn; intros H; try (injection H as <-; reflexivity); try discriminate H; try (destruct (_ <? _)%Z; [discriminate H|injection H as <-; reflexivity]).
  - destruct (opt_map CodecSpec.wire l); [injection H as <-; reflexivity|discriminate H].
  - match type of H with match ?x with _ => _ end = _ => destruct x; [injection H as <-; reflexivity|discriminate H] end.
Qed.
Lemma through_bare l l' : through l = Some l' -> forallb bare l' = true.
Proof.
  unfold through. destruct (supported _); [|discriminate]. revert l'. induction l as [|v l IH]; cbn; intros l' H; [injection H as <-; reflexivity|].
  destruct (CodecSpec.wire v) as [v'|] eqn:E; [|discriminate H]. fold (opt_map CodecSpec.wire) in *. destruct (opt_map CodecSpec.wire l) as [t|]; [|discriminate H]. injection H as <-. cbn. rewrite (wire_bare _ _ E). now apply IH.
Qed.
