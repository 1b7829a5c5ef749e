(* Docks that have dialled the hub get registered. *)
From Verif Require Import Lts GoVal Tables DockModel DockSpec DockProof DockProof2 DockProof3 DockProof4 SysModel SysSpec SysProof SysProof2 SysProof3 WorldModel WorldSpec WorldProof WorldProof2 WorldProof3 WorldProof4.
From Verif Require HubModel HubSpec HubProof HubProof2 HubProof3 HubProof4.
From Coq Require Import Arith Bool List ZArith Lia.
Import ListNotations.
Open Scope nat_scope.

Section Dock.
Context {V : Type}.
Implicit Types d : dock V.
Lemma announce_ns d l d' es p : tr V d l d' -> hist d' = hist d ++ es -> In (p, false) (announcers d) ->
  In (p, false) (announcers d') \/ exists ns acc, In (ESend p (KRegister ns) acc) es /\ reorders ns (collected d) = true.
Proof.
  intros T G H. destruct T; proj; auto.
  - left. apply in_or_app. auto.
  - apply In_nth_error in H as [m Hm]. destruct (Nat.eq_dec m j) as [->|N].
    + right. apply app_inv_head in G. subst es. assert (p0 = p) as -> by congruence. exists ns, acc. split; auto. now left.
    + left. eapply nth_error_In. rewrite set_nth_other; eauto.
Qed.
(* on the way from cRegistered to cReady *)
Definition opening (h : hpc) : Prop := match h with BListen _ | BAppend _ | BSend => True | _ => False end.
Lemma opening_step d l d' es p : tr V d l d' -> hist d' = hist d ++ es -> state d' = Alive -> opening (handlers d p) ->
  opening (handlers d' p) \/ exists ns acc, In (ESend p (KReady ns) acc) es /\ reorders ns (collected d) = true.
Proof.
  intros T G A H. destruct T; proj; try discriminate; auto; unfold updp; destruct (Nat.eqb_spec p p0) as [->|]; auto;
    repeat match goal with X : handlers _ _ = _ |- _ => rewrite X in H end; cbn in H; try contradiction; try (left; exact I).
  right. apply app_inv_head in G. subst es. exists ns, acc. split; auto. now left.
Qed.
Lemma runner_step d l d' : tr V d l d' -> runner d' <> NDial -> runner d <> NDial \/ exists ok, l = LDial ok.
Proof. intros T N. destruct T; proj; auto; try (left; congruence); right; eauto. Qed.
End Dock.

Section P.
Context {V : Type}.
Variables (carried : nat -> list (name * bool)).
Variable carry : nat -> nat -> list V -> option (list V).
Variables (black : list Z) (raddr : nat -> name).
Notation sys := (SysModel.sys V).
Notation wstep := (wstep carry black raddr).
Notation run ls w := (exec wstep (winit carried) ls = Some w).
Implicit Types w : world V.

Definition handed (h : list HubModel.event) (j : nat) (f : name) : Prop :=
  exists m sl, nth_error h m = Some (HubModel.ERecv j (HubModel.PReady sl)) /\ In f sl /\ In j (HubSpec.registrants f (firstn m h)).
Inductive coming (s : sys) (j : nat) (f : name) : Prop :=
| cm_announce : In (0, false) (announcers (sd s j)) -> coming s j f
| cm_register ns : In (HubModel.PRegister ns) (hwire s j) -> In f ns -> coming s j f
| cm_alloc t ns : HubModel.handlers (sh s) j = HubModel.RAlloc t ns -> In f ns -> coming s j f
| cm_push t host n ns : HubModel.handlers (sh s) j = HubModel.RPush t host n ns -> In f ns -> coming s j f
| cm_pushed t host n ns : HubModel.handlers (sh s) j = HubModel.RPush t host n ns -> In j (HubSpec.registrants f (HubModel.hist (sh s))) -> coming s j f
| cm_replied n : In (KRegistered n) (wire s j 0) -> In j (HubSpec.registrants f (HubModel.hist (sh s))) -> coming s j f
| cm_opening : opening (handlers (sd s j) 0) -> In j (HubSpec.registrants f (HubModel.hist (sh s))) -> coming s j f
| cm_ready ns : In (HubModel.PReady ns) (hwire s j) -> In f ns -> In j (HubSpec.registrants f (HubModel.hist (sh s))) -> coming s j f
| cm_handed : handed (HubModel.hist (sh s)) j f -> coming s j f.

Lemma coming_dock E s b l es s' j f : dmove carry E s b l es s' -> healthy s' ->
  (forall f, carries (carried b) f true -> In f (collected (sd s b))) -> carries (carried j) f true -> coming s j f -> coming s' j f.
Proof.
  intros M H C Cf S. assert (T := dm_tr _ _ _ _ _ _ _ M). assert (G := dm_hist _ _ _ _ _ _ _ M). assert (Eh := dm_hub _ _ _ _ _ _ _ M).
  assert (Acc : forall p k acc, In (ESend p k acc) es -> acc = true).
  { intros p k [] I; auto. exfalso. apply (h_taken _ H b p k). rewrite G. apply in_or_app. auto. }
  assert (Hns : forall ns, reorders ns (collected (sd s b)) = true -> b = j -> In f ns).
  { intros ns R ->. apply reorders_perm in R. eapply Permutation.Permutation_in; [symmetry; exact R|]. eauto. }
  destruct S as [K|ns K Kf|t ns K Kf|t host n ns K Kf|t host n ns K R|n K R|K R|ns K Kf R|K].
  - destruct (Nat.eq_dec j b) as [->|N]; [|apply cm_announce; rewrite (dm_other _ _ _ _ _ _ _ M); auto].
    destruct (announce_ns _ _ _ _ _ T G K) as [K'|(ns & acc & K' & R)]; [now apply cm_announce|]. assert (acc = true) as -> by eauto.
    apply cm_register with ns; auto. apply (dm_hsent _ _ _ _ _ _ _ M _ K').
  - eapply cm_register; eauto. eapply dm_hwire; eauto.
  - eapply cm_alloc; eauto. rewrite Eh. eauto.
  - eapply cm_push; eauto. rewrite Eh. eauto.
  - eapply cm_pushed; eauto; rewrite Eh; eauto.
  - destruct (dm_wire _ _ _ _ _ _ _ M _ _ _ K) as [K'|[-> ->]]; [eapply cm_replied; eauto; rewrite Eh; auto|].
    apply cm_opening; [|rewrite Eh; auto]. inversion T; subst; proj; [rewrite updp_same; exact I|contradiction].
  - destruct (Nat.eq_dec j b) as [->|N]; [|apply cm_opening; [rewrite (dm_other _ _ _ _ _ _ _ M); auto|rewrite Eh; auto]].
    destruct (opening_step _ _ _ _ _ T G (h_alive _ H b) K) as [K'|(ns & acc & K' & Rn)]; [apply cm_opening; [auto|rewrite Eh; auto]|].
    assert (acc = true) as -> by eauto. apply cm_ready with ns; auto; [|rewrite Eh; auto]. apply (dm_hsent _ _ _ _ _ _ _ M _ K').
  - eapply cm_ready; eauto; [eapply dm_hwire; eauto|rewrite Eh; auto].
  - apply cm_handed. rewrite Eh. exact K.
Qed.
Lemma registrants_more f j a b : In j (HubSpec.registrants f a) -> In j (HubSpec.registrants f (a ++ b)).
Proof. intros K. rewrite HubProof4.registrants_app. apply in_or_app. auto. Qed.
Lemma handed_more h e j f : handed h j f -> handed (h ++ e) j f.
Proof.
  intros (m & sl & A & B & C). exists m, sl. split; [apply nth_app, A|]. split; auto. rewrite HubProof4.firstn_app_lt; auto. apply nth_lt in A. lia.
Qed.
Lemma hstep_handler s l s' j : HubModel.hstep black raddr s l = Some s' -> l <> HubModel.HStep j -> (forall k, l <> HubModel.LRecv j k) -> HubModel.handlers s' j = HubModel.handlers s j.
Proof.
  intros H N N'. unfold HubModel.hstep in H. destruct (HubModel.halted s); [discriminate|].
  assert (U : forall p x, p <> j -> updp (HubModel.handlers s) p x j = HubModel.handlers s j) by (intros; apply updp_other; auto).
  destruct l as [p k|p|t|p].
  - assert (p <> j) by (intros ->; eapply N'; reflexivity). destruct (HubModel.handlers s p); try discriminate. destruct k; injection H as <-; cbn; auto.
  - assert (p <> j) by congruence. destruct (HubModel.handlers s p) as [|t sl|t host n [|f sl]|t [|f sl]|t f i sl|t f i sl]; try discriminate.
    + destruct (HubModel.allocate _ _); injection H as <-; cbn; auto.
    + injection H as <-; cbn; auto.
    + injection H as <-; cbn; auto.
    + injection H as <-; cbn; auto.
    + injection H as <-; cbn; auto.
    + destruct (nth_error _ _); [|discriminate]. destruct (_ =? _); injection H as <-; cbn; auto.
    + injection H as <-; cbn; auto.
  - destruct (HubModel.queries s t); try discriminate.
    + injection H as <-. destruct (HubModel.docks s f); reflexivity.
    + destruct (nth_error _ _); [|discriminate]. destruct (HubModel.st_ready _); injection H as <-; reflexivity.
  - injection H as <-. reflexivity.
Qed.
Lemma coming_hub s l es s' j f : hmove black raddr s l es s' -> healthy s' -> coming s j f -> coming s' j f.
Proof.
  intros M H S. assert (St := hm_step _ _ _ _ _ _ M). assert (Ed := hm_docks _ _ _ _ _ _ M). assert (Hh := hm_hist _ _ _ _ _ _ M).
  assert (Hm : forall f, In j (HubSpec.registrants f (HubModel.hist (sh s))) -> In j (HubSpec.registrants f (HubModel.hist (sh s')))) by (intros g; rewrite Hh; apply registrants_more).
  assert (Ok := h_hub _ H).
  assert (Cases : HubModel.handlers (sh s) j <> HubModel.HIdle -> l = HubModel.HStep j \/ HubModel.handlers (sh s') j = HubModel.handlers (sh s) j).
  { intros Ni. destruct l as [p k|p|t|p].
    - right. apply (hstep_handler _ _ _ _ St); [discriminate|]. intros k' [= -> ->]. unfold HubModel.hstep in St. destruct (HubModel.halted (sh s)); [discriminate|].
      destruct (HubModel.handlers (sh s) j); discriminate || congruence.
    - destruct (Nat.eq_dec p j) as [->|N]; [now left|]. right. apply (hstep_handler _ _ _ _ St); [congruence|discriminate].
    - right. apply (hstep_handler _ _ _ _ St); discriminate.
    - right. apply (hstep_handler _ _ _ _ St); discriminate. }
  unfold HubModel.hstep in St. destruct (HubModel.halted (sh s)); [discriminate|].
  destruct S as [K|ns K Kf|t ns K Kf|t host n ns K Kf|t host n ns K R|n K R|K R|ns K Kf R|K].
  - apply cm_announce. now rewrite Ed.
  - destruct (hm_hwire _ _ _ _ _ _ M _ _ K) as [K'| ->]; [eapply cm_register; eauto|].
    destruct (HubModel.handlers (sh s) j); try discriminate. injection St as St. eapply cm_alloc; eauto. rewrite <- St. cbn. rewrite updp_same. reflexivity.
  - destruct Cases as [->|Sh]; [congruence| |eapply cm_alloc; eauto; rewrite Sh; eauto].
    rewrite K in St. destruct (HubModel.allocate _ _) as [n| |]; injection St as St.
    + eapply cm_push; eauto. rewrite <- St. cbn. rewrite updp_same. reflexivity.
    + rewrite <- St in Ok. discriminate.
    + eapply cm_alloc; eauto. rewrite <- St. eauto.
  - destruct Cases as [->|Sh]; [congruence| |eapply cm_push; eauto; rewrite Sh; eauto].
    rewrite K in St. destruct ns as [|g ns]; [destruct Kf|]. injection St as St. destruct Kf as [->|Kf].
    + eapply cm_pushed with (ns := ns); rewrite <- St; [cbn; rewrite updp_same; reflexivity|].
      change (HubModel.hist (HubModel.add (HubModel.EPush f j host n) (HubModel.with_handler j (HubModel.RPush t host n ns)
        (HubModel.with_docks f (HubModel.docks (sh s) f ++ [HubModel.mkStub host n j false t 0]) (sh s))))) with (HubModel.hist (sh s) ++ [HubModel.EPush f j host n]).
      rewrite HubProof4.registrants_app. apply in_or_app. right.
      unfold HubSpec.registrants. cbn. destruct (zlist_eqb_spec f f); [now left|congruence].
    + eapply cm_push; eauto. rewrite <- St. cbn. rewrite updp_same. reflexivity.
  - destruct Cases as [->|Sh]; [congruence| |eapply cm_pushed; eauto; rewrite Sh; eauto].
    rewrite K in St. destruct ns as [|g ns]; injection St as St.
    + eapply cm_replied; [|auto]. eapply hm_reply; eauto. rewrite <- St in Hh. cbn in Hh. apply app_inv_head in Hh. rewrite <- Hh. now left.
    + eapply cm_pushed; [|auto]. rewrite <- St. cbn. rewrite updp_same. reflexivity.
  - eapply cm_replied; auto. eapply hm_wire; eauto.
  - apply cm_opening; auto. now rewrite Ed.
  - destruct (hm_hwire _ _ _ _ _ _ M _ _ K) as [K'| ->]; [eapply cm_ready; eauto|].
    destruct (HubModel.handlers (sh s) j); try discriminate. injection St as St. apply cm_handed. exists (length (HubModel.hist (sh s))), ns.
    rewrite <- St. cbn. split; [rewrite nth_error_app2, Nat.sub_diag by lia; reflexivity|]. split; auto. rewrite firstn_app, Nat.sub_diag, firstn_all. cbn. rewrite app_nil_r. exact R.
  - apply cm_handed. rewrite Hh. apply handed_more, K.
Qed.

Lemma all_coming ls w : run ls w -> nothing_lost ls -> healthy (ws w) -> forall j f, runner (sd (ws w) j) <> NDial -> carries (carried j) f true -> coming (ws w) j f.
Proof.
  revert ls w. apply (run_ind carried carry black raddr (fun ls w => nothing_lost ls -> healthy (ws w) -> forall j f, runner (sd (ws w) j) <> NDial -> carries (carried j) f true -> coming (ws w) j f)).
  - intros _ _ j f N. cbn in N. congruence.
  - intros ls w l w' R Wi IH R' X Nl H. assert (Hb := view_back _ _ _ _ _ _ X H).
    assert (Nl0 : nothing_lost ls) by (intros k K; apply Nl, in_or_app; auto). specialize (IH Nl0 Hb). assert (Co := run_collected _ _ _ _ _ _ R Hb).
    assert (Nl1 := Nl l ltac:(apply in_or_app; right; now left)).
    assert (One : forall E s b l es s', dmove carry E s b l es s' -> healthy s' -> (forall f, carries (carried b) f true -> In f (collected (sd s b))) ->
      match l with LDial true => False | _ => True end ->
      (forall j f, runner (sd s j) <> NDial -> carries (carried j) f true -> coming s j f) -> forall j f, runner (sd s' j) <> NDial -> carries (carried j) f true -> coming s' j f).
    { clear. intros E s b l es s' M H C N I j f Nr Cf. eapply coming_dock; eauto. apply I; auto.
      destruct (Nat.eq_dec j b) as [->|Nb]; [|rewrite <- (dm_other _ _ _ _ _ _ _ M); auto].
      destruct (runner_step _ _ _ (dm_tr _ _ _ _ _ _ _ M) Nr) as [X|[[] ->]]; auto; try contradiction.
      assert (T := dm_tr _ _ _ _ _ _ _ M). assert (Z := h_alive _ H b). inversion T; match goal with E : _ = sd s' b |- _ => rewrite <- E in Z; discriminate Z end. }
    inversion X as [i0 l0 es w1 M E1 E2 E3 E4 Nn wl Hwl|i0 p k es w1 M E1 E2 E3 E4|i0 p n es w1 M E1 E2 E3 Hh Pf E4|i0 p es w1 M E1 E2 E3 E4 E5|l0 es w1 M E1 E2 E3 E4 wl Hwl
      |i0 es1 es2 s1 w1 M1 M2 E1 E2 E3 E4|i0 p j n a es1 es2 s1 s2 M1 M2 Hh Ha Hl|w1 E1 E2 E3 E4 E5 E6 wl Hwl]; subst.
    + eapply One; eauto; destruct l0; auto; destruct ok; auto.
    + eapply One; eauto.
    + eapply One; eauto.
    + eapply One; eauto.
    + intros j f Nr Cf. rewrite (hm_docks _ _ _ _ _ _ M) in Nr. eapply coming_hub; eauto.
    + intros j f Nr Cf. assert (H1 : healthy s1) by (eapply dmove_back; eauto). destruct (Nat.eq_dec j i0) as [->|N].
      * assert (T := dm_tr _ _ _ _ _ _ _ M2). apply cm_announce. inversion T. cbn. apply in_or_app. right. now left.
      * assert (S : coming s1 j f).
        { eapply coming_dock; eauto. apply IH; auto. rewrite <- (dm_other _ _ _ _ _ _ _ M1), <- (dm_other _ _ _ _ _ _ _ M2) by auto. auto. }
        eapply coming_dock; eauto. assert (T := dm_tr _ _ _ _ _ _ _ M1). intros g Cg. assert (collected (sd s1 i0) = collected (sd (ws w) i0)) as -> by (inversion T; reflexivity). auto.
    + cbn [ws with_sys] in *. assert (H1 : healthy s1) by (eapply dmove_back; eauto). assert (T := dm_tr _ _ _ _ _ _ _ M1).
      eapply One; [exact M2|auto| |exact I|]; [|eapply One; eauto].
      intros g Cg. assert (collected (sd s1 i0) = collected (sd (ws w) i0)) as -> by (inversion T; reflexivity). auto.
    + destruct l; contradiction.
Qed.
End P.
