(* One call that opens as many connections as one likes: each time, the caller sees the Ready
   of the dock that it dialled before that dock's Register, and asks the hub again
   (dock.go:55-69, 82-93, 246-265). *)
From Verif Require Import Lts GoVal Tables DockModel DockSpec SysModel SysSpec WorldModel WorldSpec WorldProps DialSpec.
From Verif Require HubModel HubSpec.
From Coq Require Import Arith Bool List ZArith Lia.
Import ListNotations.
Open Scope nat_scope.
Lemma new_is {A} (h es : list A) : new_events h (h ++ es) = es.
Proof. unfold new_events. rewrite skipn_app, skipn_all, Nat.sub_diag. reflexivity. Qed.
Lemma new_is0 {A} (h : list A) : new_events h h = [].
Proof. unfold new_events. apply skipn_all. Qed.
Definition qq : request nat := mkReq 7 wF wm [5] true.
Definition addr : name := hostport [65%Z] 20001%Z.
(* What matters of a state of the two docks of WorldProps.v, with a and b connections so far,
   and what each kind of step does to it. *)
Section Cycle.
Variables (a b : nat) (D : nat -> dock nat) (Ls : list (nat * Z)).
Record obs (w : world nat) (d0 d1 : dock nat) (h : HubModel.hub) (w00 wa wb : list (packet nat)) (hw : list HubModel.packet) (pa pb : nat) (bk : list nat) (con : bool) : Prop := {
  o_d0 : sd (ws w) 0 = d0; o_d1 : sd (ws w) 1 = d1; o_d : forall i, sd (ws w) (S (S i)) = D i; o_h : sh (ws w) = h;
  o_w00 : wire (ws w) 0 0 = w00; o_wa : wire (ws w) 0 (S a) = wa; o_wb : wire (ws w) 1 (S b) = wb;
  o_wx : forall x, S a < x -> wire (ws w) 0 x = []; o_wy : forall x, S b < x -> wire (ws w) 1 x = []; o_hw : hwire (ws w) 0 = hw;
  o_e : ends w 0 0 = ToHub 0; o_con : con = true -> ends w 0 (S a) = ToDock 1 (S b) /\ ends w 1 (S b) = ToDock 0 (S a);
  o_pa : peers w 0 = pa; o_pb : peers w 1 = pb; o_b0 : backlog w 0 = []; o_b1 : backlog w 1 = bk; o_ls : listeners w = Ls }.
Ltac up := repeat match goal with
  | |- context [updp ?f ?x ?v ?x] => rewrite (updp_same f x v)
  | |- context [updp ?f ?x ?v ?y] => rewrite (updp_other f x v y) by lia
  end.
Ltac put := unfold put_wire; up; auto.
Definition plain (l : label nat) : Prop := match l with LRecv _ _ | LConnected _ | LDial _ | HNet _ _ => False | _ => True end.
Lemma dock_eff w i l d es : dstep (sd (ws w) i) l = Some d -> hist d = hist (sd (ws w) i) ++ es -> plain l ->
  W_step w (WDock i l) = Some (with_sys (fold_left (post_event (ends w) W_carry i (query_peers w i)) es (set_dock i d (ws w))) w).
Proof. intros X Y N. unfold W_step, wstep. destruct l; try contradiction; cbn [WorldModel.on sstep]; unfold dock_step; rewrite X, Y, new_is; reflexivity. Qed.
Ltac fields := split; cbn -[updp put_wire]; intros; repeat (unfold put_wire; up); auto.
Ltac o := destruct 1 as [O1 O2 O3 O4 O5 O6 O7 O8 O9 O10 O11 O12 O13 O14 O15 O16 O17].
Lemma quiet0 w l d d0 d1 h w00 wa wb hw pa pb bk con : obs w d0 d1 h w00 wa wb hw pa pb bk con -> dstep d0 l = Some d -> hist d = hist d0 -> plain l ->
  exists w', W_step w (WDock 0 l) = Some w' /\ obs w' d d1 h w00 wa wb hw pa pb bk con.
Proof. o. intros X Y N. eexists. split; [apply (dock_eff _ _ _ d []); [rewrite O1; exact X|rewrite O1, app_nil_r; exact Y|exact N]|]. fields. Qed.
Lemma hear0 w l d d0 d1 h w00 wa wb hw pa pb bk con e : obs w d0 d1 h w00 wa wb hw pa pb bk con -> dstep d0 l = Some d -> hist d = hist d0 ++ [e] ->
  match e with ESend _ _ _ | EQuery _ _ => False | _ => True end -> plain l ->
  exists w', W_step w (WDock 0 l) = Some w' /\ obs w' d d1 h w00 wa wb hw pa pb bk con.
Proof.
  o. intros X Y Z N. eexists. split; [apply (dock_eff _ _ _ d [e]); [rewrite O1; exact X|rewrite O1; exact Y|exact N]|]. destruct e; try contradiction; fields.
Qed.
Lemma quiet1 w l d d0 d1 h w00 wa wb hw pa pb bk con : obs w d0 d1 h w00 wa wb hw pa pb bk con -> dstep d1 l = Some d -> hist d = hist d1 -> plain l ->
  exists w', W_step w (WDock 1 l) = Some w' /\ obs w' d0 d h w00 wa wb hw pa pb bk con.
Proof. o. intros X Y N. eexists. split; [apply (dock_eff _ _ _ d []); [rewrite O2; exact X|rewrite O2, app_nil_r; exact Y|exact N]|]. fields. Qed.
Lemma send0 w l d d0 d1 h w00 wa wb hw pa pb bk k : obs w d0 d1 h w00 wa wb hw pa pb bk true -> dstep d0 l = Some d -> hist d = hist d0 ++ [ESend (S a) (KRegister k) true] -> plain l ->
  exists w', W_step w (WDock 0 l) = Some w' /\ obs w' d d1 h w00 wa (wb ++ [KRegister k]) hw pa pb bk true.
Proof.
  o. intros X Y N. destruct (O12 eq_refl) as [C1 C2]. eexists. split; [apply (dock_eff _ _ _ d [ESend (S a) (KRegister k) true]); [rewrite O1; exact X|rewrite O1; exact Y|exact N]|].
  cbn [fold_left post_event]. unfold post. rewrite C1. cbn [pass]. fields. congruence.
Qed.
Lemma send1 w l d d0 d1 h w00 wa wb hw pa pb bk k : obs w d0 d1 h w00 wa wb hw pa pb bk true -> dstep d1 l = Some d -> hist d = hist d1 ++ [ESend (S b) (KReady k) true] -> plain l ->
  exists w', W_step w (WDock 1 l) = Some w' /\ obs w' d0 d h w00 (wa ++ [KReady k]) wb hw pa pb bk true.
Proof.
  o. intros X Y N. destruct (O12 eq_refl) as [C1 C2]. eexists. split; [apply (dock_eff _ _ _ d [ESend (S b) (KReady k) true]); [rewrite O2; exact X|rewrite O2; exact Y|exact N]|].
  cbn [fold_left post_event]. unfold post. rewrite C2. cbn [pass]. fields. congruence.
Qed.
Lemma query0 w l d d0 d1 h w00 wa wb hw pa pb bk con so f : obs w d0 d1 h w00 wa wb hw pa pb bk con -> dstep d0 l = Some d -> hist d = hist d0 ++ [EQuery DockModel.SHub f] -> plain l -> sockets d0 = DockModel.SHub :: so ->
  exists w', W_step w (WDock 0 l) = Some w' /\ obs w' d d1 h w00 wa wb (hw ++ [HubModel.PQuery f]) pa pb bk con.
Proof.
  o. intros X Y N Q. eexists. split; [apply (dock_eff _ _ _ d [EQuery DockModel.SHub f]); [rewrite O1; exact X|rewrite O1; exact Y|exact N]|].
  unfold query_peers. rewrite O1, Q. cbn [fold_left post_event]. unfold post_query. rewrite O11. fields. congruence.
Qed.
Lemma recv_eff w i p k q d : wire (ws w) i p = k :: q -> existsb (Nat.eqb p) (backlog w i) = false -> dstep (sd (ws w) i) (LRecv p k) = Some d -> hist d = hist (sd (ws w) i) ++ [ERecv p k] ->
  W_step w (WDeliver i p) = Some (with_sys (set_dock i d (set_wire i p q (ws w))) w).
Proof. intros X B Y Z. unfold W_step, wstep. rewrite B. cbn [sstep]. rewrite X. unfold dock_step. cbn [sd set_wire]. rewrite Y, Z, new_is. reflexivity. Qed.
Lemma deliver00 w k q d d0 d1 h wa wb hw pa pb bk con : obs w d0 d1 h (k :: q) wa wb hw pa pb bk con -> dstep d0 (LRecv 0 k) = Some d -> hist d = hist d0 ++ [ERecv 0 k] ->
  exists w', W_step w (WDeliver 0 0) = Some w' /\ obs w' d d1 h q wa wb hw pa pb bk con.
Proof. o. intros X Y. eexists. split; [apply (recv_eff _ _ _ k q d); [exact O5|rewrite O15; reflexivity|rewrite O1; exact X|rewrite O1; exact Y]|]. fields. Qed.
Lemma deliver0a w k q d d0 d1 h w00 wb hw pa pb bk con : obs w d0 d1 h w00 (k :: q) wb hw pa pb bk con -> dstep d0 (LRecv (S a) k) = Some d -> hist d = hist d0 ++ [ERecv (S a) k] ->
  exists w', W_step w (WDeliver 0 (S a)) = Some w' /\ obs w' d d1 h w00 q wb hw pa pb bk con.
Proof. o. intros X Y. eexists. split; [apply (recv_eff _ _ _ k q d); [exact O6|rewrite O15; reflexivity|rewrite O1; exact X|rewrite O1; exact Y]|]. fields. Qed.
Lemma deliver1b w k q d d0 d1 h w00 wa hw pa pb con : obs w d0 d1 h w00 wa (k :: q) hw pa pb [] con -> dstep d1 (LRecv (S b) k) = Some d -> hist d = hist d1 ++ [ERecv (S b) k] ->
  exists w', W_step w (WDeliver 1 (S b)) = Some w' /\ obs w' d0 d h w00 wa q hw pa pb [] con.
Proof. o. intros X Y. eexists. split; [apply (recv_eff _ _ _ k q d); [exact O7|rewrite O16; reflexivity|rewrite O2; exact X|rewrite O2; exact Y]|]. fields. Qed.
Lemma accept1 w d0 d1 h w00 wa wb hw pa pb con : obs w d0 d1 h w00 wa wb hw pa pb [S b] con -> state d1 = Alive ->
  exists w', W_step w (WAccept 1 (S b)) = Some w' /\ obs w' d0 (with_announcers (announcers d1 ++ [(S b, false)]) d1) h w00 wa wb hw pa pb [] con.
Proof.
  o. intros X. eexists. split.
  - unfold W_step, wstep. rewrite O16. cbn [existsb]. rewrite Nat.eqb_refl. cbn [orb sstep]. unfold dock_step, dstep. rewrite O2, X. cbn [hist with_announcers]. rewrite new_is0. reflexivity.
  - fields. rewrite ?O16. cbn. rewrite Nat.eqb_refl. reflexivity.
Qed.
Lemma connect0 w d0 d1 h w00 wa wb hw : obs w d0 d1 h w00 wa wb hw (S a) (S b) [] false -> state d0 = Alive -> handlers d0 0 = ADial addr -> state d1 = Alive ->
  existsb (fun x => (fst x =? 1) && (snd x =? 20001)%Z) Ls = true -> existsb (fun e : event nat => match e with ESockClosed (SListen m) => (m =? 20001)%Z | _ => false end) (hist d1) = false ->
  exists w', W_step w (WConnect 0 0 1 20001%Z) = Some w' /\
    obs w' (with_announcers (announcers d0 ++ [(S a, false)]) (with_handler 0 (AAppend addr) d0)) d1 h w00 wa wb hw (S (S a)) (S (S b)) [S b] true.
Proof.
  o. intros A0 Hd A1 L1 L2. eexists. split.
  - unfold W_step, wstep. rewrite O1, Hd. unfold listens. rewrite O17, O2, A1, L1, L2. change (zlist_eqb addr (hostport (machine W_raddr 1) 20001)) with true. cbn [andb negb exec sstep].
    unfold dock_step, dstep. rewrite O1, A0, Hd. cbn [hist with_handler]. rewrite new_is0. cbn [fold_left sd set_dock]. rewrite updp_same. cbn [state with_handler]. rewrite A0. cbn [hist with_announcers with_handler]. rewrite new_is0. reflexivity.
  - cbn [fold_left]. split; cbn -[updp]; intros; rewrite ?O13, ?O14; repeat up; auto; try congruence.
    + split; repeat (up; rewrite ?O14; auto).
    + rewrite O16, O14. reflexivity.
Qed.
Lemma hub_eff w l h es : HubModel.hstep [] W_raddr (sh (ws w)) l = Some h -> HubModel.hist h = HubModel.hist (sh (ws w)) ++ es -> match l with HubModel.LRecv _ _ => False | _ => True end ->
  W_step w (WHub l) = Some (with_sys (fold_left (post_hub_event hub_end hostport) es (set_hub h (ws w))) w).
Proof. intros X Y N. unfold W_step, wstep. destruct l; try contradiction; cbn [WorldModel.on sstep]; unfold hub_step; rewrite X, Y, new_is; reflexivity. Qed.
Lemma hub_recv w k q h' d0 d1 h w00 wa wb pa pb bk con : obs w d0 d1 h w00 wa wb (k :: q) pa pb bk con -> HubModel.hstep [] W_raddr h (HubModel.LRecv 0 k) = Some h' -> HubModel.hist h' = HubModel.hist h ++ [HubModel.ERecv 0 k] ->
  exists w', W_step w (WHubDeliver 0) = Some w' /\ obs w' d0 d1 h' w00 wa wb q pa pb bk con.
Proof.
  o. intros X Y. eexists. split.
  - unfold W_step, wstep. cbn [sstep]. rewrite O10. unfold hub_step. cbn [sh set_hwire]. rewrite O4, X, Y, new_is. reflexivity.
  - fields.
Qed.
Lemma hub_round w l h' d0 d1 h w00 wa wb hw pa pb bk con t : obs w d0 d1 h w00 wa wb hw pa pb bk con -> HubModel.hstep [] W_raddr h l = Some h' -> HubModel.hist h' = HubModel.hist h ++ [HubModel.ERound t] ->
  match l with HubModel.LRecv _ _ => False | _ => True end ->
  exists w', W_step w (WHub l) = Some w' /\ obs w' d0 d1 h' w00 wa wb hw pa pb bk con.
Proof. o. intros X Y N. eexists. split; [apply (hub_eff _ _ h' [HubModel.ERound t]); [rewrite O4; exact X|rewrite O4; exact Y|exact N]|]. fields. Qed.
Lemma hub_answer w l h' d0 d1 h w00 wa wb hw pa pb bk con t f i host n : obs w d0 d1 h w00 wa wb hw pa pb bk con -> HubModel.hstep [] W_raddr h l = Some h' ->
  HubModel.hist h' = HubModel.hist h ++ [HubModel.EAnswer t 0 f i host n] -> match l with HubModel.LRecv _ _ => False | _ => True end ->
  exists w', W_step w (WHub l) = Some w' /\ obs w' d0 d1 h' (w00 ++ [KAddress (hostport host n)]) wa wb hw pa pb bk con.
Proof.
  o. intros X Y N. eexists. split; [apply (hub_eff _ _ h' [HubModel.EAnswer t 0 f i host n]); [rewrite O4; exact X|rewrite O4; exact Y|exact N]|].
  cbn [fold_left post_hub_event]. unfold post_hub. cbn [hub_end]. fields. congruence.
Qed.
End Cycle.
(* The calling dock has asked, and the hub has answered. *)
Definition A_start := W_boot 1 [wF] 3 3 ++ W_boot 0 [] 2 1 ++ wd 0 [LCall wF wm [5] true 7; CStep 0 true; CStep 0 true] ++ [WHubDeliver 0] ++ wh (HubModel.QStep 10) 2.
(* From one answer of the hub to the next. *)
Definition cyc a b na nt : list (wlab nat) := [WDeliver 0 0; WConnect 0 0 1 20001%Z] ++ wd 0 [HGo 0; LAnnounce na [] true] ++ [WAccept 1 b; WDeliver 1 b] ++ wd 1 [HSend b [wF] true; HGo b] ++
 [WDeliver 0 a] ++ wd 0 [HGo a; HPick a 7; HGo a; HCommit a true; HGo a; HGo a] ++ [WHubDeliver 0; WHub (HubModel.QStep nt); WHub (HubModel.QStep nt)].
Definition fine (e : event nat) : bool := match e with ECleared | ENew _ _ | EReturn _ _ | ESend _ _ false | ESockClosed _ => false | EQuery DockModel.SHub _ => true | EQuery _ _ => false | _ => true end.
Definition rest0 (h0 : list (event nat)) (d : dock nat) : Prop :=
  slots d = [] /\ remote d wF = None /\ rpcs d = [(7%Z, 0)] /\ calls d = [mkCall qq (Some qq) None false CWait] /\ (forall x, handlers d x = HIdle) /\
  (exists so, sockets d = DockModel.SHub :: so) /\ state d = Alive /\ exists es, hist d = h0 ++ es /\ forallb fine es = true.
Definition rest1 (h1 : list (event nat)) (d : dock nat) : Prop :=
  slots d = [(wF, true)] /\ (forall x, handlers d x = HIdle) /\ state d = Alive /\ exists es, hist d = h1 ++ es /\ forallb fine es = true.
Definition resth (h : HubModel.hub) : Prop :=
  HubModel.halted h = false /\ HubModel.handlers h 0 = HubModel.HIdle /\ exists x y z, HubModel.docks h wF = [HubModel.mkStub [65%Z] 20001 x true y z].
Definition inv (h0 h1 : list (event nat)) (D : nat -> dock nat) (Ls : list (nat * Z)) (a : nat) (w : world nat) : Prop :=
  exists b d0 d1 h, obs a b D Ls w d0 d1 h [KAddress addr] [] [] [] (S a) (S b) [] false /\ rest0 h0 d0 /\ rest1 h1 d1 /\ resth h.
Lemma step1 w l w1 ls w' : W_step w l = Some w1 -> exec W_step w1 ls = Some w' -> exec W_step w (l :: ls) = Some w'.
Proof. intros A B. cbn. rewrite A. exact B. Qed.
Definition quiet_label (l : wlab nat) : bool := match l with WDock _ (LCall _ _ _ _ _) | WLose _ _ _ | WHubLose _ _ => false | _ => true end.
Lemma connections_app (a b : list (wlab nat)) i : connections i (a ++ b) = connections i a + connections i b.
Proof. unfold connections. now rewrite filter_app, app_length. Qed.
Ltac up := repeat match goal with
  | |- context [updp ?f ?x ?v ?x] => rewrite (updp_same f x v)
  | |- context [updp ?f ?x ?v ?y] => rewrite (updp_other f x v y) by lia
  end.
Ltac norm O := cbv beta iota zeta delta [adds with_handler with_announcers with_sockets open_socket HubModel.add HubModel.with_query slots remote rpcs calls handlers announcers servers callbacks starters sockets runner closer state hist HubModel.docks HubModel.assigned HubModel.handlers HubModel.queries HubModel.halted HubModel.hist] in O.
Lemma obs_next a b D Ls w d0 d1 h w00 hw pa pb bk : obs a b D Ls w d0 d1 h w00 [] [] hw pa pb bk true -> obs (S a) (S b) D Ls w d0 d1 h w00 [] [] hw pa pb bk false.
Proof. destruct 1. split; auto; try discriminate; intros; auto with arith. Qed.
Lemma cycle h0 h1 D Ls a w : existsb (fun x => (fst x =? 1) && (snd x =? 20001)%Z) Ls = true -> existsb (fun e : event nat => match e with ESockClosed (SListen m) => (m =? 20001)%Z | _ => false end) h1 = false ->
  inv h0 h1 D Ls a w -> exists ls w', exec W_step w ls = Some w' /\ forallb quiet_label ls = true /\ connections 0 ls = 1 /\ inv h0 h1 D Ls (S a) w'.
Proof.
  intros Hl Hn (b & d0 & d1 & h & O & R0 & R1 & RH).
  destruct d0 as [sl0 rm0 rp0 ca0 hd0 an0 se0 cb0 st0 so0 ru0 cl0 fa0 hi0]. destruct d1 as [sl1 rm1 rp1 ca1 hd1 an1 se1 cb1 st1 so1 ru1 cl1 fa1 hi1]. destruct h as [dk asg hh qs hlt hih].
  unfold rest0, rest1, resth in *. cbn [slots remote rpcs calls handlers sockets state hist HubModel.halted HubModel.handlers HubModel.docks] in R0, R1, RH.
  destruct R0 as (-> & X1 & -> & -> & X2 & (so & ->) & -> & es & -> & X3). destruct R1 as (-> & Y1 & -> & es1 & -> & Y2). destruct RH as (-> & Z1 & zx & zy & zz & Z2).
  assert (Hn1 : existsb (fun e : event nat => match e with ESockClosed (SListen m) => (m =? 20001)%Z | _ => false end) (h1 ++ es1) = false).
  { rewrite existsb_app, Hn. cbn. clear - Y2. induction es1 as [|e es1 IH]; [reflexivity|]. cbn in *. apply andb_prop in Y2 as [A B]. rewrite (IH B). destruct e; try discriminate; reflexivity. }
  exists (cyc (S a) (S b) (length an0) (length hih)).
  edestruct deliver00 as (w1 & S1 & O1); [exact O|cbn; rewrite X2; reflexivity|reflexivity|].
  norm O1.
  edestruct connect0 as (w2 & S2 & O2); [exact O1|reflexivity|cbn; up; reflexivity|reflexivity|exact Hl|exact Hn1|].
  norm O2.
  edestruct hear0 with (l := HGo (V := nat) 0) as (w3 & S3 & O3); [exact O2|cbn -[updp]; up; reflexivity|reflexivity|exact I|exact I|].
  norm O3.
  edestruct send0 with (l := LAnnounce (V := nat) (length an0) [] true) as (w4 & S4 & O4); [exact O3|cbn -[updp nth_error set_nth]; rewrite nth_error_app2, Nat.sub_diag by lia; cbn; reflexivity|reflexivity|exact I|].
  norm O4.
  edestruct accept1 as (w5 & S5 & O5); [exact O4|reflexivity|].
  norm O5.
  edestruct deliver1b as (w6 & S6 & O6); [exact O5|cbn -[updp]; rewrite Y1; reflexivity|reflexivity|].
  norm O6.
  edestruct send1 with (l := HSend (V := nat) (S b) [wF] true) as (w7 & S7 & O7); [exact O6|cbn -[updp]; up; reflexivity|reflexivity|exact I|].
  norm O7.
  edestruct quiet1 with (l := HGo (V := nat) (S b)) as (w8 & S8 & O8); [exact O7|cbn -[updp]; up; reflexivity|reflexivity|exact I|].
  norm O8.
  edestruct deliver0a as (w9 & S9 & O9); [exact O8|cbn -[updp]; up; rewrite X2; reflexivity|reflexivity|].
  norm O9.
  edestruct quiet0 with (l := HGo (V := nat) (S a)) as (w10 & S10 & O10); [exact O9|cbn -[updp]; up; reflexivity|reflexivity|exact I|].
  norm O10.
  edestruct quiet0 with (l := HPick (V := nat) (S a) 7) as (w11 & S11 & O11); [exact O10|cbn -[updp]; up; cbn -[updp]; reflexivity|reflexivity|exact I|].
  norm O11.
  edestruct quiet0 with (l := HGo (V := nat) (S a)) as (w12 & S12 & O12); [exact O11|cbn -[updp]; up; cbn -[updp]; reflexivity|reflexivity|exact I|].
  norm O12.
  edestruct query0 with (l := HCommit (V := nat) (S a) true) as (w13 & S13 & O13); [exact O12|cbn -[updp]; up; cbn -[updp]; rewrite X1; reflexivity|reflexivity|exact I|reflexivity|].
  norm O13.
  edestruct quiet0 with (l := HGo (V := nat) (S a)) as (w14 & S14 & O14); [exact O13|cbn -[updp]; up; cbn -[updp]; reflexivity|reflexivity|exact I|].
  norm O14.
  edestruct quiet0 with (l := HGo (V := nat) (S a)) as (w15 & S15 & O15); [exact O14|cbn -[updp]; up; cbn -[updp]; reflexivity|reflexivity|exact I|].
  norm O15.
  edestruct hub_recv as (w16 & S16 & O16); [exact O15|cbn -[updp]; rewrite Z1; reflexivity|reflexivity|].
  norm O16.
  edestruct hub_round with (l := HubModel.QStep (length hih)) as (w17 & S17 & O17); [exact O16|cbn -[updp]; up; rewrite Z2; reflexivity|reflexivity|exact I|].
  norm O17.
  edestruct hub_answer with (l := HubModel.QStep (length hih)) as (w18 & S18 & O18); [exact O17|cbn -[updp]; up; rewrite Z2; reflexivity|reflexivity|exact I|].
  norm O18.
  exists w18. split; [|split; [reflexivity|split; [reflexivity|]]].
  { unfold cyc, wd. cbn [app map]. do 18 (eapply step1; [eassumption|]). reflexivity. }
  exists (S b). do 3 eexists. split; [|split; [|split]].
  - apply obs_next. exact O18.
  - split; [reflexivity|]. split; [exact X1|]. repeat (split; [reflexivity|]). split.
    { intros x. cbn. unfold updp. repeat match goal with |- context [if ?c then _ else _] => destruct c; auto end. }
    split; [eexists; reflexivity|]. split; [reflexivity|]. eexists. cbn. rewrite <- !app_assoc. split; [reflexivity|]. rewrite forallb_app, X3. reflexivity.
  - split; [reflexivity|]. split.
    { intros x. cbn. unfold updp. repeat match goal with |- context [if ?c then _ else _] => destruct c; auto end. }
    split; [reflexivity|]. eexists. cbn. rewrite <- !app_assoc. split; [reflexivity|]. rewrite forallb_app, Y2. reflexivity.
  - split; [reflexivity|]. split; [exact Z1|]. do 3 eexists. exact Z2.
Qed.

Definition s0 := hist (sd (ws (W_end A_start)) 0).
Definition s1 := hist (sd (ws (W_end A_start)) 1).
Definition sD (i : nat) : dock nat := new_dock [].
Lemma started : exec W_step (winit W_carried) A_start = Some (W_end A_start).
Proof. vm_compute. reflexivity. Qed.
Lemma first : inv s0 s1 sD [(1, 20001%Z); (0, 20002%Z)] 0 (W_end A_start).
Proof.
  exists 0, (sd (ws (W_end A_start)) 0), (sd (ws (W_end A_start)) 1), (sh (ws (W_end A_start))). split; [|split; [|split]].
  - split; try (vm_compute; reflexivity); try discriminate.
    + intros x X. do 2 (destruct x as [|x]; [exfalso; lia|]). vm_compute. reflexivity.
    + intros x X. do 2 (destruct x as [|x]; [exfalso; lia|]). vm_compute. reflexivity.
  - split; [vm_compute; reflexivity|]. split; [vm_compute; reflexivity|]. split; [vm_compute; reflexivity|]. split; [vm_compute; reflexivity|].
    split; [intros [|[|x]]; vm_compute; reflexivity|]. split; [eexists; vm_compute; reflexivity|]. split; [vm_compute; reflexivity|]. exists []. split; [symmetry; apply app_nil_r|reflexivity].
  - split; [vm_compute; reflexivity|]. split; [intros [|[|x]]; vm_compute; reflexivity|]. split; [vm_compute; reflexivity|]. exists []. split; [symmetry; apply app_nil_r|reflexivity].
  - split; [vm_compute; reflexivity|]. split; [vm_compute; reflexivity|]. do 3 eexists. vm_compute. reflexivity.
Qed.
Lemma cycles n : exists ls w, exec W_step (W_end A_start) ls = Some w /\ forallb quiet_label ls = true /\ connections 0 ls = n /\ inv s0 s1 sD [(1, 20001%Z); (0, 20002%Z)] n w.
Proof.
  induction n as [|n (ls & w & E & F & G & X)]; [exists [], (W_end A_start); repeat split; apply first|].
  destruct (cycle _ _ _ _ _ _ (eq_refl : _ [(1, 20001%Z); (0, 20002%Z)] = _) (eq_refl : existsb _ s1 = _) X) as (ls' & w' & E' & F' & G' & X').
  exists (ls ++ ls'), w'. rewrite exec_app, E, forallb_app, connections_app, F, F', G, G'. repeat split; auto. apply Nat.add_comm.
Qed.
Lemma requests_app (a b : list (event nat)) : requests (a ++ b) = requests a ++ requests b.
Proof. apply flat_map_app. Qed.
Lemma returns_app c (a b : list (event nat)) : returns c (a ++ b) = returns c a ++ returns c b.
Proof. apply flat_map_app. Qed.
Lemma fine_in es e : forallb fine es = true -> In e es -> fine e = true.
Proof. intros H X. rewrite forallb_forall in H. auto. Qed.
Lemma no_requests es : forallb fine es = true -> requests es = [].
Proof. induction es as [|e es IH]; [reflexivity|]. intros [A B]%andb_prop. specialize (IH B). destruct e; try discriminate; exact IH. Qed.
Lemma no_returns es c : forallb fine es = true -> returns c es = [].
Proof. induction es as [|e es IH]; [reflexivity|]. intros [A B]%andb_prop. specialize (IH B). destruct e; try discriminate; exact IH. Qed.
Lemma base0 : ~ In ECleared s0 /\ (forall p k, ~ In (ESend p k false) s0) /\ forall k f, In (EQuery k f) s0 -> k = DockModel.SHub.
Proof. split; [|split]; intros; intro || idtac; match goal with H : In _ _ |- _ => vm_compute in H; intuition (try discriminate); congruence end. Qed.
Lemma base1 : ~ In ECleared s1 /\ (forall p k, ~ In (ESend p k false) s1) /\ forall k f, In (EQuery k f) s1 -> k = DockModel.SHub.
Proof. split; [|split]; intros; intro || idtac; match goal with H : In _ _ |- _ => vm_compute in H; intuition (try discriminate); congruence end. Qed.
Opaque s0 s1.
Lemma inv_healthy n Ls w : inv s0 s1 sD Ls n w -> healthy (ws w) /\ requests (hist (sd (ws w) 0)) = [qq] /\ requests (hist (sd (ws w) 1)) = [] /\ returns 0 (hist (sd (ws w) 0)) = [].
Proof.
  intros (b & d0 & d1 & h & O & (_ & _ & _ & _ & _ & _ & A0 & es & H0 & F0) & (_ & _ & A1 & es1 & H1 & F1) & (Hh & _)). destruct O as [O1 O2 O3 O4 _ _ _ _ _ _ _ _ _ _ _ _ _].
  subst. split; [|rewrite H0, H1; rewrite !requests_app, returns_app, (no_requests _ F0), (no_requests _ F1), (no_returns _ 0 F0); repeat split; vm_compute; reflexivity].
  split.
  - intros [|[|i]]; auto. rewrite O3. reflexivity.
  - exact Hh.
  - intros [|[|i]] X.
    + unfold cleared in X. rewrite H0 in X. rewrite in_app_iff in X. destruct X as [X|X]; [exact (proj1 base0 X)|]. apply (fine_in _ _ F0) in X. discriminate.
    + unfold cleared in X. rewrite H1 in X. rewrite in_app_iff in X. destruct X as [X|X]; [exact (proj1 base1 X)|]. apply (fine_in _ _ F1) in X. discriminate.
    + unfold cleared in X. rewrite O3 in X. destruct X.
  - intros [|[|i]] p k X.
    + rewrite H0 in X. rewrite in_app_iff in X. destruct X as [X|X]; [exact (proj1 (proj2 base0) _ _ X)|]. apply (fine_in _ _ F0) in X. discriminate.
    + rewrite H1 in X. rewrite in_app_iff in X. destruct X as [X|X]; [exact (proj1 (proj2 base1) _ _ X)|]. apply (fine_in _ _ F1) in X. discriminate.
    + rewrite O3 in X. destruct X.
  - intros [|[|i]] k f X.
    + rewrite H0 in X. rewrite in_app_iff in X. destruct X as [X|X]; [exact (proj2 (proj2 base0) _ _ X)|]. apply (fine_in _ _ F0) in X. destruct k; (reflexivity || discriminate).
    + rewrite H1 in X. rewrite in_app_iff in X. destruct X as [X|X]; [exact (proj2 (proj2 base1) _ _ X)|]. apply (fine_in _ _ F1) in X. destruct k; (reflexivity || discriminate).
    + rewrite O3 in X. destruct X.
  - intros [|[|i]]; [rewrite H0, requests_app, (no_requests _ F0)|rewrite H1, requests_app, (no_requests _ F1)|rewrite O3]; vm_compute; repeat constructor; intuition.
Qed.
Theorem unbounded n : exists ls w, exec W_step (winit W_carried) ls = Some w /\ nothing_lost ls /\ healthy (ws w) /\
  connections 0 ls = n /\ (forall i, requests (hist (sd (ws w) i)) = match i with 0 => [qq] | _ => [] end) /\ returns 0 (hist (sd (ws w) 0)) = [].
Proof.
  destruct (cycles n) as (ls & w & E & F & G & X). exists (A_start ++ ls), w. split; [rewrite exec_app, started; exact E|]. destruct (inv_healthy _ _ _ X) as (Y1 & Y2 & Y3 & Y4).
  split; [|split; [exact Y1|split; [rewrite connections_app, G; reflexivity|split; [|exact Y4]]]].
  - intros l L. apply in_app_iff in L as [L|L]; [vm_compute in L; repeat (destruct L as [<-|L]; [exact I|]); destruct L|]. rewrite forallb_forall in F. apply F in L. destruct l; try exact I; discriminate.
  - intros [|[|i]]; auto. destruct X as (b & d0 & d1 & h & O & _). rewrite (o_d _ _ _ _ _ _ _ _ _ _ _ _ _ _ _ _ O). reflexivity.
Qed.
