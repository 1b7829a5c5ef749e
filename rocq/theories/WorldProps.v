(* Property theorems C71: networks whose connections are dialled. *)
From Verif Require Import Lts GoVal Tables DockModel DockSpec SysModel SysSpec WorldModel WorldSpec WorldProof WorldProof6 WorldProof7.
From Verif Require HubModel HubSpec.
From Coq Require Import Arith Bool List ZArith Lia.
Import ListNotations.
Open Scope nat_scope.

(* -- the network of the examples: dock 1 carries "F"; dock 0 calls it; both run on one
   machine; nothing is connected but what the docks dial *)
Definition wF : name := [70]%Z.
Definition wm : name := [109]%Z.
Definition W_carried (i : nat) : list (name * bool) := match i with 1 => [(wF, true)] | _ => [] end.
Definition W_raddr (h : nat) : name := [65; 58; 49 + Z.of_nat h]%Z. (* "A:1", "A:2", ... *)
Definition W_carry (_ _ : nat) (l : list nat) : option (list nat) := Some l.
Definition W_step := wstep W_carry [] W_raddr.
Definition wd (i : nat) (ls : list (label nat)) : list (wlab nat) := map (WDock i) ls.
Definition wh (l : HubModel.label) (n : nat) : list (wlab nat) := repeat (WHub l) n.
(* a dock dials the hub, registers, gets its port, listens and says it is ready *)
Definition W_boot (i : nat) (fs : list name) (n m : nat) : list (wlab nat) :=
  [WDial i true] ++ wd i [LRun; LAnnounce 0 fs true] ++ [WHubDeliver i] ++ wh (HubModel.HStep i) n ++
  [WDeliver i 0; WListen i 0 true] ++ wd i [HGo 0; HSend 0 fs true; HGo 0] ++ [WHubDeliver i] ++ wh (HubModel.HStep i) m.
(* the call; the hub answers the query; the dial *)
Definition W_ask : list (wlab nat) := wd 0 [LCall wF wm [5] true 7; CStep 0 true; CStep 0 true] ++ [WHubDeliver 0] ++ wh (HubModel.QStep 10) 2 ++ [WDeliver 0 0].
Definition W_meet : list (wlab nat) :=
  [WConnect 0 0 1 20001%Z] ++ wd 0 [HGo 0; LAnnounce 1 [] true] ++ [WAccept 1 1] ++ wd 1 [LAnnounce 1 [wF] true] ++
  [WDeliver 0 1] ++ wd 0 [HSend 1 [] true; HGo 1; HGo 1] ++ [WDeliver 1 1] ++ wd 1 [HSend 1 [wF] true; HGo 1] ++ [WDeliver 1 1] ++ wd 1 [HGo 1] ++ [WDeliver 0 1].
Definition W_answer : list (wlab nat) :=
  wd 0 [HGo 1; HPick 1 7; HGo 1; HCommit 1 true; HGo 1; HGo 1] ++ [WDeliver 1 1] ++ wd 1 [SExec 0 [300] None; SSend 0 true] ++
  [WDeliver 0 1] ++ wd 0 [BStep 0; CStep 0 true; CStep 0 true; BStep 0].
Definition W_talk : list (wlab nat) := W_boot 1 [wF] 3 3 ++ W_boot 0 [] 2 1 ++ W_ask.
Definition W_all : list (wlab nat) := W_talk ++ W_meet ++ W_answer.
Definition W_end (ls : list (wlab nat)) : world nat := match exec W_step (winit W_carried) ls with Some w => w | None => winit W_carried end.
Lemma W_runs : exec W_step (winit W_carried) W_all = Some (W_end W_all).
Proof. vm_compute. reflexivity. Qed.
Lemma W_healthy : healthy (ws (W_end W_all)).
Proof.
  split.
  - intros [|[|i]]; reflexivity.
  - reflexivity.
  - intros [|[|i]] H; vm_compute in H; intuition discriminate.
  - intros [|[|i]] p k H; vm_compute in H; intuition discriminate.
  - intros [|[|i]] k f H; vm_compute in H; intuition (try discriminate); congruence.
  - intros [|[|i]]; vm_compute; repeat constructor; intuition.
Qed.
Lemma W_no_send w i p ns acc : handlers (sd (ws w) i) p = HIdle -> W_step w (WDock i (HSend p ns acc)) = None.
Proof. intros H. unfold W_step, wstep, WorldModel.on, sstep, dock_step, dstep. rewrite H. destruct (reorders _ _), (state (sd (ws w) i)); reflexivity. Qed.
Lemma W_stuck w : (forall l, due l -> W_step w l = None) -> (forall t, W_step w (WHub (HubModel.QStep t)) = None) -> settled W_carry [] W_raddr w.
Proof.
  intros A Q. split; [exact A|]. intros t [|n] w' H; [injection H as <-; reflexivity|].
  cbn [repeat exec] in H. fold W_step in H. rewrite Q in H. discriminate.
Qed.
Ltac W_one i := destruct i as [|[|i]]; vm_compute; reflexivity.
Ltac W_two i p := destruct i as [|[|i]]; destruct p as [|[|[|p]]]; vm_compute; reflexivity.
(* every step that is due, at every dock and peer *)
Ltac W_done ls :=
  apply (W_stuck (W_end ls));
  [ let l := fresh "l" in let D := fresh "D" in
    intros l D; destruct l; try (exfalso; exact D);
    try match goal with l : label _ |- _ => destruct l; try (exfalso; exact D) end;
    try match goal with l : HubModel.label |- _ => destruct l; try (exfalso; exact D) end; clear D;
    match goal with
    | |- context [WDock ?i (HSend ?p ?ns ?acc)] => apply (W_no_send (W_end ls) i p ns acc); W_two i p
    | |- context [WDock ?i (LAnnounce ?j _ _)] => W_two i j
    | |- context [WDock ?i (SExec ?j _ _)] => W_two i j
    | |- context [WDock ?i (HPick ?p _)] => W_two i p
    | |- context [WDock ?i (HCommit ?p _)] => W_two i p
    | |- context [WDock ?i (CStep ?p _)] => W_two i p
    | |- context [WDock ?i (SSend ?p _)] => W_two i p
    | |- context [WDock ?i (_ ?p)] => W_two i p
    | |- context [WListen ?i ?p _] => W_two i p
    | |- context [WConnect ?i ?p _ _] => W_two i p
    | |- context [WFail ?i ?p] => W_two i p
    | |- context [WDeliver ?i ?p] => W_two i p
    | |- context [HubModel.HStep ?p] => W_one p
    | |- context [WHubDeliver ?p] => W_one p
    | |- context [WAccept ?p _] => W_one p
    end
  | let t := fresh "t" in intros t; do 24 (destruct t as [|t]; [vm_compute; reflexivity|]); vm_compute; reflexivity ].
Lemma W_settled : settled W_carry [] W_raddr (W_end W_all).
Proof. W_done W_all. Qed.

(* A network is a system: a run of a network is a run of the system of C52 and C64 over the
   connections made in it, which have two ends each; what C52, C64 and C66 say of systems
   holds of networks. *)
Theorem C71_networks_are_systems : forall V carried (carry : nat -> nat -> list V -> option (list V)) black raddr ls w,
  exec (wstep carry black raddr) (winit carried) ls = Some w ->
  wired (ends w) hub_end /\
  exists ls', exec (sstep (ends w) hub_end carry black raddr hostport) (sinit carried) ls' = Some (ws w) /\ (nothing_lost ls -> lossless ls').
Proof. exact @run_system. Qed.
Print Assumptions C71_networks_are_systems.
Example C71_networks_are_systems_case : exec W_step (winit W_carried) W_all = Some (W_end W_all) /\
  ends (W_end W_all) 0 1 = ToDock 1 1 /\ ends (W_end W_all) 1 1 = ToDock 0 1 /\ ends (W_end W_all) 0 2 = Nowhere.
Proof. split; [exact W_runs|]. vm_compute. intuition. Qed.

(* Docks on one machine never listen on the same port. *)
Theorem C71_ports_have_one_owner : forall V carried (carry : nat -> nat -> list V -> option (list V)) black raddr ls w a b n,
  exec (wstep carry black raddr) (winit carried) ls = Some w -> In (a, n) (listeners w) -> In (b, n) (listeners w) ->
  machine raddr a = machine raddr b -> a = b.
Proof. exact @own_port. Qed.
Print Assumptions C71_ports_have_one_owner.
Example C71_ports_have_one_owner_case : listeners (W_end W_all) = [(1, 20001%Z); (0, 20002%Z)] /\ machine W_raddr 0 = machine W_raddr 1.
Proof. vm_compute. intuition. Qed.

(* A dock that dials at an address it was given reaches the dock the hub meant: one that
   carries, as discoverable, a feature the dialling dock has called; and never itself as
   long as it has not been closed. *)
Theorem C71_dials_reach_the_right_dock : forall V carried (carry : nat -> nat -> list V -> option (list V)) black raddr ls w i p j n w',
  exec (wstep carry black raddr) (winit carried) ls = Some w -> wstep carry black raddr w (WConnect i p j n) = Some w' ->
  exists t f k, In (HubModel.EAnswer t i f k (machine raddr j) n) (HubModel.hist (sh (ws w))) /\ carries (carried j) f true /\
    (exists c q, In (ENew c q) (hist (sd (ws w) i)) /\ q_slot q = f) /\ (~ cleared (hist (sd (ws w) i)) -> j <> i).
Proof. exact @dial_right. Qed.
Print Assumptions C71_dials_reach_the_right_dock.
Example C71_dials_reach_the_right_dock_case : exec W_step (winit W_carried) W_talk = Some (W_end W_talk) /\
  (exists w', W_step (W_end W_talk) (WConnect 0 0 1 20001%Z) = Some w') /\ W_step (W_end W_talk) (WConnect 0 0 0 20002%Z) = None.
Proof. split; [vm_compute; reflexivity|]. split; [eexists; vm_compute; reflexivity|vm_compute; reflexivity]. Qed.

(* Every call is answered: in a healthy network in which nothing was lost and nothing is left
   to do, each call of a feature that some connected dock carries has returned once, with what
   the one execution of its method, at a dock that carries it, gave. *)
Theorem C71_every_call_answered : forall V carried (carry : nat -> nat -> list V -> option (list V)) black raddr ls w i c q j,
  exec (wstep carry black raddr) (winit carried) ls = Some w -> nothing_lost ls -> (forall i j l, carry i j l <> None) ->
  healthy (ws w) -> settled carry black raddr w ->
  In (ENew c q) (hist (sd (ws w) i)) -> In (WDial j true) ls -> carries (carried j) (q_slot q) true ->
  exists x j' k, returns c (hist (sd (ws w) i)) = [x] /\ executed carried (ends w) carry (ws w) i q j' k x.
Proof. exact @every_call. Qed.
Print Assumptions C71_every_call_answered.
Example C71_every_call_answered_case : exec W_step (winit W_carried) W_all = Some (W_end W_all) /\ nothing_lost W_all /\
  healthy (ws (W_end W_all)) /\ settled W_carry [] W_raddr (W_end W_all) /\ In (WDial 1 true) W_all /\ carries (W_carried 1) wF true /\
  In (ENew 0 (mkReq 7 wF wm [5] true)) (hist (sd (ws (W_end W_all)) 0)) /\ returns 0 (hist (sd (ws (W_end W_all)) 0)) = [mkRet [300] None].
Proof.
  split; [exact W_runs|]. split; [|split; [exact W_healthy|split; [exact W_settled|]]].
  - intros l H. vm_compute in H. repeat (destruct H as [<-|H]; [exact I|]). destruct H.
  - split; [vm_compute; tauto|]. split; [exists [], []; split; [reflexivity|intros []]|]. split; [vm_compute; tauto|vm_compute; reflexivity].
Qed.
(* without the health: a queue that is full when the request is to go out *)
Definition W_full : list (wlab nat) :=
  W_talk ++ W_meet ++ wd 0 [HGo 1; HPick 1 7; HGo 1; HCommit 1 false; HGo 1; HGo 1].
Theorem C71_full_queue_refuted : ~ forall V carried (carry : nat -> nat -> list V -> option (list V)) black raddr ls w i c q j,
  exec (wstep carry black raddr) (winit carried) ls = Some w -> nothing_lost ls -> (forall i j l, carry i j l <> None) ->
  (forall i, state (sd (ws w) i) = Alive) -> settled carry black raddr w ->
  In (ENew c q) (hist (sd (ws w) i)) -> In (WDial j true) ls -> carries (carried j) (q_slot q) true ->
  exists x, In (EReturn c x) (hist (sd (ws w) i)).
Proof.
  intros H.
  assert (E : exec W_step (winit W_carried) W_full = Some (W_end W_full)) by (vm_compute; reflexivity).
  destruct (H _ _ _ _ _ _ _ 0 0 (mkReq 7 wF wm [5] true) 1 E) as (x & X).
  - intros l L. vm_compute in L. repeat (destruct L as [<-|L]; [exact I|]). destruct L.
  - discriminate.
  - intros [|[|i]]; reflexivity.
  - W_done W_full.
  - vm_compute. tauto.
  - vm_compute. tauto.
  - exists [], []. split; [reflexivity|intros []].
  - vm_compute in X. repeat (destruct X as [X|X]; [discriminate|]). destruct X.
Qed.
Print Assumptions C71_full_queue_refuted.
