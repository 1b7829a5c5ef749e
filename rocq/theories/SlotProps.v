(* Property theorems C83: what a feature put in a slot lets others call. *)
From Verif Require Import Lts GoInt GoVal Tables CodecSpec CodecModel ProtoModel ProtoSpec SysCodec DockModel DockSpec SysModel SysSpec FullModel FullSpec WorldModel WorldSpec WorldProof WorldProps.
From Verif Require Import LiveSpec ByteModel ByteSpec ByteProof3 ByteProps FleetModel FleetSpec FleetProps FleetLiveSpec FleetLiveProof5 FleetLiveProps HarborModel HarborSpec HarborProof HarborProof2 HarborProof3 HarborProof4 HarborProps IsleSpec IsleProps SlotModel SlotSpec SlotProof SlotProof2.
From Verif Require Import MetaModel.
From Verif Require ChanModel ChanSpec ChanLiveSpec HubModel FullProof4 IsleProof.
From Coq Require Import Arith Bool List ZArith Lia.
Import ListNotations.
Open Scope nat_scope.

(* -- the type of the examples embeds Feature and has the methods Add, which adds its argument,
   and add, which cannot be called *)
Definition nAdd : list Z := [65; 100; 100]%Z.
Definition nadd : list Z := [97; 100; 100]%Z.
Definition S_body (o : Z) (args : list gval) : option (Z * list gval) := match args with [VInt _ _ d] => Some ((o + d)%Z, [VInt 0 IInt (o + d)%Z]) | _ => None end.
Definition S_own : list (method Z) := [mkMethod nAdd [TyInt 0 IInt] 1 S_body; mkMethod nadd [TyInt 0 IInt] 1 S_body].
Definition S_slot : slot Z := match new_slot (embed S_own) true with Some sl => sl | None => mkSlot [] false end.
Definition S_open : open_conversion := fun _ _ => None.
Lemma S_made : new_slot (embed S_own) true = Some S_slot.
Proof. reflexivity. Qed.
Lemma S_names : NoDup (map m_name (embed S_own)).
Proof. cbn. repeat constructor; cbn; intuition discriminate. Qed.

(* Carrying a feature fails unless its type has OnStart and OnDestroy, each taking an ISlot and
   returning nothing. *)
Theorem C83_features : forall O (ms : list (method O)) discoverable, (exists sl, new_slot ms discoverable = Some sl) <-> has ms onStart /\ has ms onDestroy.
Proof. exact @slot_features. Qed.
Print Assumptions C83_features.
(* It does not fail for a type in which Feature is embedded and that has no methods of its own
   with these names. *)
Theorem C83_embedding : forall O (own : list (method O)) discoverable, (forall m, In m own -> ~ life_cycle (m_name m)) -> exists sl, new_slot (embed own) discoverable = Some sl.
Proof. exact @embedded. Qed.
Print Assumptions C83_embedding.
Example C83_features_case : (forall m, In m S_own -> ~ life_cycle (m_name m)) /\ new_slot S_own true = None /\ new_slot (embed S_own) false <> None /\
  new_slot (embed [mkMethod onStart [islot] 1 S_body]) true = None.
Proof. split; [|repeat split; vm_compute; congruence]. intros m [<-|[<-|[]]] [H|H]; discriminate H. Qed.

(* The table holds the methods that begin with a capital, those and no others; *)
Theorem C83_table : forall O (ms : list (method O)) discoverable sl n f, new_slot ms discoverable = Some sl -> NoDup (map m_name ms) ->
  (lookup (sl_table sl) n = Some f <-> exists m, In m ms /\ m_name m = n /\ capital n /\ params f = m_params m /\ body f = m_body m).
Proof. exact @table_methods. Qed.
Print Assumptions C83_table.
(* any other name gives no result and no error. *)
Theorem C83_other_names : forall O (ms : list (method O)) discoverable sl ws open o n args, new_slot ms discoverable = Some sl -> NoDup (map m_name ms) ->
  (forall m, In m ms -> m_name m = n -> ~ capital n) -> meta_call ws open (sl_table sl) o n args = Unknown.
Proof. exact @not_in_table. Qed.
Print Assumptions C83_other_names.
Example C83_table_case : new_slot (embed S_own) true = Some S_slot /\ NoDup (map m_name (embed S_own)) /\
  (exists m, In m (embed S_own) /\ m_name m = nAdd /\ capital nAdd) /\ (forall m, In m (embed S_own) -> m_name m = nadd -> ~ capital nadd) /\
  match meta_call W64 S_open (sl_table S_slot) 10%Z nAdd [h5] with Ran _ _ o r => o = 15%Z /\ r = [VInt 0 IInt 15%Z] | _ => False end.
Proof.
  split; [exact S_made|]. split; [exact S_names|]. split; [eexists; split; [left; reflexivity|]; split; [reflexivity|]; eexists _, _; split; [reflexivity|lia]|].
  split; [intros m _ _ (c & r & H & B); injection H as <- <-; lia|]. vm_compute. auto.
Qed.

(* So OnStart and OnDestroy can be called by name.  No value without methods is an ISlot, and
   such a call panics before the method is entered, whatever the number of arguments; *)
Theorem C83_life_cycle_calls : forall O (ms : list (method O)) discoverable sl ws open o n args, new_slot ms discoverable = Some sl -> NoDup (map m_name ms) ->
  life_cycle n -> forallb bare args = true -> meta_call ws (with_islot open) (sl_table sl) o n args = NotRun.
Proof. exact @life_not_run. Qed.
Print Assumptions C83_life_cycle_calls.
(* and values from the codec have no methods: those a caller sends, *)
Theorem C83_carried_values : forall l l', through l = Some l' -> forallb bare l' = true.
Proof. exact through_bare. Qed.
Print Assumptions C83_carried_values.
(* and those of any bytes that decode to a list. *)
Theorem C83_decoded_values : forall b k l r, bytes_ok b -> bdecode b = DOk (VArr k l) r -> forallb bare l = true.
Proof. exact decoded_bare. Qed.
Print Assumptions C83_decoded_values.
Example C83_life_cycle_case : new_slot (embed S_own) true = Some S_slot /\ life_cycle onDestroy /\ forallb bare [h5; VNil; VArr ASliceIface [h5]] = true /\
  through [f5; VStr 3 [65%Z]; VMap true [(f5, f300)]] = Some [h5; VStr 0 [65%Z]; VMap true [(h5, f300)]] /\
  bytes_ok [0xdd; 0; 0; 0; 2; 0xd0; 5; 0xc0]%Z /\ bdecode [0xdd; 0; 0; 0; 2; 0xd0; 5; 0xc0]%Z = DOk (VArr ASliceIface [h5; VNil]) [] /\
  match meta_call W64 (with_islot (fun _ v => Some v)) (sl_table S_slot) 10%Z onDestroy [VOther true 1] with Ran _ _ o r => o = 10%Z /\ r = [] | _ => False end.
Proof.
  split; [exact S_made|]. split; [right; reflexivity|]. split; [reflexivity|]. split; [vm_compute; reflexivity|]. split; [repeat constructor; lia|].
  split; vm_compute; auto.
Qed.

(* -- the network of the examples of C73: dock 0 calls OnDestroy of the feature of dock 1 *)
Definition S_code (m : name) : nat := if zlist_eqb m nAdd then 0 else if zlist_eqb m onStart then 1 else if zlist_eqb m onDestroy then 2 else 3.
Definition S_decode (n : nat) : name := match n with 0 => nAdd | 1 => onStart | 2 => onDestroy | _ => [] end.
Definition S_target : ChanModel.target Z gval := slot_target W64 S_open S_decode S_slot.
Definition S_step := hstep [] W_raddr B_ws S_code (fun _ _ => S_target).
Definition S_init : harbor Z := hinit W_carried (fun _ _ => 10%Z).
Definition S_talk : list (wlab gval) :=
  F_boot 1 [wF] 3 3 ++ F_boot 0 [] 2 1 ++ fd 0 [LCall wF onDestroy [f5] true 7; CStep 0 true; CStep 0 true] ++ [WHubDeliver 0] ++ fh (HubModel.QStep 10) 2 ++ [WDeliver 0 0] ++
  F_meet ++ fd 0 [HGo 1; HPick 1 7; HGo 1; HCommit 1 true; HGo 1; HGo 1] ++ [WDeliver 1 1].
Definition S_all : list hlab := Eval vm_compute in map HFleet (F_run (finit W_carried) S_talk) ++ [HBegin 1 0] ++ map (HFeat 1 wF) [ChanModel.LEnqueue 0; ChanModel.LPick; ChanModel.TSleep 0; ChanModel.LEnd].
Definition S_end (ls : list hlab) : harbor Z := match exec S_step S_init ls with Some s => s | None => S_init end.
Lemma S_ends ls : match exec S_step S_init ls with Some _ => true | None => false end = true -> exec S_step S_init ls = Some (S_end ls).
Proof. unfold S_end. destruct (exec S_step S_init ls); [reflexivity|discriminate]. Qed.
Lemma S_runs : exec S_step S_init S_all = Some (S_end S_all).
Proof. apply S_ends. vm_compute. reflexivity. Qed.
Lemma S_from j f : j <> 0 -> from_slot B_ws S_open S_decode (fun _ _ => S_target) j f.
Proof. intros J. exists (embed S_own), true, S_slot. split; [exact S_names|]. split; [exact S_made|]. destruct j; [contradiction|reflexivity]. Qed.
Definition S_length : nat := Eval vm_compute in length S_all.

(* A request for one of them, made by whichever goroutine of dock j for a request of a peer or
   for a local call, does not come to a result; executing it ends the process of the dock. *)
Theorem C83_no_result : forall O carried black raddr wz code (T : nat -> name -> ChanModel.target O gval) o0 open decode ls s j f m g args r,
  exec (hstep black raddr wz code T) (hinit carried o0) ls = Some s -> from_slot wz open decode T j f -> life_cycle m -> decode (code m) = m -> forallb bare args = true ->
  issued code s j f m g args r -> (forall l, ~ In (ChanModel.EEnd r l) (deeds s j f)) /\
  (up j s = true -> ChanModel.handler (feat s j f) = ChanModel.HRun r -> exists s', hstep black raddr wz code T s (HFeat j f ChanModel.LEnd) = Some s' /\ over s' j).
Proof. exact @life_no_result. Qed.
Print Assumptions C83_no_result.
Definition S_before : list hlab := Eval vm_compute in removelast S_all.
Example C83_no_result_case : exec S_step S_init S_before = Some (S_end S_before) /\ from_slot B_ws S_open S_decode (fun _ _ => S_target) 1 wF /\ S_decode (S_code onDestroy) = onDestroy /\
  forallb bare [h5] = true /\ issued S_code (S_end S_before) 1 wF onDestroy (server_id 0) [h5] 0 /\ up 1 (S_end S_before) = true /\ ChanModel.handler (feat (S_end S_before) 1 wF) = ChanModel.HRun 0.
Proof.
  split; [apply S_ends; vm_compute; reflexivity|]. split; [apply S_from; discriminate|]. split; [reflexivity|]. split; [reflexivity|]. split; [vm_compute; tauto|]. split; vm_compute; reflexivity.
Qed.

(* In an endless run, the process of a dock that accepts a request for one of them does not go
   on for ever, whether the feature is discoverable or not; *)
Theorem C83_request_ends_process : forall O carried black raddr wz code (T : nat -> name -> ChanModel.target O gval) o0 open decode run lab,
  hendless carried black raddr wz code T o0 run lab -> forall j, attended black raddr wz code T run lab j ->
  forall n k p q, nth_error (accepted (map fst (carried j)) (hist (bd (fb (hf (run n))) j))) k = Some (p, q) ->
  from_slot wz open decode T j (q_slot q) -> life_cycle (q_method q) -> decode (code (q_method q)) = q_method q -> forallb bare (q_args q) = true -> will_end run j.
Proof. exact @life_accepted. Qed.
Print Assumptions C83_request_ends_process.
(* nor does that of a dock that calls one of its own with values without methods; *)
Theorem C83_local_call_ends_process : forall O carried black raddr wz code (T : nat -> name -> ChanModel.target O gval) o0 open decode run lab,
  hendless carried black raddr wz code T o0 run lab -> forall j, attended black raddr wz code T run lab j ->
  forall n k f m args, nth_error (local_calls (hist (bd (fb (hf (run n))) j))) k = Some (f, m, args) ->
  from_slot wz open decode T j f -> life_cycle m -> decode (code m) = m -> forallb bare args = true -> will_end run j.
Proof. exact @life_local. Qed.
Print Assumptions C83_local_call_ends_process.
(* nor that of a dock to which such a call is committed on a working connection, whatever the
   arguments. *)
Theorem C83_call_ends_process : forall O carried black raddr wz code (T : nat -> name -> ChanModel.target O gval) o0 open decode run lab,
  hendless carried black raddr wz code T o0 run lab -> forall j, attended black raddr wz code T run lab j ->
  forall i p q, attended black raddr wz code T run lab i -> (forall n, ~ over (run n) i) -> flegitimate wz (fun n => hf (run n)) -> working run i p -> working run j q ->
  (forall n, ~ cleared (hist (bd (fb (hf (run n))) j))) -> (forall n, NoDup (map q_index (requests (hist (bd (fb (hf (run n))) i))))) ->
  forall n c rq, fends (hf (run n)) i p = ToDock j q -> In (ECommit c p true) (hist (bd (fb (hf (run n))) i)) -> In (ENew c rq) (hist (bd (fb (hf (run n))) i)) ->
  from_slot wz open decode T j (q_slot rq) -> life_cycle (q_method rq) -> decode (code (q_method rq)) = q_method rq -> will_end run j.
Proof. exact @life_committed. Qed.
Print Assumptions C83_call_ends_process.

(* -- the run above, after which nothing happens *)
Definition SG_run (ls : list hlab) (n : nat) : harbor Z := S_end (firstn n ls).
Definition SG_lab (ls : list hlab) (n : nat) : option hlab := nth_error ls n.
Lemma SG_over ls n : length ls <= n -> SG_run ls n = S_end ls.
Proof. intros H. unfold SG_run. rewrite firstn_all2; [reflexivity|exact H]. Qed.
Lemma SG_endless ls : exec S_step S_init ls = Some (S_end ls) -> hendless W_carried [] W_raddr B_ws S_code (fun _ _ => S_target) (fun _ _ => 10%Z) (SG_run ls) (SG_lab ls).
Proof.
  intros R. split; [reflexivity|]. intros n. unfold SG_lab, SG_run. destruct (nth_error ls n) as [l|] eqn:N; [|apply nth_error_None in N; rewrite !firstn_all2 by lia; reflexivity].
  apply nth_error_split in N as (a & b & -> & <-). rewrite exec_app in R. destruct (exec S_step S_init a) as [w1|] eqn:E1; [|discriminate]. cbn [exec] in R. destruct (S_step w1 l) as [w2|] eqn:E2; [|discriminate].
  replace (firstn (length a) (a ++ l :: b)) with a by (rewrite firstn_app, Nat.sub_diag, firstn_all, app_nil_r; reflexivity).
  replace (firstn (S (length a)) (a ++ l :: b)) with (a ++ [l]) by (rewrite firstn_app, Nat.sub_succ_l, Nat.sub_diag, firstn_all2 by lia; reflexivity).
  unfold S_end. rewrite exec_app, E1. cbn [exec]. rewrite E2. exact E2.
Qed.
Lemma SG_reached ls n : exec S_step S_init ls = Some (S_end ls) -> exec S_step S_init (firstn n ls) = Some (SG_run ls n) /\ exec S_step (SG_run ls n) (skipn n ls) = Some (S_end ls).
Proof.
  generalize (S_end ls). intros e R. rewrite <- (firstn_skipn n ls), exec_app in R. unfold SG_run, S_end. destruct (exec S_step S_init (firstn n ls)) as [s|]; [auto|discriminate].
Qed.
(* a process that has ended rests *)
Lemma S_down s j t : dead s (Some j) = true -> howner t = Some j -> hresting [] W_raddr B_ws S_code (fun _ _ => S_target) t s.
Proof.
  intros D Ow. assert (U : up j s = false) by (unfold up; rewrite D; destruct (state _); reflexivity).
  assert (F : forall l, actor l = Some j -> S_step s (HFleet l) = None) by (intros l A; unfold S_step; cbn [hstep]; unfold allowed; rewrite A, D; cbn [negb]; rewrite andb_false_r; reflexivity).
  intros l Ol. change (S_step s l = None). destruct t as [t|i k|i n|i f k]; cbn [howner] in Ow; try (injection Ow as ->).
  - assert (E : exists l', l = HFleet l' /\ of_ftask t l') by (destruct t; try exact Ol; destruct Ol). destruct E as (l' & -> & Ol'). apply F. clear - Ow Ol'.
    destruct t as [e|e|j' q|i' j'|i' c|i' k|i' b|t]; cbn [of_ftask] in Ol'; cbn [owner] in Ow; try discriminate Ow; try (destruct e as [i' p|h]; [|discriminate Ow]); injection Ow as ->.
    + destruct Ol' as [-> | ->]; reflexivity.
    + destruct Ol' as [->|[(k & _ & ->)|Ol']]; [reflexivity..|]. cbn [handling] in Ol'. destruct l' as [i l|l|l|i ok|i p' ok|i p' j' m|i p'|j' q]; try (exfalso; exact Ol'); [|destruct Ol' as [-> ->]; reflexivity..].
      destruct l; try (exfalso; exact Ol'); destruct Ol' as [-> ->]; reflexivity.
    + subst l'. reflexivity.
    + destruct Ol' as (ns & acc & ->). reflexivity.
    + destruct Ol' as (acc & ->). reflexivity.
    + destruct Ol' as [(res & err & ->)|(acc & ->)]; reflexivity.
    + subst l'. reflexivity.
  - destruct Ol as [->|[->|(acc & ->)]]; [unfold S_step; cbn [hstep]; rewrite U; reflexivity..|]. apply F. reflexivity.
  - cbn in Ol. subst l. unfold S_step. cbn [hstep]. rewrite U. reflexivity.
  - destruct Ol as (l' & -> & _). unfold S_step. cbn [hstep]. rewrite U. reflexivity.
Qed.
Lemma S_over n : S_length <= n -> SG_run S_all n = S_end S_all.
Proof. intros H. apply SG_over. change (length S_all) with S_length. exact H. Qed.
Lemma S_dead : dead (S_end S_all) (Some 1) = true /\ up 1 (S_end S_all) = false.
Proof. vm_compute. split; reflexivity. Qed.
Lemma S_attended : attended [] W_raddr B_ws S_code (fun _ _ => S_target) (SG_run S_all) (SG_lab S_all) 1.
Proof.
  split.
  - intros t n Ow. exists (max n S_length). split; [lia|]. left. rewrite S_over by lia. exact (S_down _ 1 t (proj1 S_dead) Ow).
  - intros f g n. exists (max n S_length). split; [lia|]. right. intros k L. rewrite S_over by lia. cbn [hstep]. rewrite (proj2 S_dead). reflexivity.
Qed.
Example C83_request_case : hendless W_carried [] W_raddr B_ws S_code (fun _ _ => S_target) (fun _ _ => 10%Z) (SG_run S_all) (SG_lab S_all) /\
  attended [] W_raddr B_ws S_code (fun _ _ => S_target) (SG_run S_all) (SG_lab S_all) 1 /\
  nth_error (accepted (map fst (W_carried 1)) (hist (bd (fb (hf (SG_run S_all S_length))) 1))) 0 = Some (1, mkReq 7%Z wF onDestroy [h5] true) /\
  from_slot B_ws S_open S_decode (fun _ _ => S_target) 1 wF /\ life_cycle onDestroy /\ S_decode (S_code onDestroy) = onDestroy /\ forallb bare [h5] = true /\ ~ over (SG_run S_all 60) 1.
Proof.
  split; [exact (SG_endless _ S_runs)|]. split; [exact S_attended|]. split; [vm_compute; reflexivity|]. split; [apply S_from; discriminate|]. split; [right; reflexivity|]. split; [reflexivity|]. split; [reflexivity|].
  intros [H|[H|H]]; [apply H; vm_compute; reflexivity|vm_compute in H; discriminate H..].
Qed.
(* -- dock 1 calls OnStart of its own feature *)
Definition S_own_call : list hlab := [HLocal 1 wF onStart [] false] ++ map (HFeat 1 wF) [ChanModel.LEnqueue 1; ChanModel.LPick; ChanModel.LEnd].
Lemma S_own_runs : exec S_step S_init S_own_call = Some (S_end S_own_call).
Proof. apply S_ends. vm_compute. reflexivity. Qed.
Example C83_local_case : hendless W_carried [] W_raddr B_ws S_code (fun _ _ => S_target) (fun _ _ => 10%Z) (SG_run S_own_call) (SG_lab S_own_call) /\
  attended [] W_raddr B_ws S_code (fun _ _ => S_target) (SG_run S_own_call) (SG_lab S_own_call) 1 /\
  nth_error (local_calls (hist (bd (fb (hf (SG_run S_own_call 1))) 1))) 0 = Some (wF, onStart, []) /\ life_cycle onStart /\ S_decode (S_code onStart) = onStart.
Proof.
  split; [exact (SG_endless _ S_own_runs)|]. split.
  - assert (D : dead (S_end S_own_call) (Some 1) = true /\ up 1 (S_end S_own_call) = false) by (vm_compute; split; reflexivity). split.
    + intros t n Ow. exists (max n 4). split; [lia|]. left. rewrite SG_over by (change (length S_own_call) with 4; lia). exact (S_down _ 1 t (proj1 D) Ow).
    + intros f g n. exists (max n 4). split; [lia|]. right. intros k L. rewrite SG_over by (change (length S_own_call) with 4; lia). cbn [hstep]. rewrite (proj2 D). reflexivity.
  - split; [vm_compute; reflexivity|]. split; [left; reflexivity|reflexivity].
Qed.
(* -- what the network does in the run *)
Fixpoint S_trace (s : harbor Z) (ls : list hlab) : list flab :=
  match ls with
  | [] => []
  | l :: ls => match fleet_label s l with Some x => [x] | None => [] end ++ match S_step s l with Some s' => S_trace s' ls | None => [] end
  end.
Lemma S_traced ls : forall s s', exec S_step s ls = Some s' -> exec F_step (hf s) (S_trace s ls) = Some (hf s').
Proof.
  induction ls as [|l ls IH]; intros s s' E; [injection E as <-; reflexivity|]. cbn [exec] in E. cbn [S_trace]. destruct (S_step s l) as [s1|] eqn:E1; [|discriminate].
  destruct (hstep_inv _ _ _ _ _ _ _ _ E1) as (Fs & _). specialize (IH _ _ E). destruct (fleet_label s l); cbn [optstep app exec] in *; [fold F_step in Fs; rewrite Fs|rewrite Fs in IH]; exact IH.
Qed.
Lemma S_wired : wired (fends (hf (S_end S_all))) hub_end.
Proof.
  split.
  - intros [|[|i]] [|[|p]] j q H; vm_compute in H; try discriminate H; injection H as <- <-; vm_compute; reflexivity.
  - intros i p h. split.
    + destruct i as [|[|i]], p as [|[|p]]; intros H; vm_compute in H; try discriminate H; injection H as <-; reflexivity.
    + unfold hub_end. intros [= -> <-]. destruct i as [|[|i]]; vm_compute; reflexivity.
Qed.
Lemma S_legits : Forall (legitimate (across (hf (S_end S_all))) B_ws) (handed (fb (hf (S_end S_all)))).
Proof. apply (legit_checked _ _ _ S_wired). vm_compute. reflexivity. Qed.
Lemma S_healthy : healthy (parts (fb (hf (S_end S_all)))).
Proof.
  split.
  - intros [|[|i]]; vm_compute; reflexivity.
  - vm_compute; reflexivity.
  - intros [|[|i]] H; vm_compute in H; intuition discriminate.
  - intros [|[|i]] p k H; vm_compute in H; intuition discriminate.
  - intros [|[|i]] k f H; vm_compute in H; intuition (try discriminate); congruence.
  - intros [|[|i]]; vm_compute; repeat constructor; cbn; intuition congruence.
Qed.
Lemma S_unbroken : unbroken (hf (S_end S_all)).
Proof. split; [intros [o|]; vm_compute; reflexivity|]. intros [[|[|i]] [|[|p]]|[|[|h]]] _; vm_compute; split; reflexivity. Qed.
Lemma S_calm n : Forall (legitimate (across (hf (SG_run S_all n))) B_ws) (handed (fb (hf (SG_run S_all n)))) /\ unbroken (hf (SG_run S_all n)) /\ dropped (fb (hf (SG_run S_all n))) = false /\ healthy (parts (fb (hf (SG_run S_all n)))).
Proof.
  destruct (SG_reached _ n S_runs) as [E R]. pose proof (S_traced _ _ _ E) as A. pose proof (S_traced _ _ _ R) as B.
  apply (before W_carried [] W_raddr B_ws _ _ _ (hf (S_end S_all)) A B S_legits S_unbroken); [vm_compute; reflexivity|exact S_healthy].
Qed.
Lemma S_routines n e : ended (out (fb (hf (S_end S_all))) e) = false -> reading (inb (fb (hf (S_end S_all))) e) = true ->
  ended (out (fb (hf (SG_run S_all n))) e) = false /\ reading (inb (fb (hf (SG_run S_all n))) e) = true.
Proof.
  intros X Y. destruct (SG_reached _ n S_runs) as [_ R]. destruct (I_lasts _ _ _ (S_traced _ _ _ R)) as [_ L]. destruct (L e) as [L1 L2].
  split; [destruct (ended (out (fb (hf (SG_run S_all n))) e)); auto; rewrite L1 in X by reflexivity; discriminate X|].
  destruct (reading (inb (fb (hf (SG_run S_all n))) e)); auto. rewrite L2 in Y by reflexivity. discriminate Y.
Qed.
Lemma S_untouched f r g c n args : ~ In (ChanModel.EIssue r g c n args) (deeds (S_end S_all) 0 f).
Proof.
  intros X. destruct (genuine _ _ _ _ _ _ _ _ _ _ _ _ _ _ _ _ S_runs X) as (m & _ & _ & A).
  assert (E : accepted (map fst (W_carried 0)) (hist (bd (fb (hf (S_end S_all))) 0)) = [] /\ local_calls (hist (bd (fb (hf (S_end S_all))) 0)) = []) by (vm_compute; split; reflexivity). destruct E as [E1 E2].
  destruct A as [(k & p & q & _ & Ek & Es & _)|(k & _ & Ek)]; [rewrite E1 in Ek|rewrite E2 in Ek]; destruct k; discriminate Ek.
Qed.
Lemma S_idle f : (forall g, ChanModel.gor (feat (S_end S_all) 0 f) g = ChanModel.GIdle) /\ ChanModel.queue (feat (S_end S_all) 0 f) = [] /\
  ChanModel.handler (feat (S_end S_all) 0 f) = ChanModel.HIdle /\ forall r, ChanModel.timer (feat (S_end S_all) 0 f) r = ChanModel.TNone.
Proof. destruct (chan_runs _ _ _ _ _ _ _ _ _ 0 f S_runs) as (lc & E & _). exact (FullProof4.untouched _ _ _ _ E (S_untouched f)). Qed.
Lemma S_frests t : owner t = Some 0 -> fresting [] W_raddr B_ws t (hf (S_end S_all)).
Proof.
  intros Ow l Ol. change (F_step (hf (S_end S_all)) l = None). destruct t as [e|e|j q|i' j|i' c|i' k|i' b|t]; cbn [of_ftask] in Ol; cbn [owner] in Ow; try discriminate Ow; try (destruct e as [i' p|h]; [|discriminate Ow]); injection Ow as ->.
  - destruct Ol as [-> | ->]; destruct p as [|[|p]]; vm_compute; reflexivity.
  - destruct Ol as [->|[(k & Hk & ->)|Ol]].
    + destruct p as [|[|[|p]]]; vm_compute; reflexivity.
    + apply F_no_read; [|exact Hk]. destruct p as [|[|[|p]]]; vm_compute; first [reflexivity|exact I].
    + cbn [handling] in Ol. destruct l as [i' l|l|l|i' ok|i' p' ok|i' p' j m|i' p'|j q]; try (exfalso; exact Ol); [|destruct Ol as [-> ->]; destruct p as [|[|[|p]]]; vm_compute; reflexivity..].
      destruct l; try (exfalso; exact Ol); destruct Ol as [-> ->];
      match goal with |- context [HSend ?p ?ns ?acc] => apply (F_no_send (hf (S_end S_all)) 0 p ns acc); destruct p as [|[|[|p]]]; vm_compute; first [reflexivity|exact I] | _ => destruct p as [|[|[|p]]]; vm_compute; reflexivity end.
  - subst l. vm_compute. reflexivity.
  - destruct Ol as (ns & acc & ->). destruct j as [|[|[|j]]]; vm_compute; reflexivity.
  - destruct Ol as (acc & ->). destruct c as [|[|[|c]]]; vm_compute; reflexivity.
  - destruct Ol as [(res & err & ->)|(acc & ->)]; destruct k as [|[|[|k]]]; vm_compute; reflexivity.
  - subst l. destruct b as [|[|[|b]]]; vm_compute; reflexivity.
Qed.
Lemma S_rests t : howner t = Some 0 -> hresting [] W_raddr B_ws S_code (fun _ _ => S_target) t (S_end S_all).
Proof.
  assert (F : forall l, F_step (hf (S_end S_all)) l = None -> S_step (S_end S_all) (HFleet l) = None).
  { intros l N. unfold S_step. cbn [hstep]. fold F_step. rewrite N. destruct (allowed _ _); reflexivity. }
  intros Ow. destruct t as [t|i' k|i' n|i' f k]; cbn [howner] in Ow; try (injection Ow as ->); intros l Ol; change (S_step (S_end S_all) l = None).
  - assert (E : exists l', l = HFleet l' /\ of_ftask t l') by (destruct t; try exact Ol; destruct Ol). destruct E as (l' & -> & Ol'). apply F, (S_frests t Ow), Ol'.
  - destruct Ol as [->|[->|(acc & ->)]]; [destruct k as [|k]; vm_compute; reflexivity..|]. apply F, (S_frests (FtServe 0 k) eq_refl). right. eauto.
  - cbn in Ol. subst l. destruct n as [|n]; vm_compute; reflexivity.
  - destruct Ol as (l' & -> & Ol). unfold S_step. cbn [hstep]. destruct (up 0 (S_end S_all) && inside l') eqn:U; [|reflexivity]. apply andb_prop in U as [_ U].
    enough (Z : ChanModel.cstep S_target (feat (S_end S_all) 0 f) l' = None) by (rewrite Z; reflexivity).
    destruct (S_idle f) as (G & Q & Hd & Tm). unfold ChanModel.cstep. destruct (ChanModel.crashed _); [reflexivity|].
    destruct k as [| |r|g]; destruct l'; try (exfalso; exact Ol); try discriminate U; rewrite ?Hd, ?Q, ?Tm; reflexivity.
Qed.
Lemma S_caller : attended [] W_raddr B_ws S_code (fun _ _ => S_target) (SG_run S_all) (SG_lab S_all) 0.
Proof.
  split.
  - intros t n Ow. exists (max n S_length). split; [lia|]. left. rewrite S_over by lia. exact (S_rests t Ow).
  - intros f g n. exists (max n S_length). split; [lia|]. right. intros k L. rewrite S_over by lia. cbn [hstep]. destruct (up 0 _ && inside _); [|reflexivity].
    enough (Z : ChanModel.cstep S_target (feat (S_end S_all) 0 f) (ChanModel.LEnqueue g) = None) by (rewrite Z; reflexivity).
    destruct (S_idle f) as (G & _). unfold ChanModel.cstep. destruct (ChanModel.crashed _); [reflexivity|]. rewrite G. reflexivity.
Qed.
Lemma S_alive ls s s' : exec S_step s ls = Some s' -> dead s' (Some 0) = false -> dead s (Some 0) = false.
Proof.
  intros E D. destruct (dead s (Some 0)) eqn:X; [|reflexivity]. enough (Z : dead s' (Some 0) = true) by (rewrite Z in D; discriminate D). clear D. revert s E X.
  induction ls as [|l ls IH]; intros s E X; [injection E as <-; exact X|]. cbn [exec] in E. destruct (S_step s l) as [s1|] eqn:E1; [|discriminate]. apply (IH _ E). exact (dead_stays _ _ _ _ _ _ _ _ _ E1 X).
Qed.
Lemma S_on n : ~ over (SG_run S_all n) 0.
Proof.
  destruct (S_calm n) as (_ & [Gn _] & _ & H). intros [X|[X|X]]; [apply X, (h_alive _ H 0)|rewrite Gn in X; discriminate X|].
  destruct (SG_reached _ n S_runs) as [_ R]. rewrite (S_alive _ _ _ R) in X; [discriminate X|]. vm_compute. reflexivity.
Qed.
Lemma S_working i p : ended (out (fb (hf (S_end S_all))) (DockEnd i p)) = false -> reading (inb (fb (hf (S_end S_all))) (DockEnd i p)) = true -> ~ ranging (handlers (bd (fb (hf (S_end S_all))) i) p) -> working (SG_run S_all) i p.
Proof.
  intros X Y Z. split.
  - intros n. apply (S_routines n _ X Y).
  - intros n. apply (S_routines n _ X Y).
  - intros n. exists (max n S_length). split; [lia|]. rewrite S_over by lia. exact Z.
  - intros n k. destruct (S_calm n) as (_ & _ & _ & H). exact (h_taken _ H i p k).
Qed.
Lemma S_opened i n : ~ cleared (hist (bd (fb (hf (SG_run S_all n))) i)) /\ NoDup (map q_index (requests (hist (bd (fb (hf (SG_run S_all n))) i)))).
Proof. destruct (S_calm n) as (_ & _ & _ & H). exact (conj (h_open _ H i) (h_ids _ H i)). Qed.
Definition S_asked := mkReq 7%Z wF onDestroy [f5] true.
Example C83_call_case : hendless W_carried [] W_raddr B_ws S_code (fun _ _ => S_target) (fun _ _ => 10%Z) (SG_run S_all) (SG_lab S_all) /\
  attended [] W_raddr B_ws S_code (fun _ _ => S_target) (SG_run S_all) (SG_lab S_all) 1 /\ attended [] W_raddr B_ws S_code (fun _ _ => S_target) (SG_run S_all) (SG_lab S_all) 0 /\
  (forall n, ~ over (SG_run S_all n) 0) /\ flegitimate B_ws (fun n => hf (SG_run S_all n)) /\ working (SG_run S_all) 0 1 /\ working (SG_run S_all) 1 1 /\
  (forall n, ~ cleared (hist (bd (fb (hf (SG_run S_all n))) 1))) /\ (forall n, NoDup (map q_index (requests (hist (bd (fb (hf (SG_run S_all n))) 0))))) /\
  fends (hf (SG_run S_all S_length)) 0 1 = ToDock 1 1 /\ In (ECommit 0 1 true) (hist (bd (fb (hf (SG_run S_all S_length))) 0)) /\ In (ENew 0 S_asked) (hist (bd (fb (hf (SG_run S_all S_length))) 0)) /\
  from_slot B_ws S_open S_decode (fun _ _ => S_target) 1 (q_slot S_asked) /\ life_cycle (q_method S_asked) /\ S_decode (S_code (q_method S_asked)) = q_method S_asked.
Proof.
  split; [exact (SG_endless _ S_runs)|]. split; [exact S_attended|]. split; [exact S_caller|]. split; [exact S_on|]. split; [intros n; apply S_calm|].
  split; [apply S_working; [vm_compute; reflexivity|vm_compute; reflexivity|vm_compute; intros []]|]. split; [apply S_working; [vm_compute; reflexivity|vm_compute; reflexivity|vm_compute; intros []]|].
  split; [intros n; apply S_opened|]. split; [intros n; apply S_opened|]. split; [vm_compute; reflexivity|]. split; [vm_compute; tauto|]. split; [vm_compute; tauto|].
  split; [apply S_from; discriminate|]. split; [right; reflexivity|reflexivity].
Qed.
