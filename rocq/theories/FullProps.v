(* Property theorems C66: a hub and docks together with the features of the docks, every
   feature behind its own callee of package chancall. *)
From Verif Require Import Lts GoVal GoInt Tables DockModel DockSpec SysModel SysSpec SysProps FullModel FullSpec FullProof4.
From Verif Require ChanModel ChanSpec HubModel.
From Coq Require Import Arith Bool List ZArith.
Import ListNotations.
Open Scope nat_scope.

(* -- the system of the examples is that of SysProps.v; feature "F" of dock 1 is a counter
   whose method "m" adds its first argument and returns the sum; "n" panics *)
Definition F_code (m : name) : nat := if zlist_eqb m gm then 0 else 1.
Definition F_counter : ChanModel.target Z gval := ChanModel.mkTarget (fun n => n <? 2)
  (fun o n args => match n, args with 0, VInt _ _ d :: _ => Some ((o + d)%Z, [VInt 0 IInt (o + d)%Z]) | _, _ => None end).
Definition F_step := fstep G_link G_hublink (fun _ _ => Some) [] G_raddr G_hostport F_code (fun _ _ => F_counter).
Definition F_init : full Z gval := finit G_carried (fun _ _ => 10%Z).
Definition F_inside (g r : nat) : list (flab gval) :=
  map (FFeat 1 gF) [ChanModel.LEnqueue g; ChanModel.LPick; ChanModel.TSleep r; ChanModel.LEnd; ChanModel.LLock; ChanModel.LCheck; ChanModel.LDone; ChanModel.LRespond; ChanModel.LUnlock].
Definition F_sent (m : name) : list (flab gval) := map FSys (G_boot ++ G_call m 7 ++ G_ask ++ G_meet ++ on 0 [HGo 1; HPick 1 7; HGo 1; HCommit 1 true; HGo 1; HGo 1] ++ [SDeliver 1 1]).
(* the first call, remote *)
Definition F_first : list (flab gval) :=
  F_sent gm ++ [FBegin 1 0] ++ F_inside (server_id 0) 0 ++ [FReturn 1 0] ++
  map FSys (on 1 [SSend 0 true] ++ [SDeliver 0 1] ++ on 0 [BStep 0; CStep 0 true; CStep 0 true; BStep 0]).
(* a local call in dock 1, and a second remote call *)
Definition F_second : list (flab gval) :=
  [FLocal 1 gF gm [VInt 0 IInt 2%Z] true] ++ F_inside (local_id 0) 1 ++ [FLocalReturn 1 0] ++
  map FSys (G_call gm 8 ++ on 0 [CStep 1 true; CStep 1 true] ++ [SDeliver 1 1]) ++ [FBegin 1 1] ++ F_inside (server_id 1) 2 ++ [FReturn 1 1] ++
  map FSys (on 1 [SSend 1 true] ++ [SDeliver 0 1] ++ on 0 [BStep 1; CStep 1 true; CStep 1 true; BStep 1]).
(* what a concrete run shows *)
Ltac observe E obs H :=
  match type of E with exec ?st ?i ?ls = Some ?s =>
    let v := eval vm_compute in (option_map obs (exec st i ls)) in
    match v with Some ?x => assert (H : obs s = x) by (apply (f_equal (fun o => match o with Some y => y | None => x end) (x := Some (obs s)) (y := Some x)); transitivity (option_map obs (exec st i ls)); [rewrite E; reflexivity|vm_compute; reflexivity]); cbv beta in H end
  end.
Ltac run ls s E := assert (exists s', exec F_step F_init ls = Some s') as [s E] by (let X := fresh in assert (X : match exec F_step F_init ls with Some _ => true | None => false end = true) by (vm_compute; reflexivity); destruct (exec F_step F_init ls); [eauto|discriminate]).
Ltac here H := cbn [q_slot q_method]; rewrite H; cbn; repeat first [left; reflexivity|right].
Definition F_deeds (s : full Z gval) := deeds s 1 gF.
Definition F_hist (i : nat) (s : full Z gval) := hist (sd (fs s) i).

(* Whatever a feature executes was asked for: by a request the dock accepted, or by a local
   call, with these arguments; *)
Theorem C66_genuine : forall O V carried link hublink (carry : nat -> nat -> list V -> option (list V)) black raddr hostport code (T : nat -> name -> ChanModel.target O V) o0,
  wired link hublink -> forall ls s i f r g c n args, exec (fstep link hublink carry black raddr hostport code T) (finit carried o0) ls = Some s ->
  In (ChanModel.EIssue r g c n args) (deeds s i f) -> exists m, n = code m /\ c = g /\ asked carried s i f m g args.
Proof. exact @genuine. Qed.
Print Assumptions C66_genuine.
(* and once. *)
Theorem C66_asked_once : forall O V carried link hublink (carry : nat -> nat -> list V -> option (list V)) black raddr hostport code (T : nat -> name -> ChanModel.target O V) o0
  ls s i f g r c n args r' c' n' args', exec (fstep link hublink carry black raddr hostport code T) (finit carried o0) ls = Some s ->
  In (ChanModel.EIssue r g c n args) (deeds s i f) -> In (ChanModel.EIssue r' g c' n' args') (deeds s i f) -> r = r'.
Proof. exact @asked_once. Qed.
Print Assumptions C66_asked_once.
Example C66_genuine_case : exists s, exec F_step F_init (F_first ++ F_second) = Some s /\
  In (ChanModel.EIssue 2 2 2 0 G_args) (deeds s 1 gF) /\ In (ChanModel.EIssue 1 1 1 0 [VInt 0 IInt 2%Z]) (deeds s 1 gF) /\
  local_calls (hist (sd (fs s) 1)) = [(gF, gm, [VInt 0 IInt 2%Z])] /\ length (accepted [gF] (hist (sd (fs s) 1))) = 2.
Proof.
  run (F_first ++ F_second) s E. exists s. split; [exact E|]. observe E F_deeds D. observe E (F_hist 1) H. unfold F_deeds, F_hist in *.
  split; [here D|]. split; [here D|]. split; rewrite H; reflexivity.
Qed.

(* What a dock replies to a request is the result of the method, or the error of a call
   that timed out. *)
Theorem C66_reply_from_feature : forall O V carried link hublink (carry : nat -> nat -> list V -> option (list V)) black raddr hostport code (T : nat -> name -> ChanModel.target O V) o0,
  wired link hublink -> forall ls s i k res err, exec (fstep link hublink carry black raddr hostport code T) (finit carried o0) ls = Some s -> In (ERan k res err) (hist (sd (fs s) i)) ->
  exists p q r, nth_error (accepted (map fst (carried i)) (hist (sd (fs s) i))) k = Some (p, q) /\
    issued code s i (q_slot q) (q_method q) (server_id k) (q_args q) r /\ came_to s i (q_slot q) (q_method q) r res err.
Proof. exact @run_outcome. Qed.
Print Assumptions C66_reply_from_feature.
Example C66_reply_case : exists s, exec F_step F_init (F_first ++ F_second) = Some s /\ In (ERan 1 [VInt 0 IInt 22%Z] None) (hist (sd (fs s) 1)) /\
  issued F_code s 1 gF gm (server_id 1) G_args 2 /\ came_to s 1 gF gm 2 [VInt 0 IInt 22%Z] None.
Proof.
  run (F_first ++ F_second) s E. exists s. split; [exact E|]. observe E F_deeds D. observe E (F_hist 1) H. unfold F_deeds, F_hist, issued, came_to in *.
  split; [here H|]. split; [here D|]. left. split; [reflexivity|]. here D.
Qed.
(* the other outcome: the timer of the request answers while the method runs *)
Definition F_late : list (flab gval) :=
  F_sent gm ++ [FBegin 1 0] ++ map (FFeat 1 gF) [ChanModel.LEnqueue 0; ChanModel.LPick; ChanModel.TSleep 0; ChanModel.LTick 1000000000%Z; ChanModel.TLock 0; ChanModel.TCheck 0; ChanModel.TDone 0; ChanModel.TRespond 0] ++ [FReturn 1 0].
Example C66_timeout_case : exists s, exec F_step F_init F_late = Some s /\ In (ERan 0 [] (Some (timeout_text gm))) (hist (sd (fs s) 1)) /\
  came_to s 1 gF gm 0 [] (Some (timeout_text gm)) /\ ChanModel.handler (feat s 1 gF) = ChanModel.HRun 0.
Proof.
  run F_late s E. exists s. split; [exact E|]. observe E F_deeds D. observe E (F_hist 1) H. observe E (fun s : full Z gval => ChanModel.handler (feat s 1 gF)) R. unfold F_deeds, F_hist, issued, came_to in *.
  split; [here H|]. split; [|exact R]. right. split; [reflexivity|]. split; [reflexivity|]. exists 0, 1000000000%Z. here D.
Qed.

(* A remote call returns only if the object of its feature, at the dock it was sent to,
   was asked for that method once, on the arguments as they arrived; what comes back is the
   result of that execution, or the error of a call that timed out.  No other feature of
   any dock is asked for anything by a request with its identifier. *)
Theorem C66_remote_call : forall O V carried link hublink (carry : nat -> nat -> list V -> option (list V)) black raddr hostport code (T : nat -> name -> ChanModel.target O V) o0,
  wired link hublink -> forall ls s i c x, exec (fstep link hublink carry black raddr hostport code T) (finit carried o0) ls = Some s ->
  NoDup (map q_index (requests (hist (sd (fs s) i)))) -> In (EReturn c x) (hist (sd (fs s) i)) ->
  exists q j k r, In (ENew c q) (hist (sd (fs s) i)) /\ performed carried link carry code s i q j k r x /\
    forall j' k' q' f' r' n args, served carried link (fs s) i j' k' q' -> q_index q' = q_index q ->
      In (ChanModel.EIssue r' (server_id k') (server_id k') n args) (deeds s j' f') -> j' = j /\ f' = q_slot q /\ r' = r.
Proof. exact @remote_call. Qed.
Print Assumptions C66_remote_call.
Example C66_remote_case : exists s, exec F_step F_init (F_first ++ F_second) = Some s /\ In (EReturn 1 (mkRet [VInt 0 IInt 22%Z] None)) (hist (sd (fs s) 0)) /\
  map q_index (requests (hist (sd (fs s) 0))) = [7; 8]%Z /\
  performed G_carried G_link (fun _ _ => Some) F_code s 0 (mkReq 8 gF gm G_args true) 1 1 2 (mkRet [VInt 0 IInt 22%Z] None).
Proof.
  run (F_first ++ F_second) s E. exists s. split; [exact E|]. observe E F_deeds D. observe E (F_hist 0) H. observe E (F_hist 1) H1. unfold F_deeds, F_hist in *.
  split; [here H|]. split; [rewrite H; reflexivity|]. split; [exists [], []; split; [reflexivity|intros []]|].
  exists G_args, [VInt 0 IInt 22%Z], None. split; [reflexivity|]. split; [exists 1, 1; split; [reflexivity|]; rewrite H1; reflexivity|]. split; [unfold issued; here D|].
  split; [left; split; [reflexivity|]; here D|]. split; reflexivity.
Qed.

(* The object of a feature is what the executed methods, one after the other, make of its
   first state. *)
Theorem C66_object_is_replay : forall O V carried link hublink (carry : nat -> nat -> list V -> option (list V)) black raddr hostport code (T : nat -> name -> ChanModel.target O V) o0
  ls s i f, exec (fstep link hublink carry black raddr hostport code T) (finit carried o0) ls = Some s ->
  ChanSpec.replay (T i f) (deeds s i f) (o0 i f) (ChanSpec.ended (deeds s i f)) (ChanModel.object (feat s i f)) /\ NoDup (map fst (ChanSpec.ended (deeds s i f))).
Proof. exact @object_replay. Qed.
Print Assumptions C66_object_is_replay.
(* Its methods are executed one at a time, none twice. *)
Theorem C66_one_at_a_time : forall O V carried link hublink (carry : nat -> nat -> list V -> option (list V)) black raddr hostport code (T : nat -> name -> ChanModel.target O V) o0
  ls s i f, exec (fstep link hublink carry black raddr hostport code T) (finit carried o0) ls = Some s ->
  exists cur, ChanSpec.started (deeds s i f) = map fst (ChanSpec.ended (deeds s i f)) ++ cur /\ length cur <= 1 /\ NoDup (ChanSpec.started (deeds s i f)).
Proof. exact @one_at_a_time. Qed.
Print Assumptions C66_one_at_a_time.
Example C66_object_case : exists s, exec F_step F_init (F_first ++ F_second) = Some s /\ ChanModel.object (feat s 1 gF) = 22%Z /\
  ChanSpec.ended (deeds s 1 gF) = [(0, [VInt 0 IInt 15%Z]); (1, [VInt 0 IInt 17%Z]); (2, [VInt 0 IInt 22%Z])].
Proof.
  run (F_first ++ F_second) s E. exists s. split; [exact E|]. observe E F_deeds D. observe E (fun s : full Z gval => ChanModel.object (feat s 1 gF)) R. unfold F_deeds in *.
  split; [exact R|]. rewrite D. reflexivity.
Qed.

(* Real time: a call made after another one returned, at any docks, is executed after it
   if both go to the same feature of the same dock. *)
Theorem C66_real_time_order : forall O V carried link hublink (carry : nat -> nat -> list V -> option (list V)) black raddr hostport code (T : nat -> name -> ChanModel.target O V) o0,
  wired link hublink -> forall ls1 s1 ls2 s2 i c x i' c' x' q' j k' r', exec (fstep link hublink carry black raddr hostport code T) (finit carried o0) ls1 = Some s1 -> exec (fstep link hublink carry black raddr hostport code T) s1 ls2 = Some s2 ->
  NoDup (map q_index (requests (hist (sd (fs s2) i)))) -> NoDup (map q_index (requests (hist (sd (fs s2) i')))) ->
  In (EReturn c x) (hist (sd (fs s1) i)) ->
  (forall q, ~ In (ENew c' q) (hist (sd (fs s1) i'))) -> In (ENew c' q') (hist (sd (fs s2) i')) -> performed carried link carry code s2 i' q' j k' r' x' ->
  exists q j1 k r, In (ENew c q) (hist (sd (fs s1) i)) /\ performed carried link carry code s1 i q j1 k r x /\
    (q_slot q' = q_slot q -> j = j1 -> exists a b d, ChanSpec.started (deeds s2 j (q_slot q)) = a ++ r :: b ++ r' :: d).
Proof. exact @real_time. Qed.
Print Assumptions C66_real_time_order.
Example C66_real_time_case : exists s1 s2, exec F_step F_init F_first = Some s1 /\ exec F_step s1 F_second = Some s2 /\
  In (EReturn 0 (mkRet [VInt 0 IInt 15%Z] None)) (hist (sd (fs s1) 0)) /\ (forall q, ~ In (ENew 1 q) (hist (sd (fs s1) 0))) /\
  In (ENew 1 (mkReq 8 gF gm G_args true)) (hist (sd (fs s2) 0)) /\
  performed G_carried G_link (fun _ _ => Some) F_code s2 0 (mkReq 8 gF gm G_args true) 1 1 2 (mkRet [VInt 0 IInt 22%Z] None).
Proof.
  run F_first s1 E1. run (F_first ++ F_second) s2 E. exists s1, s2. split; [exact E1|]. split; [rewrite exec_app, E1 in E; exact E|].
  observe E1 (F_hist 0) H0. observe E F_deeds D. observe E (F_hist 0) H. observe E (F_hist 1) H1. unfold F_deeds, F_hist in *.
  split; [here H0|]. split; [rewrite H0; cbn; intuition discriminate|]. split; [here H|]. split; [exists [], []; split; [reflexivity|intros []]|].
  exists G_args, [VInt 0 IInt 22%Z], None. split; [reflexivity|]. split; [exists 1, 1; split; [reflexivity|]; rewrite H1; reflexivity|]. split; [unfold issued; here D|].
  split; [left; split; [reflexivity|]; here D|]. split; reflexivity.
Qed.
(* "A call that came back with an error was not executed" is false: the method goes on
   after the timeout. *)
Definition C66_error_means_not_executed : Prop := forall ls s i c q x j k r,
  exec F_step F_init ls = Some s -> In (EReturn c x) (hist (sd (fs s) i)) -> In (ENew c q) (hist (sd (fs s) i)) -> r_err x <> None ->
  performed G_carried G_link (fun _ _ => Some) F_code s i q j k r x -> ~ In r (map fst (ChanSpec.ended (deeds s j (q_slot q)))).
Definition F_after : list (flab gval) :=
  F_late ++ map FSys (on 1 [SSend 0 true] ++ [SDeliver 0 1] ++ on 0 [BStep 0; CStep 0 true; CStep 0 true; BStep 0]) ++ [FFeat 1 gF ChanModel.LEnd].
Theorem C66_error_means_not_executed_refuted : ~ C66_error_means_not_executed.
Proof.
  intros X. run F_after s E. observe E F_deeds D. observe E (F_hist 0) H0. observe E (F_hist 1) H1. unfold F_deeds, F_hist in *.
  specialize (X _ _ 0 0 (mkReq 7 gF gm G_args true) (mkRet [] (Some (timeout_text gm))) 1 0 0 E). apply X.
  - here H0.
  - here H0.
  - discriminate.
  - split; [exists [], []; split; [reflexivity|intros []]|]. exists G_args, [], (Some (timeout_text gm)). split; [reflexivity|]. split; [exists 1, 1; split; [reflexivity|]; rewrite H1; reflexivity|].
    split; [unfold issued; here D|]. split; [right; split; [reflexivity|]; split; [reflexivity|]; exists 0, 1000000000%Z; here D|]. split; reflexivity.
  - here D.
Qed.
Print Assumptions C66_error_means_not_executed_refuted.

(* When the features of a running dock and the goroutines that serve its requests have
   nothing left to do, every request accepted has been replied to, once, *)
Theorem C66_requests_answered : forall O V carried link hublink (carry : nat -> nat -> list V -> option (list V)) black raddr hostport code (T : nat -> name -> ChanModel.target O V) o0,
  wired link hublink -> forall ls s j k, exec (fstep link hublink carry black raddr hostport code T) (finit carried o0) ls = Some s -> up j s = true ->
  (forall l, own_pace l j -> fstep link hublink carry black raddr hostport code T s l = None) ->
  k < length (accepted (map fst (carried j)) (hist (sd (fs s) j))) -> replies k (hist (sd (fs s) j)) = 1.
Proof. exact @rest_replied. Qed.
Print Assumptions C66_requests_answered.
(* and every local call has returned; it returns what the method returned, or a timeout. *)
Theorem C66_local_call : forall O V carried link hublink (carry : nat -> nat -> list V -> option (list V)) black raddr hostport code (T : nat -> name -> ChanModel.target O V) o0
  ls s j n f m args, exec (fstep link hublink carry black raddr hostport code T) (finit carried o0) ls = Some s -> nth_error (local_calls (hist (sd (fs s) j))) n = Some (f, m, args) ->
  exists r, issued code s j f m (local_id n) args r /\
    (up j s = true -> (forall l, own_pace l j -> fstep link hublink carry black raddr hostport code T s l = None) -> exists a, In (ChanModel.EReturn (local_id n) r r a) (deeds s j f)) /\
    forall r' o a, In (ChanModel.EReturn (local_id n) r' o a) (deeds s j f) -> r' = r /\ o = r /\ came_to s j f m r (fst (outcome m a)) (snd (outcome m a)).
Proof. exact @local_returned. Qed.
Print Assumptions C66_local_call.
(* A remote call whose request went out, nothing being lost or dropped, comes back. *)
Theorem C66_committed_call_returns : forall O V carried link hublink (carry : nat -> nat -> list V -> option (list V)) black raddr hostport code (T : nat -> name -> ChanModel.target O V) o0,
  wired link hublink -> forall ls s i c p j p', exec (fstep link hublink carry black raddr hostport code T) (finit carried o0) ls = Some s -> no_loss ls ->
  (forall l, carry i j l <> None) -> (forall l, carry j i l <> None) -> NoDup (map q_index (requests (hist (sd (fs s) i)))) ->
  In (ECommit c p true) (hist (sd (fs s) i)) -> link i p = ToDock j p' -> ~ cleared (hist (sd (fs s) j)) ->
  up i s = true -> up j s = true -> wire (fs s) j p' = [] -> wire (fs s) i p = [] -> (forall l, own_pace l j -> fstep link hublink carry black raddr hostport code T s l = None) ->
  (forall b, dstep (sd (fs s) i) (BStep b) = None) -> (forall acc, dstep (sd (fs s) i) (CStep c acc) = None) ->
  (forall q k, ~ In (ESend q k false) (hist (sd (fs s) j))) ->
  exists x q k r, In (EReturn c x) (hist (sd (fs s) i)) /\ In (ENew c q) (hist (sd (fs s) i)) /\ performed carried link carry code s i q j k r x.
Proof. exact @committed_call. Qed.
Print Assumptions C66_committed_call_returns.
Definition F_kept (l : flab gval) : bool := match l with FSys (SLose _ _ _) | FSys (SHubLose _ _) => false | _ => true end.
Example C66_rest_case : exists s, exec F_step F_init (F_first ++ F_second) = Some s /\ no_loss (F_first ++ F_second) /\
  In (ECommit 1 1 true) (hist (sd (fs s) 0)) /\ ~ cleared (hist (sd (fs s) 1)) /\ up 0 s = true /\ up 1 s = true /\ wire (fs s) 1 1 = [] /\ wire (fs s) 0 1 = [] /\
  (forall l, own_pace l 1 -> F_step s l = None) /\
  (forall b, dstep (sd (fs s) 0) (BStep b) = None) /\ (forall acc, dstep (sd (fs s) 0) (CStep 1 acc) = None) /\ (forall q k, ~ In (ESend q k false) (hist (sd (fs s) 1))).
Proof.
  run (F_first ++ F_second) s E. exists s. split; [exact E|]. split; [intros l Hl; pose proof (proj1 (forallb_forall F_kept (F_first ++ F_second)) eq_refl _ Hl); destruct l; cbn; auto; discriminate|].
  observe E (F_hist 0) H0. observe E (F_hist 1) H1. observe E (up 0 : full Z gval -> bool) U0. observe E (up 1 : full Z gval -> bool) U1. unfold F_hist in *.
  observe E (fun s : full Z gval => wire (fs s) 1 1) W1. observe E (fun s : full Z gval => wire (fs s) 0 1) W0.
  observe E (fun s : full Z gval => calls (sd (fs s) 0)) Ca. observe E (fun s : full Z gval => callbacks (sd (fs s) 0)) Cb. observe E (fun s : full Z gval => state (sd (fs s) 0)) A0.
  split; [here H0|]. split; [unfold cleared; rewrite H1; cbn; intuition discriminate|]. do 4 (split; [assumption|]). split.
  - observe E (fun s : full Z gval => servers (sd (fs s) 1)) Sv. observe E (fun s : full Z gval => state (sd (fs s) 1)) A1. observe E (fun s : full Z gval => locals s 1) Lo.
    observe E (fun s : full Z gval => dead s 1) Dd.
    intros l Hl. unfold F_step. destruct l as [l|i k|i k|i f m args w|i n|i f l]; cbn in Hl; try contradiction; try subst i; cbn [fstep].
    + destruct l as [i l ps| | | | |]; try contradiction. destruct l; try contradiction. subst i. unfold allowed, sstep, dock_step, dstep. rewrite A1, Sv. cbn [actor]. rewrite Dd. destruct k as [|[|[|k]]]; reflexivity.
    + rewrite U1, Sv. observe E (fun s : full Z gval => begun s 1) B. rewrite B. destruct k as [|[|[|k]]]; reflexivity.
    + rewrite U1, Sv. observe E (fun s : full Z gval => feat s 1 [70%Z]) F. destruct k as [|[|[|k]]]; cbn; rewrite ?F; destruct (begun _ _ _); reflexivity.
    + rewrite U1, Lo. observe E (fun s : full Z gval => feat s 1 [70%Z]) F. destruct n as [|[|n]]; cbn; rewrite ?F; reflexivity.
    + assert (i = 1) as -> by (destruct l; try contradiction; exact Hl). destruct (list_eq_dec Z.eq_dec f gF) as [->|N].
      * rewrite U1. observe E (fun s : full Z gval => feat s 1 gF) F. rewrite F. clear - Hl.
        destruct l as [d|m x|g c m args|g|g| | | | | | | |r|r|r|r|r|r]; try contradiction; try destruct g as [|[|[|g]]]; try destruct r as [|[|[|r]]]; reflexivity.
      * apply (unasked_rests G_carried _ _ _ _ _ _ _ _ (fun _ _ => 10%Z) _ _ _ _ _ E); [|destruct l; exact Hl].
        intros r g k m a I. destruct (C66_genuine _ _ _ _ _ _ _ _ _ _ _ _ G_wired _ _ _ _ _ _ _ _ _ E I) as (m' & _ & _ & [(k' & p & q & _ & Acc & <- & _)|(n & _ & Lc)]).
        -- rewrite H1 in Acc. destruct k' as [|[|[|k']]]; try discriminate Acc; cbn in Acc; injection Acc as <- <-; now apply N.
        -- rewrite H1 in Lc. destruct n as [|[|n]]; try discriminate Lc. cbn in Lc. injection Lc as <- _ _. now apply N.
  - split; [intros b; unfold dstep; rewrite A0, Cb; destruct b as [|[|[|b]]]; reflexivity|]. split; [intros acc; unfold dstep; rewrite A0, Ca; reflexivity|]. rewrite H1. cbn. intuition discriminate.
Qed.

(* A method that panics ends its dock: nothing of it changes any more. *)
Theorem C66_panic_ends_dock : forall O V carried link hublink (carry : nat -> nat -> list V -> option (list V)) black raddr hostport code (T : nat -> name -> ChanModel.target O V) o0
  ls s ls' s' i f, exec (fstep link hublink carry black raddr hostport code T) (finit carried o0) ls = Some s -> ChanModel.crashed (feat s i f) = true -> exec (fstep link hublink carry black raddr hostport code T) s ls' = Some s' ->
  sd (fs s') i = sd (fs s) i /\ forall f', feat s' i f' = feat s i f'.
Proof. exact @panic_kills. Qed.
Print Assumptions C66_panic_ends_dock.
Example C66_panic_case : exists s, exec F_step F_init (F_sent gn ++ [FBegin 1 0] ++ map (FFeat 1 gF) [ChanModel.LEnqueue 0; ChanModel.LPick; ChanModel.LEnd]) = Some s /\
  ChanModel.crashed (feat s 1 gF) = true /\ F_step s (FSys (SDock 0 (LCall gF gm G_args true 9%Z) [])) <> None.
Proof.
  run (F_sent gn ++ [FBegin 1 0] ++ map (FFeat 1 gF) [ChanModel.LEnqueue 0; ChanModel.LPick; ChanModel.LEnd]) s E. exists s. split; [exact E|].
  observe E (fun s : full Z gval => ChanModel.crashed (feat s 1 gF)) C. split; [exact C|].
  observe E (fun s : full Z gval => match F_step s (FSys (SDock 0 (LCall gF gm G_args true 9%Z) [])) with Some _ => true | None => false end) X.
  destruct (F_step s _); discriminate.
Qed.
