(* Property theorems C67: methods that call features themselves, and calls in a circle. *)
From Verif Require Import Lts NestModel NestSpec NestProof2 NestProof3.
From Verif Require ChanModel ChanSpec.
From Coq Require Import Arith Bool List ZArith Relations.
Import ListNotations.
Open Scope nat_scope.

(* -- two features whose methods return their arguments -- *)
Definition N_T (i : nat) : ChanModel.target unit Z := ChanModel.mkTarget (fun _ => true) (fun o _ args => Some (o, args)).
Definition N_step := nstep N_T.
Definition N_init : nest unit Z := ninit (fun _ => tt).
(* goroutine 0 calls method 0 of feature i, which picks the request up and calls feature j *)
Definition N_enter (i j : nat) : list (nlab Z) :=
  [NChan i (ChanModel.LCall 0 0 0 []); NChan i (ChanModel.LEnqueue 0); NChan i ChanModel.LPick; NChan i (ChanModel.TSleep 0); NCall i j 0 [7%Z]].
(* the request of call n is made, and arrives *)
Definition N_ask (i j n : nat) : list (nlab Z) := [NSend i; NChan j (ChanModel.LEnqueue (nid n))].
(* feature i ends the method run for request r and replies *)
Definition N_leave (i : nat) : list (nlab Z) := map (NChan i) [ChanModel.LEnd; ChanModel.LLock; ChanModel.LCheck; ChanModel.LDone; ChanModel.LRespond; ChanModel.LUnlock].
(* the timer of request r of feature i ends *)
Definition N_timer (i r : nat) : list (nlab Z) := map (NChan i) [ChanModel.TLock r; ChanModel.TCheck r; ChanModel.TDone r; ChanModel.TRespond r; ChanModel.TRelease r].
Ltac run ls s E := assert (exists s', exec N_step N_init ls = Some s') as [s E] by (let X := fresh in assert (X : match exec N_step N_init ls with Some _ => true | None => false end = true) by (vm_compute; reflexivity); destruct (exec N_step N_init ls); [eauto|discriminate]).
Ltac observe E obs H :=
  match type of E with exec ?st ?i ?ls = Some ?s =>
    let v := eval vm_compute in (option_map obs (exec st i ls)) in
    match v with Some ?x => assert (H : obs s = x) by (apply (f_equal (fun o => match o with Some y => y | None => x end) (x := Some (obs s)) (y := Some x)); transitivity (option_map obs (exec st i ls)); [rewrite E; reflexivity|vm_compute; reflexivity]); cbv beta in H end
  end.
Definition N_obs (s : nest unit Z) := (nested s 0, nested s 1, (ChanModel.hist (ch s 0), ChanModel.hist (ch s 1)), (picked s 0, picked s 1)).
(* the clocks of both go on *)
Definition N_later : list (nlab Z) := [NChan 0 (ChanModel.LTick 5000000000%Z); NChan 1 (ChanModel.LTick 5000000000%Z)].
(* a self call; two features calling each other at once; feature 0 calls 1 *)
Definition N_self : list (nlab Z) := N_enter 0 0 ++ N_ask 0 0 0.
Definition N_crossed : list (nlab Z) := N_enter 0 1 ++ N_enter 1 0 ++ N_ask 0 1 0 ++ N_ask 1 0 1.
Definition N_given_up : list (nlab Z) := N_crossed ++ N_later ++ N_timer 0 0 ++ N_timer 1 0 ++ [NChan 0 (ChanModel.LReceive 0); NChan 1 (ChanModel.LReceive 0)].
Definition N_chain : list (nlab Z) := N_enter 0 1 ++ N_ask 0 1 0 ++ [NChan 1 ChanModel.LPick; NChan 1 (ChanModel.TSleep 0)] ++ N_leave 1 ++ [NReturn 0] ++ N_leave 0 ++ [NChan 0 (ChanModel.LReceive 0)] ++
  N_later ++ map (NChan 0) [ChanModel.TLock 0; ChanModel.TCheck 0; ChanModel.TRelease 0] ++ map (NChan 1) [ChanModel.TLock 0; ChanModel.TCheck 0; ChanModel.TRelease 0].

(* Features of a set each of which runs a method waiting for another of the set, which has
   not picked the request up, stay like this for ever: none picks up another request, and no
   call of theirs that has not been picked up ever returns, not even with a timeout. *)
Theorem C67_stuck_forever : forall O V (T : nat -> ChanModel.target O V) o0 ls s ls2 s2 (X : nat -> Prop),
  exec (nstep T) (ninit o0) ls = Some s -> (forall i, X i -> exists j, X j /\ blocked s i j) -> exec (nstep T) s ls2 = Some s2 ->
  (forall i, X i -> exists j, X j /\ blocked s2 i j) /\ forall i, X i -> nested s2 i = nested s i /\ picked s2 i = picked s i /\
    forall g r o a, In (ChanModel.EReturn g r o a) (ChanModel.hist (ch s2 i)) -> In r (picked s i).
Proof. exact @stuck_forever. Qed.
Print Assumptions C67_stuck_forever.
Example C67_crossed : exists s, exec N_step N_init N_crossed = Some s /\ blocked s 0 1 /\ blocked s 1 0 /\ picked s 0 = [0] /\ picked s 1 = [0].
Proof.
  run N_crossed s E. exists s. split; [exact E|]. observe E N_obs H. unfold N_obs in H. injection H as H1 H2 H3 H4 H5 H6. rewrite H5, H6.
  split; [|split; [|split; reflexivity]].
  - exists 0. split; [exact H1|]. rewrite H4, H6. intros r c m args. cbn. intros X [<-|[]]. repeat destruct X as [X|X]; try discriminate X; contradiction.
  - exists 1. split; [exact H2|]. rewrite H3, H5. intros r c m args. cbn. intros X [<-|[]]. repeat destruct X as [X|X]; try discriminate X; contradiction.
Qed.

(* A method that calls its own feature waits for a request that is not picked up; so it,
   and all later calls of the feature, are stuck for ever. *)
Theorem C67_self_call : forall O V (T : nat -> ChanModel.target O V) o0 ls s i n,
  exec (nstep T) (ninit o0) ls = Some s -> nested s i = Some (i, n) -> blocked s i i.
Proof. exact @self_call. Qed.
Print Assumptions C67_self_call.
Example C67_self : exists s s2, exec N_step N_init N_self = Some s /\ nested s 0 = Some (0, 0) /\
  exec N_step s (NChan 0 (ChanModel.LTick 5000000000%Z) :: N_timer 0 0 ++ [NChan 0 (ChanModel.LReceive 0)]) = Some s2 /\
  nested s2 0 = Some (0, 0) /\ In (ChanModel.EReturn 0 0 0 (ChanModel.ATimeout 0)) (ChanModel.hist (ch s2 0)).
Proof.
  run (N_self ++ (NChan 0 (ChanModel.LTick 5000000000%Z) :: N_timer 0 0 ++ [NChan 0 (ChanModel.LReceive 0)])) s2 E. pose proof E as E'.
  apply exec_split in E' as (s & E1 & E2). exists s, s2. split; [exact E1|]. observe E1 (fun s : nest unit Z => nested s 0) H1. split; [exact H1|]. split; [exact E2|].
  observe E N_obs H. unfold N_obs in H. injection H as H2 _ H3 _ _ _. split; [exact H2|]. rewrite H3. cbn. tauto.
Qed.

(* There is no other way to be stuck: when nothing happens by itself any more and all
   timeouts are over, every method in a call waits for a feature that runs a method in a
   call and has not picked the request up, and all other features have answered everything; *)
Theorem C67_only_way : forall O V (T : nat -> ChanModel.target O V) o0 ls s,
  exec (nstep T) (ninit o0) ls = Some s -> (forall i, ChanModel.crashed (ch s i) = false) -> quiet T s -> time_over s ->
  (forall i, nested s i <> None -> exists j, nested s j <> None /\ blocked s i j) /\
  (forall i, nested s i = None -> forall g, ChanModel.gor (ch s i) g = ChanModel.GIdle).
Proof. exact @only_way. Qed.
Print Assumptions C67_only_way.
Ltac seen E obs := let X := fresh in observe E obs X; first [exact X|rewrite X; match goal with |- (if ?b then _ else _) = _ => destruct b; reflexivity end].
(* nothing is possible in state s by itself *)
Ltac cut r := destruct r as [|[|[|[|r]]]].
Ltac nothing E s := let l := fresh "l" in let B := fresh "B" in intros l B; change (N_step s l = None);
  destruct l as [i l|i j m args|i|i]; [|discriminate B| |]; (destruct i as [|[|i]]);
  try (destruct l as [| | |g|g| | | | | | | |r|r|r|r|r|r]; try discriminate B; try cut g; try cut r);
  match goal with |- N_step ?s ?l = None => seen E (fun s : nest unit Z => N_step s l) end.
Ltac all_up E := intros [|[|i]]; match goal with |- ChanModel.crashed (ch ?s ?i) = _ => seen E (fun s : nest unit Z => ChanModel.crashed (ch s i)) end.
Ltac all_over E := let Y := fresh in intros [|[|i]] r u; cut r; match goal with |- ChanModel.timer (ch ?s ?i) ?r = _ -> _ => observe E (fun s : nest unit Z => ChanModel.timer (ch s i) r) Y; rewrite Y; discriminate end.
Example C67_given_up : exists s, exec N_step N_init N_given_up = Some s /\ (forall i, ChanModel.crashed (ch s i) = false) /\ quiet N_T s /\ time_over s /\ nested s 0 <> None.
Proof.
  run N_given_up s E. exists s. split; [exact E|]. split; [all_up E|]. split; [nothing E s|]. split; [all_over E|].
  observe E (fun s : nest unit Z => nested s 0) X. rewrite X. discriminate.
Qed.
(* so there is a circle; *)
Theorem C67_circle : forall O V (T : nat -> ChanModel.target O V) o0 ls s i,
  exec (nstep T) (ninit o0) ls = Some s -> (forall i, ChanModel.crashed (ch s i) = false) -> quiet T s -> time_over s ->
  nested s i <> None -> exists k, clos_trans nat (blocked s) k k.
Proof. exact @deadlock_circle. Qed.
Print Assumptions C67_circle.
(* and features that never call in a circle never get stuck: all calls return. *)
Theorem C67_layered : forall O V (T : nat -> ChanModel.target O V) o0 ls s,
  exec (nstep T) (ninit o0) ls = Some s -> (forall i, ChanModel.crashed (ch s i) = false) -> quiet T s -> time_over s ->
  (forall k, ~ clos_trans nat (fun i j => exists m a, In (NCall i j m a) ls) k k) ->
  forall i, nested s i = None /\ forall g, ChanModel.gor (ch s i) g = ChanModel.GIdle.
Proof. exact @layered. Qed.
Print Assumptions C67_layered.
Example C67_chain : exists s, exec N_step N_init N_chain = Some s /\ (forall i, ChanModel.crashed (ch s i) = false) /\ quiet N_T s /\ time_over s /\
  (forall k, ~ clos_trans nat (fun i j => exists m a, In (NCall i j m a) N_chain) k k) /\
  In (ChanModel.EReturn (nid 0) 0 0 (ChanModel.AResult [7%Z])) (ChanModel.hist (ch s 1)) /\ number by_itself N_chain = 27 /\ number new_call N_chain = 2.
Proof.
  run N_chain s E. exists s. split; [exact E|]. split; [all_up E|]. split; [nothing E s|]. split; [all_over E|]. split.
  - assert (L : forall x y, clos_trans nat (fun i j => exists m a, In (NCall i j m a) N_chain) x y -> x < y).
    { induction 1 as [x y (m & a & I)|]; [|eapply Nat.lt_trans; eassumption]. cbv in I. repeat destruct I as [I|I]; try discriminate I; [|contradiction]. injection I as <- <- _ _. apply Nat.lt_0_1. }
    intros k Hk. apply L in Hk. exact (Nat.lt_irrefl _ Hk).
  - observe E N_obs H. unfold N_obs in H. injection H as _ _ _ H _ _. rewrite H. cbn. split; [tauto|]. split; reflexivity.
Qed.

(* What happens by itself comes to an end: at most 17 such steps for every call. *)
Theorem C67_ends : forall O V (T : nat -> ChanModel.target O V) o0 ls s,
  exec (nstep T) (ninit o0) ls = Some s -> (forall i, ChanModel.crashed (ch s i) = false) -> number by_itself ls <= 17 * number new_call ls.
Proof. exact @ends. Qed.
Print Assumptions C67_ends.

(* The answer a method gets to its call is that of its own request: the result, or a
   timeout that names the method called. *)
Theorem C67_answer : forall O V (T : nat -> ChanModel.target O V) o0 ls s j n r q a,
  exec (nstep T) (ninit o0) ls = Some s -> In (ChanModel.EReturn (nid n) r q a) (ChanModel.hist (ch s j)) ->
  q = r /\ exists i c m args, In (NCall i j m args) ls /\ In (ChanModel.EIssue r (nid n) c m args) (ChanModel.hist (ch s j)) /\
    match a with ChanModel.AResult l => In (ChanModel.EEnd r l) (ChanModel.hist (ch s j)) | ChanModel.ATimeout m' => m' = m end.
Proof. exact @own_answers. Qed.
Print Assumptions C67_answer.
