(* Vocabulary of the theorems about a system with its features. *)
From Verif Require Import Lts GoVal Tables DockModel DockSpec SysModel SysSpec FullModel.
From Verif Require ChanModel ChanSpec.
From Coq Require Import Arith Bool List ZArith.
Import ListNotations.
Open Scope nat_scope.

Section Spec.
Context {O V : Type}.
Notation full := (FullModel.full O V).

(* calls of features in the same dock, in order *)
Definition local_calls (h : list (event V)) : list (name * name * list V) :=
  flat_map (fun e => match e with ELocal f m args _ => [(f, m, args)] | _ => [] end) h.
(* what the callee of feature f of dock i has done *)
Definition deeds (s : full) (i : nat) (f : name) : list (ChanModel.event V) := ChanModel.hist (feat s i f).
(* goroutine g of dock i calls method m of feature f: for the k-th request accepted, or in the n-th local call *)
Definition asked (carried : nat -> list (name * bool)) (s : full) (i : nat) (f m : name) (g : nat) (args : list V) : Prop :=
  (exists k p q, g = server_id k /\ nth_error (accepted (map fst (carried i)) (hist (sd (fs s) i))) k = Some (p, q) /\ q_slot q = f /\ q_method q = m /\ q_args q = args) \/
  (exists n, g = local_id n /\ nth_error (local_calls (hist (sd (fs s) i))) n = Some (f, m, args)).
(* request r of the callee of feature f of dock i is the call of method m with args by goroutine g *)
Definition issued (code : name -> nat) (s : full) (i : nat) (f m : name) (g : nat) (args : list V) (r : nat) : Prop :=
  In (ChanModel.EIssue r g g (code m) args) (deeds s i f).
(* the outcome of request r: the method's result, or the error of a call that timed out *)
Definition came_to (s : full) (i : nat) (f m : name) (r : nat) (res : list V) (err : option name) : Prop :=
  (err = None /\ In (ChanModel.EEnd r res) (deeds s i f)) \/
  (res = [] /\ err = Some (timeout_text m) /\ exists n t, In (ChanModel.ERespond r (ChanModel.ATimeout n) t) (deeds s i f)).
(* The call q of dock i was the k-th request that dock j accepted, and request r of the
   callee of its feature there, on the arguments as they arrive; dock j carries the feature
   as discoverable; x is what arrives of the outcome at the caller. *)
Definition performed (carried : nat -> list (name * bool)) (link : nat -> nat -> wend) (carry : nat -> nat -> list V -> option (list V)) (code : name -> nat)
    (s : full) (i : nat) (q : request V) (j k r : nat) (x : ret V) : Prop :=
  carries (carried j) (q_slot q) true /\
  exists args res err, carry i j (q_args q) = Some args /\
    served carried link (fs s) i j k (mkReq (q_index q) (q_slot q) (q_method q) args (q_withres q)) /\
    issued code s j (q_slot q) (q_method q) (server_id k) args r /\
    came_to s j (q_slot q) (q_method q) r res err /\
    carry j i (if q_withres q then res else []) = Some (r_result x) /\ r_err x = err.
(* no packet is lost *)
Definition no_loss (ls : list (flab V)) : Prop :=
  forall l, In (FSys l) ls -> match l with SLose _ _ _ | SHubLose _ _ => False | _ => True end.
(* steps by which the features of a dock and the goroutines serving requests go on by themselves *)
Definition own_pace (l : flab V) (j : nat) : Prop :=
  match l with
  | FBegin i _ | FReturn i _ | FLocalReturn i _ => i = j
  | FFeat i _ (ChanModel.LTick _) | FFeat i _ (ChanModel.LSetTimeout _ _) => False
  | FFeat i _ _ => i = j
  | FSys (SDock i (SSend _ _) _) => i = j
  | _ => False
  end.
End Spec.
