(* Vocabulary of the dock properties: what a history says. *)
From Verif Require Import GoVal Tables DockModel.
From Coq Require Import Arith Bool List ZArith.
Import ListNotations.
Open Scope nat_scope.

(* newDock(name, slots...): feature f is carried, and discoverable or not; the last slot of a name counts *)
Definition carries (carried : list (name * bool)) (f : name) (discoverable : bool) : Prop :=
  exists l1 l2, carried = l1 ++ (f, discoverable) :: l2 /\ ~ In f (map fst l2).

Section Spec.
Context {V : Type}.
Implicit Types h : list (event V).

(* Close has dropped the features *)
Definition cleared h : Prop := In ECleared h.
(* the latest peer recorded for feature f *)
Definition latest (f : name) h (p : nat) : Prop := exists h1 h2, h = h1 ++ ECached f p :: h2 /\ forall p', ~ In (ECached f p') h2.
(* remote calls made, in order: the n-th is call n *)
Definition requests h : list (request V) := flat_map (fun e => match e with ENew _ q => [q] | _ => [] end) h.
(* peers to which call c was committed *)
Definition commits (c : nat) h : list nat := flat_map (fun e => match e with ECommit c' p _ => if c' =? c then [p] else [] | _ => [] end) h.
(* what call c returned *)
Definition returns (c : nat) h : list (ret V) := flat_map (fun e => match e with EReturn c' x => if c' =? c then [x] else [] | _ => [] end) h.
(* responses received *)
Definition responses h : list (response V) := flat_map (fun e => match e with ERecv _ (KResponse r) => [r] | _ => [] end) h.
(* requests received for one of the features fs before Close dropped them, with the asking peer *)
Fixpoint accepted (fs : list name) h : list (nat * request V) :=
  match h with
  | [] => []
  | ECleared :: _ => []
  | ERecv p (KRequest q) :: r => if existsb (zlist_eqb (q_slot q)) fs then (p, q) :: accepted fs r else accepted fs r
  | _ :: r => accepted fs r
  end.
(* executions and replies of the k-th accepted request *)
Definition runs (k : nat) h : list (list V * option name) := flat_map (fun e => match e with ERan k' res err => if k' =? k then [(res, err)] else [] | _ => [] end) h.
Definition replies (k : nat) h : nat := length (filter (fun e => match e with EReplied k' _ => k' =? k | _ => false end) h).
(* features started by the j-th start goroutine *)
Definition started (j : nat) h : list name := flat_map (fun e => match e with EStart j' f => if j' =? j then [f] else [] | _ => [] end) h.
Definition registered h : nat := length (filter (fun e => match e with ERecv _ (KRegistered _) => true | _ => false end) h).
Definition destroyed h : list name := flat_map (fun e => match e with EDestroy f => [f] | _ => [] end) h.
(* sockets opened and, by Close, closed *)
Definition opened h : list socket := flat_map (fun e => match e with ESocket k => [k] | _ => [] end) h.
Definition since h : list socket := (* opened since the last completed Close *)
  fold_left (fun s e => match e with EClosed => [] | ESocket k => s ++ [k] | _ => s end) h [].
Definition shut h : list socket := flat_map (fun e => match e with ESockClosed k => [k] | _ => [] end) h.
(* what the caller gets from a response *)
Definition delivers (r : response V) (x : ret V) : Prop :=
  r_result x = p_result r /\ (p_err r = [] -> r_err x = None) /\ (p_err r <> [] -> r_err x = Some (p_err r)).
(* the response to request q whose invocation gave res and err *)
Definition answers (q : request V) (res : list V) (err : option name) (r : response V) : Prop :=
  p_index r = q_index q /\ p_slot r = q_slot q /\ p_method r = q_method q /\ p_result r = (if q_withres q then res else []) /\
  (err = None -> p_err r = []) /\ (forall e, err = Some e -> p_err r = e).
(* every response received names a call made here *)
Definition honest h : Prop := forall p r, In (ERecv p (KResponse r)) h ->
  exists c q, In (ENew c q) h /\ p_index r = q_index q /\ p_slot r = q_slot q /\ p_method r = q_method q.
(* every response received has the identifier of a request that went out *)
Definition solicited h : Prop := forall p r, In (ERecv p (KResponse r)) h ->
  exists p' q, In (ESend p' (KRequest q) true) h /\ q_index q = p_index r.
(* A goroutine may be about to commit call c: a cReady handler past its test of r.req,
   or the caller between setting r.req and commit.  Serial: never two for one call. *)
Definition window (c : nat) (x : hpc) : Prop := match x with RTested _ _ _ c' | RCommit _ _ _ c' => c' = c | _ => False end.
Definition at_set c (d : dock V) : Prop := exists r, nth_error (calls d) c = Some r /\ c_pc r = CSet.
Definition serial (d : dock V) : Prop := forall c, (forall p p', window c (handlers d p) -> window c (handlers d p') -> p = p') /\ (forall p, window c (handlers d p) -> ~ at_set c d).
End Spec.

Section Handling.
Context {V : Type}.
Implicit Types h : list (event V).
(* features recorded for peer p, ready packets handed to p's connection *)
Definition cachedby (p : nat) h : list name := flat_map (fun e => match e with ECached f p' => if p' =? p then [f] else [] | _ => [] end) h.
Definition readies (p : nat) h : nat := length (filter (fun e => match e with ESend p' (KReady _) _ => p' =? p | _ => false end) h).
Definition hears (p : nat) h : Prop := exists k, In (ERecv p k) h.
(* what must have been done once packet k of peer p is handled *)
Definition handled (p : nat) (k : packet V) h : Prop :=
  match k with
  | KRegister sl => readies p h = 1 /\ cachedby p h = sl
  | KRegistered n => readies p h = 1 /\ cachedby p h = [] /\ In (ESocket (SListen n)) h
  | KAddress a => readies p h = 0 /\ cachedby p h = [] /\ In (ESocket (SDial a)) h
  | _ => readies p h = 0 /\ cachedby p h = []
  end.
(* steps of the receive routine of peer p *)
Definition own_step (p : nat) (l : label V) : Prop :=
  match l with HGo p' | HPick p' _ | HCommit p' _ | HSend p' _ _ | HNet p' _ => p' = p | _ => False end.
End Handling.
