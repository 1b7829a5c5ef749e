(* Vocabulary of the theorems about whole systems. *)
From Verif Require Import Lts GoVal Tables DockModel DockSpec SysModel.
From Verif Require HubModel HubSpec.
From Coq Require Import Arith Bool List ZArith.
Import ListNotations.
Open Scope nat_scope.

(* Connections have two ends, each the other end of the other. *)
Definition wired (link : nat -> nat -> wend) (hublink : nat -> option (nat * nat)) : Prop :=
  (forall i p j q, link i p = ToDock j q -> link j q = ToDock i p) /\
  (forall i p h, link i p = ToHub h <-> hublink h = Some (i, p)).

(* The same things in the same order, some left out. *)
Inductive subseq {A} : list A -> list A -> Prop :=
| sq_nil : subseq [] []
| sq_keep x a b : subseq a b -> subseq (x :: a) (x :: b)
| sq_skip x a b : subseq a b -> subseq a (x :: b).

Section Spec.
Context {V : Type}.
Implicit Types h : list (event V).
(* packets taken by the queue of peer p; packets received from peer p *)
Definition sent_on (p : nat) h : list (packet V) :=
  flat_map (fun e => match e with ESend p' k true => if p' =? p then [k] else [] | _ => [] end) h.
Definition got_on (p : nat) h : list (packet V) :=
  flat_map (fun e => match e with ERecv p' k => if p' =? p then [k] else [] | _ => [] end) h.
(* what a caller sees of an error *)
Definition error_seen (err : option name) : option name := match err with Some [] => None | e => e end.

(* the packet as it arrives *)
Inductive arrives (carry : list V -> option (list V)) : packet V -> packet V -> Prop :=
| ar_request i s m a a' w : carry a = Some a' -> arrives carry (KRequest (mkReq i s m a w)) (KRequest (mkReq i s m a' w))
| ar_response i s m r r' e : carry r = Some r' -> arrives carry (KResponse (mkResp i s m r e)) (KResponse (mkResp i s m r' e))
| ar_other k : (forall q, k <> KRequest q) -> (forall r, k <> KResponse r) -> arrives carry k k.
End Spec.

(* no packet is lost on the way *)
Definition lossless {V} (ls : list (slab V)) : Prop := forall l, In l ls -> match l with SLose _ _ _ | SHubLose _ _ => False | _ => True end.

Section Executed.
Context {V : Type}.
Variables (carried : nat -> list (name * bool)) (link : nat -> nat -> wend) (carry : nat -> nat -> list V -> option (list V)).
(* The k-th request that dock j accepted is q, as sent by dock i. *)
Definition served (s : sys V) (i j k : nat) (q : request V) : Prop :=
  exists p r, link j p = ToDock i r /\ nth_error (accepted (map fst (carried j)) (hist (sd s j))) k = Some (p, q).
(* Dock j, which carries the feature as discoverable, ran the method of call q of dock i
   once, with the caller's arguments as they arrive, and got res and err; x is what
   arrives of these at the caller. *)
Definition executed (s : sys V) (i : nat) (q : request V) (j k : nat) (x : ret V) : Prop :=
  carries (carried j) (q_slot q) true /\
  exists args res err,
    carry i j (q_args q) = Some args /\
    served s i j k (mkReq (q_index q) (q_slot q) (q_method q) args (q_withres q)) /\
    runs k (hist (sd s j)) = [(res, err)] /\
    carry j i (if q_withres q then res else []) = Some (r_result x) /\ r_err x = error_seen err.
End Executed.

(* packets of peer h that the hub handled; all but queries *)
Definition hub_got (h : nat) (es : list HubModel.event) : list HubModel.packet :=
  flat_map (fun e => match e with HubModel.ERecv h' k => if h' =? h then [k] else [] | _ => [] end) es.
Definition announcement (k : HubModel.packet) : bool := match k with HubModel.PQuery _ => false | _ => true end.

(* registrations sent on peer p *)
Definition registers {V} (p : nat) (h : list (event V)) : list (packet V) :=
  filter (fun k => match k with KRegister _ => true | _ => false end) (sent_on p h).
