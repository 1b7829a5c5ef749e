(* A whole system: one hub, docks numbered by nat and the connections between them.  The
   hub and the docks are those of HubModel.v and DockModel.v; this file carries what one
   sends to what the other receives.
   Simplifications: which peer object is connected to which is a parameter, the same for
   the whole run, so every pattern of connections is covered but their dependence on the
   addresses dialled is not followed.  A packet handed to a peer's queue goes on the wire
   at once; each wire is first in first out and may lose any packet (a broken connection,
   a full queue).  A query that reaches a dock is left out (dock.go:75-196 has no case for
   it).  Names, identifiers and flags pass unchanged; values pass through [carry]. *)
From Verif Require Import Lts GoVal Tables DockModel.
From Verif Require HubModel.
From Coq Require Import Arith Bool List ZArith.
Import ListNotations.
Open Scope nat_scope.

(* The other end of a dock's peer: peer p of dock j, or peer h of the hub. *)
Inductive wend := Nowhere | ToDock (j p : nat) | ToHub (h : nat).

Section Sys.
Variable V : Type.
Variable carried : nat -> list (name * bool).      (* the slots given to dock i *)
Variable link : nat -> nat -> wend.                (* of peer p of dock i *)
Variable hublink : nat -> option (nat * nat).      (* of peer h of the hub *)
(* what a list of values sent by dock i is when dock j gets it; None: it does not get through *)
Variable carry : nat -> nat -> list V -> option (list V).
Variables (black : list Z) (raddr : nat -> name).  (* of the hub *)
Variable hostport : name -> Z -> name.             (* fmt.Sprintf("%s:%d", addr, port), hub.go:71 *)

(* Serialised by dock i, read by dock j (protocol.go:203-298, network/peer.go:71-100) *)
Definition pass (i j : nat) (k : packet V) : option (packet V) :=
  match k with
  | KRequest q => option_map (fun a => KRequest (mkReq (q_index q) (q_slot q) (q_method q) a (q_withres q))) (carry i j (q_args q))
  | KResponse r => option_map (fun a => KResponse (mkResp (p_index r) (p_slot r) (p_method r) a (p_err r))) (carry i j (p_result r))
  | _ => Some k
  end.
(* What the hub makes of a packet (hub.go:61-131) *)
Definition to_hub (k : packet V) : HubModel.packet :=
  match k with
  | KRegister sl => HubModel.PRegister sl | KReady sl => HubModel.PReady sl | KQuery f => HubModel.PQuery f
  | _ => HubModel.POther
  end.

(* [wire] i p: packets on their way to peer p of dock i; [hwire] h: to peer h of the hub. *)
Record sys := mkSys { sd : nat -> dock V; sh : HubModel.hub; wire : nat -> nat -> list (packet V); hwire : nat -> list HubModel.packet }.
Definition sinit : sys := mkSys (fun i => new_dock (carried i)) HubModel.new_hub (fun _ _ => []) (fun _ => []).

(* Field updates of [sys]: the packets on the way between two peers (network/peer.go:62-100), a
   dock (dock.go:34-41), the hub (hub.go:22-37). *)
Definition put_wire (i p : nat) (q : list (packet V)) (w : nat -> nat -> list (packet V)) : nat -> nat -> list (packet V) :=
  updp w i (updp (w i) p q).
Definition set_dock i d s := mkSys (updp (sd s) i d) (sh s) (wire s) (hwire s).
Definition set_hub h s := mkSys (sd s) h (wire s) (hwire s).
Definition set_wire i p q s := mkSys (sd s) (sh s) (put_wire i p q (wire s)) (hwire s).
Definition set_hwire h q s := mkSys (sd s) (sh s) (wire s) (updp (hwire s) h q).

(* network/peer.go:54-77 *)
(* A packet leaves peer p of dock i. *)
Definition post (i p : nat) (k : packet V) (s : sys) : sys :=
  match link i p with
  | ToDock j p' => match pass i j k with Some k' => set_wire j p' (wire s j p' ++ [k']) s | None => s end
  | ToHub h => set_hwire h (hwire s h ++ [to_hub k]) s
  | Nowhere => s
  end.
(* network/socket.go:96-100, peer.go:54-77 *)
(* A query leaves peer p of dock i. *)
Definition post_query (i : nat) (f : name) (p : nat) (s : sys) : sys :=
  match link i p with ToHub h => set_hwire h (hwire s h ++ [HubModel.PQuery f]) s | _ => s end.
(* What the new events of dock i put on the wires; [ps]: the peers of the socket a query is
   sent on (network/socket.go:96-100). *)
Definition post_event (i : nat) (ps : list nat) (s : sys) (e : event V) : sys :=
  match e with
  | ESend p k true => post i p k s
  | EQuery _ f => fold_left (fun s p => post_query i f p s) ps s
  | _ => s
  end.
(* network/peer.go:54-77 *)
(* A packet leaves peer h of the hub. *)
Definition post_hub (h : nat) (k : packet V) (s : sys) : sys :=
  match hublink h with Some (i, p) => set_wire i p (wire s i p ++ [k]) s | None => s end.
Definition post_hub_event (s : sys) (e : HubModel.event) : sys :=
  match e with
  | HubModel.EReply h port => post_hub h (KRegistered port) s                              (* hub.go:83-89 *)
  | HubModel.EAnswer _ h _ _ host port => post_hub h (KAddress (hostport host port)) s     (* hub.go:172-179 *)
  | _ => s
  end.

(* The events a step of dock.go or hub.go has added to the ghost history. *)
Definition new_events {E} (before after : list E) : list E := skipn (length before) after.
(* A packet lost on the way (network/peer.go:55-57, 72-75). *)
Definition drop_nth {A} (n : nat) (l : list A) : list A := firstn n l ++ skipn (S n) l.

(* The steps of dock.go, hub.go and of the peers between them (network/peer.go:62-100). *)
Inductive slab :=
| SDock (i : nat) (l : label V) (ps : list nat) (* a step of dock i that is not a receive *)
| SDeliver (i p : nat) | SLose (i p n : nat)
| SHub (l : HubModel.label) | SHubDeliver (h : nat) | SHubLose (h n : nat).

(* A step of dock.go or rpc.go (dstep of DockModel.v); what it sends leaves. *)
Definition dock_step (i : nat) (l : label V) (ps : list nat) (s : sys) : option sys :=
  match dstep (sd s i) l with
  | Some d => Some (fold_left (post_event i ps) (new_events (hist (sd s i)) (hist d)) (set_dock i d s))
  | None => None
  end.
(* A step of hub.go (hstep of HubModel.v); what it sends leaves. *)
Definition hub_step (l : HubModel.label) (s : sys) : option sys :=
  match HubModel.hstep black raddr (sh s) l with
  | Some h => Some (fold_left post_hub_event (new_events (HubModel.hist (sh s)) (HubModel.hist h)) (set_hub h s))
  | None => None
  end.

(* dock.go:43-265, hub.go:61-179; network/peer.go:88-100 for the delivery of a packet to
   OnPacket, in order; packets may get lost. *)
Definition sstep (s : sys) (l : slab) : option sys :=
  match l with
  | SDock i (LRecv _ _) _ => None
  | SDock i l ps => dock_step i l ps s
  | SDeliver i p => match wire s i p with k :: q => dock_step i (LRecv p k) [] (set_wire i p q s) | [] => None end
  | SLose i p n => Some (set_wire i p (drop_nth n (wire s i p)) s)
  | SHub (HubModel.LRecv _ _) => None
  | SHub l => hub_step l s
  | SHubDeliver h => match hwire s h with k :: q => hub_step (HubModel.LRecv h k) (set_hwire h q s) | [] => None end
  | SHubLose h n => Some (set_hwire h (drop_nth n (hwire s h)) s)
  end.
End Sys.
Arguments mkSys {V}. Arguments sd {V}. Arguments sh {V}. Arguments wire {V}. Arguments hwire {V}. Arguments sinit {V}.
Arguments pass {V}. Arguments to_hub {V}. Arguments put_wire {V}. Arguments set_dock {V}. Arguments set_hub {V}. Arguments set_wire {V}. Arguments set_hwire {V}.
Arguments post {V}. Arguments post_query {V}. Arguments post_event {V}. Arguments post_hub {V}. Arguments post_hub_event {V}.
Arguments SDock {V}. Arguments SDeliver {V}. Arguments SLose {V}. Arguments SHub {V}. Arguments SHubDeliver {V}. Arguments SHubLose {V}.
Arguments dock_step {V}. Arguments hub_step {V}. Arguments sstep {V}.
