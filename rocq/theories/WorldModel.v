(* A network of docks whose connections are made by dialling: which peer is connected to
   which follows from the addresses handed out by the hub.  The hub, the docks and the
   wires are those of SysModel.v.
   Peer 0 of dock i is its connection to the hub, where it is peer i; its other peers are
   numbered from 1 in the order in which they come into being.  A dock is reached at the
   address from which its connection to the hub comes (no address translation between
   machines), so docks with the same pickIP address share one machine and its ports.
   Simplifications beyond those of SysModel.v: a hub connection that has been dialled is
   accepted by the hub at once (hub.go:53-55 does nothing there); a query sent on a socket
   other than the hub's goes to docks, which ignore it. *)
From Verif Require Import Lts GoVal Tables DockModel SysModel.
From Verif Require HubModel.
From Coq Require Import Arith Bool List ZArith.
From Coq Require Decimal DecimalZ.
Import ListNotations.
Open Scope nat_scope.

(* fmt.Sprintf("%s:%d", addr, port), hub.go:71 *)
Fixpoint digits (u : Decimal.uint) : list Z :=
  match u with
  | Decimal.Nil => []
  | Decimal.D0 u => 48%Z :: digits u | Decimal.D1 u => 49%Z :: digits u | Decimal.D2 u => 50%Z :: digits u
  | Decimal.D3 u => 51%Z :: digits u | Decimal.D4 u => 52%Z :: digits u | Decimal.D5 u => 53%Z :: digits u
  | Decimal.D6 u => 54%Z :: digits u | Decimal.D7 u => 55%Z :: digits u | Decimal.D8 u => 56%Z :: digits u
  | Decimal.D9 u => 57%Z :: digits u
  end.
Definition decimal (z : Z) : list Z := match Z.to_int z with Decimal.Pos u => digits u | Decimal.Neg u => 45%Z :: digits u end.
Definition hostport (host : name) (port : Z) : name := host ++ 58%Z :: decimal port.

(* Accepted by the hub, network/socket.go:35-52; *)
(* the hub's end of peer h *)
Definition hub_end (h : nat) : option (nat * nat) := Some (h, 0).

Section World.
Variable V : Type.
Variable carried : nat -> list (name * bool).      (* the slots given to dock i *)
Variable carry : nat -> nat -> list V -> option (list V).
Variables (black : list Z) (raddr : nat -> name).  (* of the hub *)

(* the machine of dock i *)
Definition machine (i : nat) : name := HubModel.pickIP (raddr i).

(* [ends] i p: the other end of peer p of dock i, when connected.  [peers] i: the number of
   the next peer of dock i.  [backlog] i: connections to dock i not accepted yet
   (network/socket.go:35-52).  [listeners]: who has listened on which port. *)
Record world := mkWorld { ws : sys V; ends : nat -> nat -> wend; peers : nat -> nat; backlog : nat -> list nat; listeners : list (nat * Z) }.
Definition winit : world :=
  mkWorld (sinit carried) (fun i p => match p with O => ToHub i | _ => Nowhere end) (fun _ => 1) (fun _ => []) [].

Definition with_sys s (w : world) := mkWorld s (ends w) (peers w) (backlog w) (listeners w).
(* dock j still listens on port n: it has not died and has not closed that socket *)
Definition listens (w : world) (j : nat) (n : Z) : bool :=
  existsb (fun x => (fst x =? j) && (snd x =? n)%Z) (listeners w) &&
  match state (sd (ws w) j) with Alive => true | _ => false end &&
  negb (existsb (fun e => match e with ESockClosed (SListen m) => (m =? n)%Z | _ => false end) (hist (sd (ws w) j))).
(* no other program of ours on the machine of dock i has the port *)
Definition port_free (w : world) (i : nat) (n : Z) : bool :=
  forallb (fun x => negb (zlist_eqb (machine (fst x)) (machine i) && (snd x =? n)%Z && listens w (fst x) (snd x))) (listeners w).
(* the peers of dock i's first socket that lead to the hub (network/socket.go:96-100, dock.go:258) *)
Definition query_peers (w : world) (i : nat) : list nat := match sockets (sd (ws w) i) with DockModel.SHub :: _ => [0] | _ => [] end.
(* the next peers of docks i and j, connected to each other *)
Definition join (i j : nat) (w : world) : world :=
  let p := peers w i in let ps := updp (peers w) i (S p) in let q := ps j in
  let e := updp (ends w) i (updp (ends w i) p (ToDock j q)) in
  mkWorld (ws w) (updp e j (updp (e j) q (ToDock i p))) (updp ps j (S q)) (updp (backlog w) j (backlog w j ++ [q])) (listeners w).

Notation step w := (sstep (ends w) hub_end carry black raddr hostport).
Definition on (w : world) (o : option (sys V)) : option world := option_map (fun s => with_sys s w) o.

Inductive wlab :=
| WDock (i : nat) (l : label V)          (* any other step of dock i *)
| WDeliver (i p : nat) | WLose (i p n : nat)
| WHub (l : HubModel.label) | WHubDeliver (h : nat) | WHubLose (h n : nat)
| WDial (i : nat) (ok : bool)            (* dock i dials the hub, dock.go:199-205 *)
| WListen (i p : nat) (ok : bool)        (* dock.go:118-122 *)
| WConnect (i p j : nat) (n : Z)         (* dock i dials dock j at port n, dock.go:134-140 *)
| WFail (i p : nat)                      (* it dials in vain *)
| WAccept (j q : nat).                   (* network/socket.go:35-52 *)

(* Dial (network/socket.go:55-82) calls OnConnected before it returns; Accept (35-52) when
   the connection is taken. *)
Definition wstep (w : world) (l : wlab) : option world :=
  match l with
  | WDock i (LRecv _ _) | WDock i (LConnected _) | WDock i (LDial _) | WDock i (HNet _ _) => None
  | WDock i l => on w (step w (ws w) (SDock i l (query_peers w i)))
  | WDeliver i p => if existsb (Nat.eqb p) (backlog w i) then None else on w (step w (ws w) (SDeliver i p))
  | WLose i p n => on w (step w (ws w) (SLose i p n))
  | WHub l => on w (step w (ws w) (SHub l))
  | WHubDeliver h => on w (step w (ws w) (SHubDeliver h))
  | WHubLose h n => on w (step w (ws w) (SHubLose h n))
  | WDial i ok => on w (exec (step w) (ws w) (SDock i (LDial ok) [] :: if ok then [SDock i (LConnected 0) []] else []))
  | WListen i p ok =>
      match handlers (sd (ws w) i) p with
      | BListen n =>
          if ok && negb (port_free w i n) then None
          else on (if ok then mkWorld (ws w) (ends w) (peers w) (backlog w) (listeners w ++ [(i, n)]) else w)
                  (step w (ws w) (SDock i (HNet p ok) []))
      | _ => None
      end
  | WConnect i p j n =>
      match handlers (sd (ws w) i) p with
      | ADial a =>
          if zlist_eqb a (hostport (machine j) n) && listens w j n
          then on (join i j w) (exec (step w) (ws w) [SDock i (HNet p true) []; SDock i (LConnected (peers w i)) []])
          else None
      | _ => None
      end
  | WFail i p =>
      match handlers (sd (ws w) i) p with ADial _ => on w (step w (ws w) (SDock i (HNet p false) [])) | _ => None end
  | WAccept j q =>
      if existsb (Nat.eqb q) (backlog w j)
      then on (mkWorld (ws w) (ends w) (peers w) (updp (backlog w) j (filter (fun x => negb (x =? q)) (backlog w j))) (listeners w))
              (step w (ws w) (SDock j (LConnected q) []))
      else None
  end.
End World.
Arguments mkWorld {V}. Arguments ws {V}. Arguments ends {V}. Arguments peers {V}. Arguments backlog {V}. Arguments listeners {V}.
Arguments winit {V}. Arguments with_sys {V}. Arguments listens {V}. Arguments port_free {V}. Arguments query_peers {V}. Arguments join {V}. Arguments on {V}.
Arguments WDock {V}. Arguments WDeliver {V}. Arguments WLose {V}. Arguments WHub {V}. Arguments WHubDeliver {V}. Arguments WHubLose {V}. Arguments WDial {V}.
Arguments WListen {V}. Arguments WConnect {V}. Arguments WFail {V}. Arguments WAccept {V}. Arguments wstep {V}.
