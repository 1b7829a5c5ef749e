(* A network of docks down to the bytes: connections are made by dialling as in
   WorldModel.v, and on each of them the queues, routines, bytes and the serializer work as
   in ByteModel.v.
   Simplifications: those of both models, but for which peer is connected to which, and that
   packets go on the wire at once.  The connection to the hub is there before it is dialled;
   nothing is handed to it until then.  A connection not accepted yet takes bytes and gives
   none. *)
From Verif Require Import Lts GoInt GoVal Tables DockModel SysModel WorldModel ByteModel.
From Verif Require HubModel.
From Coq Require Import Arith Bool List ZArith.
Import ListNotations.
Open Scope nat_scope.

(* dock.go:34-41, hub.go:22-37, network/peer.go:31-40, network/socket.go:12-19,
   of all programs *)
(* [fends], [fpeers], [fbacklog], [flisteners]: as in WorldModel.v *)
Record fleet := mkFleet { fb : bsys; fends : nat -> nat -> wend; fpeers : nat -> nat; fbacklog : nat -> list nat; flisteners : list (nat * Z) }.
(* The same state as in WorldModel.v: dock.go:34-41, hub.go:22-37, network/socket.go:12-19. *)
(* the network without its bytes *)
Definition outline (n : fleet) : world gval :=
  mkWorld (mkSys (bd (fb n)) (bh (fb n)) (fun _ _ => []) (fun _ => [])) (fends n) (fpeers n) (fbacklog n) (flisteners n).
(* The two parts of the state put together: network/peer.go:31-40 and
   network/socket.go:12-19. *)
Definition around (b : bsys) (w : world gval) : fleet := mkFleet b (ends w) (peers w) (backlog w) (listeners w).
(* newDock, dock.go:17-32; the hub, hub.go:22-37; newPeer, network/peer.go:18-29 *)
Definition finit (carried : nat -> list (name * bool)) : fleet := around (binit carried) (winit carried).

(* the peer's routines run: the connection is made and, at the end dialled, accepted
   (network/socket.go:35-82) *)
Definition there (n : fleet) (e : endp) : bool :=
  match e with
  | DockEnd i p => match fends n i p with Nowhere => false | _ => negb (existsb (Nat.eqb p) (fbacklog n i)) end
  | HubEnd _ => true
  end.
(* network/peer.go:62-100 *)
(* the peer whose routine takes a step *)
Definition site (l : blab) : option endp :=
  match l with
  | BDock _ _ _ | BHub _ => None
  | BPop e | BWrite e | BFail e _ | BEnd e | BRead e _ | BTake e | BStop e => Some e
  end.

Section Fleet.
Variables (black : list Z) (raddr : nat -> name).
Variable ws : option nat -> wsize.   (* the word size of each process *)
Notation bytes n := (bstep (fends n) hub_end black raddr hostport ws).

(* net.Listen of network/socket.go:29 holds the port while the process is there and the socket
   open. *)
Definition flistens (n : fleet) (j : nat) (m : Z) : bool := listens (outline n) j m && negb (gone (fb n) (Some j)).
(* When net.Listen succeeds, network/socket.go:29: no other program of ours on the machine has
   the port. *)
Definition fport_free (n : fleet) (i : nat) (m : Z) : bool :=
  forallb (fun x => negb (zlist_eqb (machine raddr (fst x)) (machine raddr i) && (snd x =? m)%Z && flistens n (fst x) (snd x))) (flisteners n).
(* The new state after steps of network/peer.go, dock.go or hub.go. *)
Definition fon (w : world gval) (o : option bsys) : option fleet := option_map (fun b => around b w) o.

(* The steps of dock.go, hub.go, network/peer.go:62-100, and of network/socket.go:21-82 (dial,
   listen, connect, accept). *)
Inductive flab :=
| FDock (i : nat) (l : label gval) | FHub (l : HubModel.label)
| FRoutine (l : blab)                    (* a step of a send or receive routine *)
| FDial (i : nat) (ok : bool) | FListen (i p : nat) (ok : bool) | FConnect (i p j : nat) (m : Z) | FFail (i p : nat) | FAccept (j q : nat).

(* dock.go:75-205, hub.go:61-179, network/peer.go:54-100, network/socket.go:21-82, *)
(* step by step as [wstep] of WorldModel.v *)
Definition fstep (n : fleet) (l : flab) : option fleet :=
  let w := outline n in
  match l with
  | FDock i (LRecv _ _) | FDock i (LConnected _) | FDock i (LDial _) | FDock i (HNet _ _) => None
  | FDock i l => fon w (bytes n (fb n) (BDock i l (query_peers w i)))
  | FHub l => fon w (bytes n (fb n) (BHub l))
  | FRoutine l => match site l with Some e => if there n e then fon w (bytes n (fb n) l) else None | None => None end
  | FDial i ok => fon w (exec (bytes n) (fb n) (BDock i (LDial ok) [] :: if ok then [BDock i (LConnected 0) []] else []))
  | FListen i p ok =>
      match handlers (bd (fb n) i) p with
      | BListen m =>
          if ok && negb (fport_free n i m) then None
          else fon (if ok then mkWorld (WorldModel.ws w) (ends w) (peers w) (backlog w) (listeners w ++ [(i, m)]) else w)
                   (bytes n (fb n) (BDock i (HNet p ok) []))
      | _ => None
      end
  | FConnect i p j m =>
      match handlers (bd (fb n) i) p with
      | ADial a =>
          if zlist_eqb a (hostport (machine raddr j) m) && flistens n j m
          then fon (join i j w) (exec (bytes n) (fb n) [BDock i (HNet p true) []; BDock i (LConnected (fpeers n i)) []])
          else None
      | _ => None
      end
  | FFail i p => match handlers (bd (fb n) i) p with ADial _ => fon w (bytes n (fb n) (BDock i (HNet p false) [])) | _ => None end
  | FAccept j q =>
      if existsb (Nat.eqb q) (fbacklog n j)
      then fon (mkWorld (WorldModel.ws w) (ends w) (peers w) (updp (backlog w) j (filter (fun x => negb (x =? q)) (backlog w j))) (listeners w))
               (bytes n (fb n) (BDock j (LConnected q) []))
      else None
  end.
End Fleet.
