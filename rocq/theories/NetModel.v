(* Which serializer and which network a socket gets: the tables of package network
   (network/API.go:67-93, network/inet.go:17-45) and the sockets made from them
   (network/socket.go:21-82, network/peer.go:18-29, 62-100).
   Simplifications: a step runs alone (for simultaneous uses of the tables see C68); the outcome
   of the network's Listen and Dial is given; closing is left out (C53-C55). *)
From Verif Require Import Lts GoVal Tables.
From Coq Require Import Arith Bool List ZArith.
Import ListNotations.
Open Scope nat_scope.

(* Serializer objects: the one of txt_serializer.go made by the first NewSocket, and others. *)
Inductive ser := STxt | SSer (n : nat).
(* inet.go:41-45 netTcp, mock.go:13-18 netMock *)
Inductive maker := Tcp | MockNet.

Definition nTxt : name := [116; 120; 116]%Z.
Definition nTcp : name := [116; 99; 112]%Z.

(* socket.go:12-19: serializer, sink is not nil, the network of the listener *)
Record sock := mkSock { enc : option ser; sink : bool; listener : option maker }.
(* peer.go:31-41: the socket it was made for, serializer, self, the network of the conn *)
Record conn := mkConn { c_sock : nat; c_enc : option ser; c_self : bool; c_via : maker }.
(* log.Fatal; a method call on a nil serializer *)
Inductive fate := Running | Exited | Panicked.
(* What the program did, in order. *)
Inductive event :=
| EExtend (n : name) (x : ser) | EMock (n : name) | ENew (k : nat) (n : name)
| EListen (k : nat) | EDial (k : nat)     (* successfully *)
| EFailed (k : nat)                       (* the network reported an error *)
| ENoSink (k : nat)                       (* Dial on a socket without a sink *)
| EConn (p k : nat).

(* API.go:90-93, inet.go:41-45, socket.go:12-19, peer.go:31-40; [hist] is ghost. *)
Record net := mkNet { sers : name -> option ser; once : bool; makers : name -> option maker;
  socks : list sock; conns : list conn; status : fate; hist : list event }.

(* API.go:90-93, inet.go:41-45 *)
Definition net0 : net := mkNet (fun _ => None) false (fun n => if zlist_eqb n nTcp then Some Tcp else None) [] [] Running [].

(* The steps of API.go:67-88, inet.go:17-56, socket.go:21-82, peer.go:62-100. *)
Inductive label :=
| PExtend (n : name) (x : ser) | PMock (n : name) | PNew (n : name) (has_sink : bool)
| PListen (k : nat) (ok : bool) | PAccept (k : nat) | PDial (k : nat) (ok : bool)
| PSend (p : nat)      (* the send routine takes a packet *)
| PReceive (p : nat).  (* the receive routine has read bytes *)

(* Field updates of [net]: the ghost history, the end of the process, the map serializers
   (API.go:87), the sockets (API.go:76). *)
Definition add (e : event) (s : net) : net := mkNet (sers s) (once s) (makers s) (socks s) (conns s) (status s) (hist s ++ [e]).
Definition die (f : fate) (s : net) : net := mkNet (sers s) (once s) (makers s) (socks s) (conns s) f (hist s).
Definition set_ser (n : name) (x : ser) (s : net) : net :=
  mkNet (updn (sers s) n (Some x)) (once s) (makers s) (socks s) (conns s) (status s) (hist s).
Definition set_socks (l : list sock) (s : net) : net := mkNet (sers s) (once s) (makers s) l (conns s) (status s) (hist s).
(* peer.go:18-29, then socket.go:44 or 73 *)
Definition new_conn (k : nat) (self : bool) (m : maker) (s : net) : net :=
  match nth_error (socks s) k with
  | Some sk => add (EConn (length (conns s)) k) (mkNet (sers s) (once s) (makers s) (socks s) (conns s ++ [mkConn k (enc sk) self m]) (status s) (hist s))
  | None => s
  end.
(* API.go:69-71: the first caller registers "txt" *)
Definition do_once (s : net) : net :=
  if once s then s else mkNet (updn (sers s) nTxt (Some STxt)) true (makers s) (socks s) (conns s) (status s) (hist s).
(* inet.go:17-24, with a maker that is not nil *)
Definition bind (n : name) (m : maker) (s : net) : net :=
  match n with
  | [] => s
  | _ => mkNet (sers s) (once s) (updn (makers s) n (Some m)) (socks s) (conns s) (status s) (hist s)
  end.
(* inet.go:28-39: None is an error *)
Definition make_net (n : name) (s : net) : option maker := match n with [] => None | _ => makers s n end.

Definition use (p : nat) (s : net) : option net :=
  match nth_error (conns s) p with
  | Some c => Some (match c_enc c with Some _ => s | None => die Panicked s end)
  | None => None
  end.

Definition nstep (s : net) (l : label) : option net :=
  match status s with
  | Running =>
      match l with
      | PExtend n x => (* API.go:86-88 *) Some (add (EExtend n x) (set_ser n x s))
      | PMock n => (* API.go:80-83; reset is in MockModel.v *) Some (add (EMock n) (bind n MockNet s))
      | PNew n b => (* API.go:67-77 *)
          let s1 := do_once s in
          Some (add (ENew (length (socks s)) n) (set_socks (socks s ++ [mkSock (sers s1 n) b None]) s1))
      | PListen k ok => (* socket.go:21-33 *)
          match nth_error (socks s) k with
          | Some sk =>
              match make_net nTcp s with
              | Some m => if ok then Some (add (EListen k) (set_socks (set_nth (socks s) k (mkSock (enc sk) (sink sk) (Some m))) s))
                          else Some (add (EFailed k) (die Exited s))
              | None => Some (die Exited s)
              end
          | None => None
          end
      | PAccept k => (* socket.go:37-50 *)
          match nth_error (socks s) k with
          | Some (mkSock _ _ (Some m)) => Some (new_conn k false m s)
          | _ => None
          end
      | PDial k ok => (* socket.go:55-82 *)
          match nth_error (socks s) k with
          | Some sk =>
              if sink sk then
                match make_net nTcp s with
                | Some m => if ok then Some (new_conn k true m (add (EDial k) s)) else Some (add (EFailed k) (die Exited s))
                | None => Some (die Exited s)
                end
              else Some (add (ENoSink k) (die Exited s))
          | None => None
          end
      | PSend p => (* peer.go:71 *) use p s
      | PReceive p => (* peer.go:88 *) use p s
      end
  | _ => None
  end.
