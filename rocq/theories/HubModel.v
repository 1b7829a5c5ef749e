(* Model of hub.go: port allocation, registration, ready marks and queries, as a
   transition system over the goroutines of the hub. *)
From Verif Require Import Lts GoVal Tables.
From Coq Require Import Arith Bool List ZArith.
Import ListNotations.
Open Scope nat_scope.


(* hub.go:17-20 *)
Definition cOriginPort : Z := 20000.
Definition cMaxPortRange : Z := 49000.

(* strings.Split(s, ":"), ':' = 58 *)
Fixpoint split_colon (s : name) : list name :=
  match s with
  | [] => [[]]
  | c :: r => if (c =? 58)%Z then [] :: split_colon r
              else match split_colon r with h :: t => (c :: h) :: t | [] => [[c]] end
  end.
(* hub.go:181-184 *)
Definition pickIP (addr : name) : name := match split_colon addr with h :: _ => h | [] => [] end.

(* hub.go:150-160, the loop; blackPorts as the list of its keys (hub.go:135-137).  None:
   out of fuel. *)
Fixpoint next_port (black : list Z) (fuel : nat) (port : Z) : option Z :=
  match fuel with
  | O => None
  | S fuel' =>
      let port1 := ((if port =? 0 then cOriginPort else port) + 1)%Z in
      if existsb (Z.eqb port1) black then next_port black fuel' port1 else Some port1
  end.
(* hub.go:145-169, under assignPortsMutex.  [NoPort]: log.Fatal, the process exits.
   The loop passes a blacklisted port at most once per entry (proved). *)
Inductive allocation := Port (p : Z) | NoPort | Loops.
Definition allocate (black : list Z) (assigned : Z) : allocation :=
  match next_port black (S (length black)) assigned with
  | None => Loops
  | Some p => if (cMaxPortRange <? p)%Z then NoPort else Port p
  end.

(* The packets the hub reads (hub.go:61-131); others fall through the switch. *)
Inductive packet := PRegister (slots : list name) | PReady (slots : list name) | PQuery (slot : name) | POther.

(* hub.go:39-43.  The address string host:port is kept as a pair.  Ghost: [st_reg], the
   history index of the registration packet; [st_mark], that of the ready packet which
   last set [st_ready]. *)
Record stub := mkStub { st_host : name; st_port : Z; st_peer : nat; st_ready : bool; st_reg : nat; st_mark : nat }.

(* Ghost history. *)
Inductive event :=
| ERecv (p : nat) (k : packet)                  (* packet k from peer p is being handled *)
| EAlloc (t p : nat) (host : name) (port : Z)   (* for the packet received at t *)
| EPush (f : name) (p : nat) (host : name) (port : Z)
| EReply (p : nat) (port : Z)                   (* registration reply given to peer p *)
| EMark (f : name) (k : nat)                    (* the k-th registration of f marked ready *)
| ERound (t : nat)                              (* the query received at t begins a round *)
| EAnswer (t p : nat) (f : name) (k : nat) (host : name) (port : Z) (* answer given to peer p *)
| EClosed (p : nat).

(* OnPacket runs in the receive routine of its peer, so packets of one peer are handled
   one after the other (network/peer.go:79-100); those of different peers concurrently.
   [t]: history index of the packet.  Register: before allocate; before the next
   PushBack; before the reply.  Ready: before the next slot; at element i of the list;
   before i.Next(). *)
Inductive hpc :=
| HIdle
| RAlloc (t : nat) (slots : list name) | RPush (t : nat) (host : name) (port : Z) (todo : list name)
| YNext (t : nat) (todo : list name) | YScan (t : nat) (f : name) (i : nat) (todo : list name) | YAdv (t : nat) (f : name) (i : nat) (todo : list name).
(* The goroutine of a query, hub.go:111-129: not started; at the top of the loop; at
   element i; ended. *)
Inductive qpc := QNone | QFetch (p : nat) (f : name) | QLook (p : nat) (f : name) (i : nat) | QDone.

(* hub.go:22-37.  A feature in the docks map has a non-empty list (hub.go:73-80 adds the
   list and its first element under one lock), so absent = empty. *)
Record hub := mkHub {
  docks : name -> list stub; assigned : name -> Z;
  handlers : nat -> hpc; queries : nat -> qpc;
  halted : bool; hist : list event }.
Definition new_hub : hub := mkHub (fun _ => []) (fun _ => 0%Z) (fun _ => HIdle) (fun _ => QNone) false [].

Inductive label := LRecv (p : nat) (k : packet) | HStep (p : nat) | QStep (t : nat) | LClosed (p : nat).


(* of the state of hub.go:22-37 and of the goroutines of hub.go *)
(* field updates *)
Definition add (e : event) (s : hub) := mkHub (docks s) (assigned s) (handlers s) (queries s) (halted s) (hist s ++ [e]).
Definition with_handler (p : nat) (h : hpc) (s : hub) := mkHub (docks s) (assigned s) (updp (handlers s) p h) (queries s) (halted s) (hist s).
Definition with_query (t : nat) (q : qpc) (s : hub) := mkHub (docks s) (assigned s) (handlers s) (updp (queries s) t q) (halted s) (hist s).
Definition with_docks (f : name) (l : list stub) (s : hub) := mkHub (updn (docks s) f l) (assigned s) (handlers s) (queries s) (halted s) (hist s).
Definition with_assigned (h : name) (p : Z) (s : hub) := mkHub (docks s) (updn (assigned s) h p) (handlers s) (queries s) (halted s) (hist s).

Section Hub.
(* hub.run's blackPorts; the remote address of each peer (peer.RemoteAddr().String()) *)
Variables (black : list Z) (raddr : nat -> name).

(* One atomic step.  Reads and writes of a stub's ready flag and of list links are taken
   as atomic (the code has no lock there).  log.Printf is left out. *)
Definition hstep (s : hub) (l : label) : option hub :=
  if halted s then None else
  match l with
  | LRecv p k =>
      match handlers s p with
      | HIdle =>
          let t := length (hist s) in
          let s1 := add (ERecv p k) s in
          Some match k with
          | PRegister slots => with_handler p (RAlloc t slots) s1      (* hub.go:64-66 *)
          | PReady slots => with_handler p (YNext t slots) s1          (* hub.go:91-93 *)
          | PQuery f => with_query t (QFetch p f) s1                   (* hub.go:109-112 *)
          | POther => s1
          end
      | _ => None
      end
  | HStep p =>
      match handlers s p with
      | HIdle => None
      | RAlloc t slots => (* hub.go:68-71 *)
          let host := pickIP (raddr p) in
          match allocate black (assigned s host) with
          | Port port => Some (add (EAlloc t p host port) (with_handler p (RPush t host port slots) (with_assigned host port s)))
          | NoPort => Some (mkHub (docks s) (assigned s) (handlers s) (queries s) true (hist s))
          | Loops => Some s
          end
      | RPush t host port (f :: todo) => (* hub.go:73-80 *)
          Some (add (EPush f p host port) (with_handler p (RPush t host port todo)
            (with_docks f (docks s f ++ [mkStub host port p false t 0]) s)))
      | RPush t host port [] => (* hub.go:83-89 *)
          Some (add (EReply p port) (with_handler p HIdle s))
      | YNext t [] => Some (with_handler p HIdle s)
      | YNext t (f :: todo) => (* hub.go:95-99 *)
          Some (with_handler p (match docks s f with [] => YNext t todo | _ => YScan t f 0 todo end) s)
      | YScan t f i todo => (* hub.go:100-104 *)
          match nth_error (docks s f) i with
          | Some st =>
              if st_peer st =? p
              then Some (add (EMark f i) (with_handler p (YNext t todo)
                     (with_docks f (set_nth (docks s f) i (mkStub (st_host st) (st_port st) (st_peer st) true (st_reg st) t)) s)))
              else Some (with_handler p (YAdv t f i todo) s)
          | None => None
          end
      | YAdv t f i todo => (* hub.go:99: i = i.Next() *)
          Some (with_handler p (if S i <? length (docks s f) then YScan t f (S i) todo else YNext t todo) s)
      end
  | QStep t =>
      match queries s t with
      | QFetch p f => (* hub.go:114-120 *)
          Some (add (ERound t) (match docks s f with [] => s | l => with_query t (QLook p f (pred (length l))) s end))
      | QLook p f i => (* hub.go:121-125, and i.Prev() *)
          match nth_error (docks s f) i with
          | Some st =>
              if st_ready st
              then Some (add (EAnswer t p f i (st_host st) (st_port st)) (with_query t QDone s))
              else Some (with_query t (match i with O => QFetch p f | S i' => QLook p f i' end) s)
          | None => None
          end
      | _ => None
      end
  | LClosed p => Some (add (EClosed p) s) (* hub.go:57-59 *)
  end.
End Hub.
