(* What the goroutines of a process read and write, and under which mutexes.
   A function is the tree of its accesses to memory shared between goroutines; values are
   left out, so every branch may be taken, every loop may run any number of times and every
   object may be picked.  An access is one step, taken when its goroutine is next scheduled.
   Left out: memory written only before the goroutines that use it exist (newHub, newDock,
   newSlot, newSocket, newPeer, NewCallee: hub.go:22-28, 134-137, dock.go:17-32, slot.go:15-29,
   network/API.go:71-74, network/peer.go:18-29), objects handed over through a channel, the
   channels themselves, sync.WaitGroup, and waiting for a channel (a goroutine may go on at any
   time).  Variables and the map, list or slice they hold are one location. *)
From Verif Require Export Lts.
From Coq Require Export Arith Bool List.
Export ListNotations.

Inductive lock :=
  | LDocks (h : nat)        (* hub.go:32 docksMutex *)
  | LPorts (h : nat)        (* hub.go:34 assignPortsMutex *)
  | LRemote (d : nat)       (* dock.go:38 remoteSlotsMutex *)
  | LReq (r : nat)          (* chancall/data.go:12 *)
  | LPeer (p : nat)         (* network/peer.go:32 *)
  | LListeners              (* network/mock.go:21 *)
  | LOnce.                  (* network/API.go:92 *)
Definition lock_eq (a b : lock) : {a = b} + {a <> b}.
Proof. decide equality; apply Nat.eq_dec. Defined.

Inductive loc :=
  | HDocks (h : nat)        (* hub.go:33 docks *)
  | HStubs (v : nat)        (* hub.go:76 one of the lists in it *)
  | HReady (k : nat)        (* hub.go:42 ready, of one stub *)
  | HPorts (h : nat)        (* hub.go:35 assignPorts *)
  | HBlack (h : nat)        (* hub.go:36 blackPorts *)
  | DSockets (d : nat)      (* dock.go:36 sockets *)
  | DSlots (d : nat)        (* dock.go:37 slots *)
  | DRemote (d : nat)       (* dock.go:39 remoteSlots *)
  | DRpcs (d : nat)         (* dock.go:40 rpcs *)
  | RReq (r : nat)          (* rpc.go:17 req *)
  | Visiters (c : nat)      (* slot.go:36 visiters *)
  | Registry                (* registry.go:7 *)
  | Insts                   (* runtime.go:17 *)
  | Timeouts (c : nat)      (* chancall/meta.go:28 timeout, of a callee's methods *)
  | Done (r : nat)          (* chancall/data.go:16 done *)
  | SPeers (s : nat)        (* network/socket.go:18 peers *)
  | PSink (p : nat)         (* network/peer.go:35 sink *)
  | Serializers             (* network/API.go:91 *)
  | Makers                  (* network/inet.go:41 *)
  | Listeners               (* network/mock.go:22 *)
  | Vport                   (* network/mock.go:23 *)
  | CStatus (c : nat)       (* network/mock.go:144 status *)
  | CPeer (c : nat)         (* network/mock.go:147 peer *)
  | LConns (s : nat).       (* network/mock.go:100 conns *)

(* Functions run as goroutines: [o] says whose socket, peer or packet it is. *)
Inductive owner := OHub (h : nat) | ODock (d : nat).
Inductive fn :=
  | FServe (h : nat) | FStartup (d : nat) | FClose | FMock      (* called by the program *)
  | FHandling (d c : nat)                                       (* the goroutine of a feature *)
  | FTimer (r : nat) | FAccept (o : owner) (s : nat) | FSend (p : nat) | FRecv (o : owner) (p : nat)
  | FQuery (h : nat) | FConnected (d : nat) | FStart (d : nat) | FReply (d : nat) | FMockDial (c : nat).

Inductive stm :=
  | Skip | Rd (x : loc) | Wr (x : loc) | Lk (m : lock) | Un (m : lock) | Go (f : fn)
  | Seq (a b : stm) | Alt (a b : stm) | Star (a : stm) | Any (f : nat -> stm).
Declare Scope stm_scope.
Delimit Scope stm_scope with stm.
Bind Scope stm_scope with stm.
Infix ";;" := Seq (at level 60, right associativity) : stm_scope.
Infix "<|>" := Alt (at level 65, right associativity) : stm_scope.
Open Scope stm_scope.
(* such as network/socket.go:44 *)
(* x = append(x, ...), x += 1 *)
Definition upd (x : loc) : stm := Rd x ;; Wr x.
(* an if without an else, such as network/API.go:68-71 *)
Definition opt (a : stm) : stm := a <|> Skip.

(* network/API.go:86-88 *)
Definition extend : stm := Wr Serializers.
(* network/API.go:67-77: the first caller registers "txt" *)
Definition new_socket : stm := Lk LOnce ;; opt extend ;; Un LOnce ;; Rd Serializers.
(* network/inet.go:28-39, and the mock's Listen, mock.go:29-44 *)
Definition net_listen : stm := Rd Makers ;; opt (Lk LListeners ;; Wr Listeners ;; Un LListeners).
(* the mock's Dial, mock.go:46-83; the goroutine of conn c *)
Definition net_dial : stm := Rd Makers ;; opt (Any (fun c => Go (FMockDial c))).
Definition mock_dial (c : nat) : stm :=
  Star (Rd (CStatus c) ;; opt (Rd Listeners ;; opt (upd Vport ;; Wr (CStatus c)))) ;;
  opt (Wr (CStatus c)) ;; Rd (CStatus c).
(* mock.go:103-120: the dialling conn c *)
Definition mock_accept (s : nat) : stm := Any (fun c => Wr (CPeer c) ;; Wr (CStatus c) ;; Wr (LConns s)).
(* OnConnected of a dock (dock.go:55-70) or a hub (hub.go:53-55) *)
Definition connected (o : owner) : stm := match o with OHub _ => Skip | ODock d => Go (FConnected d) end.
(* network/peer.go:62-101 *)
Definition run_peer (o : owner) (p : nat) : stm := Go (FSend p) ;; Go (FRecv o p).
(* network/socket.go:21-53 *)
Definition listen (o : owner) (s : nat) : stm := net_listen ;; Go (FAccept o s).
Definition accept (o : owner) (s : nat) : stm :=
  Star (opt (mock_accept s) ;; Any (fun p => upd (SPeers s) ;; connected o ;; run_peer o p)).
(* network/socket.go:55-82 *)
Definition dial (o : owner) (s : nat) : stm :=
  net_dial ;; Any (fun p => upd (SPeers s) ;; connected o ;; run_peer o p).
(* network/peer.go:62-78, the mock's Write mock.go:160-167 *)
Definition send (p : nat) : stm := Star (opt (Rd (CPeer p))).
(* network/peer.go:103-115, the mock's Close mock.go:169-173; OnClosed is empty (hub.go:57-59, dock.go:72-73) *)
Definition close_peer (p : nat) : stm := Lk (LPeer p) ;; Rd (PSink p) ;; opt (Wr (PSink p)) ;; opt (Rd (CPeer p) ;; Wr (CPeer p)) ;; Un (LPeer p).
(* network/socket.go:84-94, the mock's Close mock.go:122-127 *)
Definition close_socket (s : nat) : stm := opt (Wr (LConns s)) ;; Rd (SPeers s) ;; Star (Any close_peer) ;; Wr (SPeers s).
(* network/socket.go:96-100 *)
Definition send_socket (s : nat) : stm := Rd (SPeers s).

(* hub.go:145-169 *)
Definition allocate (h : nat) : stm := Lk (LPorts h) ;; Rd (HPorts h) ;; Star (Rd (HBlack h)) ;; Wr (HPorts h) ;; Un (LPorts h).
(* hub.go:64-90 *)
Definition on_register (h : nat) : stm :=
  allocate h ;; Star (Lk (LDocks h) ;; Rd (HDocks h) ;; opt (Wr (HDocks h)) ;; Any (fun v => Wr (HStubs v)) ;; Un (LDocks h)).
(* hub.go:91-108 *)
Definition on_ready (h : nat) : stm :=
  Star (Lk (LDocks h) ;; Rd (HDocks h) ;; Un (LDocks h) ;; opt (Any (fun v => Star (Rd (HStubs v)) ;; opt (Any (fun k => Wr (HReady k)))))).
(* hub.go:111-129 *)
Definition query (h : nat) : stm :=
  Star (Lk (LDocks h) ;; Rd (HDocks h) ;; Un (LDocks h) ;; opt (Any (fun v => Star (Rd (HStubs v) ;; opt (Any (fun k => Rd (HReady k))))))).
(* hub.go:61-132 *)
Definition hub_packet (h : nat) : stm := on_register h <|> on_ready h <|> Go (FQuery h).
(* hub.go:45-51 *)
Definition close_hub (h : nat) : stm := Any close_socket ;; Wr (HDocks h) ;; Wr (HPorts h) ;; Wr (HBlack h).

(* dock.go:207-216 *)
Definition collect (d : nat) : stm := Rd (DSlots d).
(* dock.go:246-265 *)
Definition commit (d r : nat) : stm :=
  Lk (LRemote d) ;; Rd (RReq r) ;; Rd (DRemote d) ;;
  (Rd (RReq r) ;; Wr (RReq r) <|> Rd (RReq r) ;; Rd (DSockets d) ;; Any send_socket) ;; Un (LRemote d).
(* dock.go:224-244, rpc.go:26-58 *)
Definition call (d : nat) : stm := Rd (DSlots d) ;; opt (Any (fun r => Wr (DRpcs d) ;; Wr (RReq r) ;; commit d r)).
(* slot.go:41-51, registry.go:13-20 *)
Definition visit (c : nat) : stm := Rd (Visiters c) ;; opt (Rd Registry ;; opt (Wr (Visiters c))).
(* slot.go:61-63, chancall/meta.go:73-78 *)
Definition set_timeout (c : nat) : stm := Wr (Timeouts c).
(* Code of feature c of dock d (OnStart, OnDestroy, its methods): any use of its slot. *)
Definition user (d c : nat) : stm := Star (call d <|> visit c <|> set_timeout c).
(* dock.go:82-94 *)
Definition dock_ready (d : nat) : stm :=
  Star (Rd (DRpcs d) ;; opt (Any (fun r => Rd (RReq r) ;; opt (Rd (RReq r) ;; opt (commit d r))))).
(* dock.go:95-114 *)
Definition dock_register (d : nat) : stm := collect d ;; Star (Lk (LRemote d) ;; Wr (DRemote d) ;; Un (LRemote d)).
(* dock.go:115-133 *)
Definition dock_registered (d : nat) : stm :=
  new_socket ;; Any (listen (ODock d)) ;; upd (DSockets d) ;; collect d ;; Go (FStart d).
(* dock.go:134-140 *)
Definition dock_found (d : nat) : stm := new_socket ;; Any (dial (ODock d)) ;; upd (DSockets d).
(* dock.go:141-175: the goroutine only uses channels *)
Definition dock_request (d : nat) : stm := Rd (DSlots d).
(* dock.go:176-196 *)
Definition dock_response (d : nat) : stm := Rd (DRpcs d) ;; opt (Go (FReply d)).
(* dock.go:75-197 *)
Definition dock_packet (d : nat) : stm :=
  dock_ready d <|> dock_register d <|> dock_registered d <|> dock_found d <|> dock_request d <|> dock_response d.
(* dock.go:43-53 *)
Definition close_dock (d : nat) : stm :=
  Rd (DSlots d) ;; Star (Any (user d)) ;; Wr (DSlots d) ;; Rd (DSockets d) ;; Star (Any close_socket) ;; Wr (DSockets d).

(* network/peer.go:80-100 *)
Definition packet (o : owner) : stm := match o with OHub h => hub_packet h | ODock d => dock_packet d end.
Definition recv (o : owner) (p : nat) : stm := Star (Rd (PSink p) ;; opt (packet o)).
(* chancall/callee.go:26-61: the method runs between the timer's start and the result *)
Definition handling (d c : nat) : stm :=
  Star (Any (fun r => Rd (Timeouts c) ;; Go (FTimer r) ;; user d c ;; Lk (LReq r) ;; Rd (Done r) ;; opt (Wr (Done r)) ;; Un (LReq r))).
(* chancall/callee.go:63-78 *)
Definition timer (r : nat) : stm := Lk (LReq r) ;; Rd (Done r) ;; opt (Wr (Done r)) ;; Un (LReq r).
(* runtime.go:19-27 *)
Definition wait : stm := upd Insts.

Definition body (f : fn) : stm :=
  match f with
  | FServe h => extend ;; new_socket ;; Any (listen (OHub h)) ;; wait              (* ferry.go:44-48, hub.go:134-143 *)
  | FStartup d => extend ;; new_socket ;; Any (dial (ODock d)) ;; upd (DSockets d) ;; wait (* ferry.go:36-40, dock.go:199-205 *)
  | FClose => Rd Insts ;; Star (Any close_hub <|> Any close_dock) ;; Wr Insts       (* ferry.go:51-53, runtime.go:29-34 *)
  | FMock => Lk LListeners ;; Wr Listeners ;; Un LListeners ;; Wr Vport ;; Wr Makers (* network/API.go:80-83, mock.go:85-90, inet.go:17-24 *)
  | FHandling d c => handling d c
  | FTimer r => timer r
  | FAccept o s => accept o s
  | FSend p => send p
  | FRecv o p => recv o p
  | FQuery h => query h
  | FConnected d => collect d                                                       (* dock.go:61-69 *)
  | FStart d => Rd (DSlots d) ;; Star (Any (user d))                                (* dock.go:218-222 *)
  | FReply d => Wr (DRpcs d)                                                        (* dock.go:181-193 *)
  | FMockDial c => mock_dial c
  end.

(* Goroutine t is [nth t threads]: what it has still to do.  [held m]: who holds m. *)
Record st := mkSt { threads : list (list stm); held : lock -> option nat }.
(* The goroutine to run, and the choice it makes. *)
Definition lab := (nat * nat)%type.
Definition set_lock (l : lock -> option nat) (m : lock) (v : option nat) (m' : lock) : option nat := if lock_eq m m' then v else l m'.
Fixpoint put (ts : list (list stm)) (t : nat) (k : list stm) : list (list stm) :=
  match ts, t with
  | [], _ => []
  | _ :: r, 0 => k :: r
  | x :: r, S t' => x :: put r t' k
  end.
Definition rstep (s : st) (l : lab) : option st :=
  let '(t, n) := l in
  let go k := Some (mkSt (put (threads s) t k) (held s)) in
  match nth_error (threads s) t with
  | Some (a :: k) =>
      match a with
      | Skip | Rd _ | Wr _ => go k
      | Lk m => match held s m with
                | None => Some (mkSt (put (threads s) t k) (set_lock (held s) m (Some t)))
                | Some _ => None
                end
      | Un m => Some (mkSt (put (threads s) t k) (set_lock (held s) m None))
      | Go f => Some (mkSt (put (threads s) t k ++ [[body f]]) (held s))
      | Seq b c => go (b :: c :: k)
      | Alt b c => go ((match n with 0 => b | S _ => c end) :: k)
      | Star b => go (match n with 0 => k | S _ => b :: Star b :: k end)
      | Any f => go (f n :: k)
      end
  | _ => None
  end.
(* The program calls the functions [fs], each in a goroutine of its own; features have
   their goroutines from Carry on (chancall/API.go:26-34). *)
Definition start (fs : list fn) : st := mkSt (map (fun f => [body f]) fs) (fun _ => None).
