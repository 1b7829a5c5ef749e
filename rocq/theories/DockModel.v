(* Model of dock.go and rpc.go (with slot.go:53-59): a dock as a transition system over
   its goroutines.  Packets from the network, the outcome of method invocations, of
   Dial/Listen and of peer.Send are labels, so every environment is covered. *)
From Verif Require Import Lts GoVal Tables.
From Coq Require Import Arith Bool List ZArith.
Import ListNotations.
Open Scope nat_scope.

Section Types.
Variable V : Type. (* argument and result values *)

(* protocol.go:203-209, 292-298 *)
Record request := mkReq { q_index : Z; q_slot : name; q_method : name; q_args : list V; q_withres : bool }.
Record response := mkResp { p_index : Z; p_slot : name; p_method : name; p_result : list V; p_err : name }.
(* rpc.go:21-24: results and error; the error as its text *)
Record ret := mkRet { r_result : list V; r_err : option name }.

(* The packets of protocol.go:15-25, as sent or received by a dock. *)
Inductive packet :=
| KError | KReady (slots : list name) | KRegister (slots : list name) | KRegistered (port : Z)
| KQuery (slot : name) | KAddress (addr : name) | KRequest (q : request) | KResponse (r : response).

(* dock.go:37: d.sockets, by origin *)
Inductive socket := SHub | SListen (port : Z) | SDial (addr : name).

(* A call of a remote feature: the rpc object (rpc.go:15-19) and the goroutine in
   rpc.call/callWithResult (rpc.go:26-58).  [c_orig]: ghost, the request it builds.
   [c_buf], [c_closed]: the channel r.ret of capacity 1. *)
Inductive cpc := CPut | CSet | CWait | CGot (x : ret) | CDone (x : ret).
Record call := mkCall { c_orig : request; c_req : option request; c_buf : option ret; c_closed : bool; c_pc : cpc }.

(* The receive routine of a peer inside OnPacket.
   cReady (dock.go:82-93): before the next slot; in the loop over d.rpcs, with the keys
   still to visit; after the test r.req != nil; after r.req.Slot == slot.
   cRegisterRequest (95-113): before Send; before the next cache entry.
   cRegisterResponse (115-133): before Listen; append; Send; go.
   cQueryResponse (134-140): before Dial; append. *)
Inductive hpc :=
| HIdle
| RNext (slots : list name) | RIter (f : name) (slots : list name) (todo : list Z)
| RTested (f : name) (slots : list name) (todo : list Z) (c : nat) | RCommit (f : name) (slots : list name) (todo : list Z) (c : nat)
| GSend (slots : list name) | GPut (slots : list name)
| BListen (port : Z) | BAppend (port : Z) | BSend | BGo
| ADial (addr : name) | AAppend (addr : name).

(* The goroutine serving a request, dock.go:146-173. *)
Inductive spc := SRun | SReply (result : list V) (err : option name) | SDone.
Record server := mkServer { s_peer : nat; s_req : request; s_pc : spc }.
(* The goroutine delivering a response, dock.go:181-193. *)
Inductive bpc := BPut | BDelete | BDone.
Record callback := mkCallback { b_call : nat; b_index : Z; b_ret : ret; b_pc : bpc }.
(* d.start, dock.go:218-222: features still to start *)
Inductive starter := TFresh | TRun (todo : list name).
(* run, dock.go:199-205 *)
Inductive npc := NDial | NAppend | NDone.
(* Close, dock.go:43-53 *)
Inductive kpc := KIdle | KDestroy (todo : list name) | KSock (n : nat).

Inductive why := NilRequest | NoSocket | ClosedChannel.
Inductive fate := Alive | Crashed (w : why) | Exited.

Inductive event :=
| ERecv (p : nat) (k : packet)
| ESend (p : nat) (k : packet) (accepted : bool) (* peer.Send(k); not accepted: queue full, dropped *)
| EQuery (k : socket) (f : name)                 (* k.Send(query for f) *)
| ELocal (f m : name) (args : list V) (withres : bool)
| ENew (c : nat) (q : request)
| ECommit (c p : nat) (accepted : bool)
| EReturn (c : nat) (x : ret)
| ECached (f : name) (p : nat)
| EServe (k : nat)
| ERan (k : nat) (result : list V) (err : option name)
| EReplied (k : nat) (accepted : bool)
| EStart (j : nat) (f : name)
| EDestroy (f : name) | ECleared | ESockClosed (k : socket) | EClosed
| ESocket (k : socket).

(* dock.go:34-41 with the goroutines of dock.go and rpc.go; [hist] is ghost. *)
Record dock := mkDock {
  slots : list (name * bool); remote : name -> option nat; rpcs : list (Z * nat); calls : list call;
  handlers : nat -> hpc; announcers : list (nat * bool); servers : list server; callbacks : list callback; starters : list starter;
  sockets : list socket; runner : npc; closer : kpc; state : fate; hist : list event }.

(* The maps of dock.go:34-41: put, get and delete. *)
(* association lists *)
Fixpoint aput {A} (l : list (name * A)) (k : name) (v : A) : list (name * A) :=
  match l with [] => [(k, v)] | (x, y) :: r => if zlist_eqb x k then (x, v) :: r else (x, y) :: aput r k v end.
Fixpoint aget {A} (l : list (name * A)) (k : name) : option A :=
  match l with [] => None | (x, y) :: r => if zlist_eqb x k then Some y else aget r k end.
Fixpoint zput (l : list (Z * nat)) (k : Z) (v : nat) : list (Z * nat) :=
  match l with [] => [(k, v)] | (x, y) :: r => if (x =? k)%Z then (x, v) :: r else (x, y) :: zput r k v end.
Fixpoint zget (l : list (Z * nat)) (k : Z) : option nat :=
  match l with [] => None | (x, y) :: r => if (x =? k)%Z then Some y else zget r k end.
Definition zdel (l : list (Z * nat)) (k : Z) : list (Z * nat) := filter (fun e => negb (fst e =? k)%Z) l.
(* For a map iteration's order (dock.go:209). *)
(* a as b in another order *)
Fixpoint takeout (x : name) (l : list name) : option (list name) :=
  match l with [] => None | y :: r => if zlist_eqb y x then Some r else option_map (cons y) (takeout x r) end.
Fixpoint reorders (a b : list name) : bool :=
  match a with [] => match b with [] => true | _ => false end
  | x :: a' => match takeout x b with Some b' => reorders a' b' | None => false end end.

(* newDock, dock.go:17-32: a later slot of the same name replaces the earlier *)
Definition new_dock (carried : list (name * bool)) : dock :=
  mkDock (fold_left (fun m s => aput m (fst s) (snd s)) carried []) (fun _ => None) [] []
    (fun _ => HIdle) [] [] [] [] [] NDial KIdle Alive [].

(* collect, dock.go:207-216, up to the order of the map *)
Definition collected (d : dock) : list name := map fst (filter snd (slots d)).

(* of the state of dock.go:34-41 and of its goroutines *)
(* field updates *)
Definition adds (e : list event) (d : dock) := mkDock (slots d) (remote d) (rpcs d) (calls d) (handlers d) (announcers d) (servers d) (callbacks d) (starters d) (sockets d) (runner d) (closer d) (state d) (hist d ++ e).
Definition with_slots x (d : dock) := mkDock x (remote d) (rpcs d) (calls d) (handlers d) (announcers d) (servers d) (callbacks d) (starters d) (sockets d) (runner d) (closer d) (state d) (hist d).
Definition with_remote x (d : dock) := mkDock (slots d) x (rpcs d) (calls d) (handlers d) (announcers d) (servers d) (callbacks d) (starters d) (sockets d) (runner d) (closer d) (state d) (hist d).
Definition with_rpcs x (d : dock) := mkDock (slots d) (remote d) x (calls d) (handlers d) (announcers d) (servers d) (callbacks d) (starters d) (sockets d) (runner d) (closer d) (state d) (hist d).
Definition with_calls x (d : dock) := mkDock (slots d) (remote d) (rpcs d) x (handlers d) (announcers d) (servers d) (callbacks d) (starters d) (sockets d) (runner d) (closer d) (state d) (hist d).
Definition with_handler p x (d : dock) := mkDock (slots d) (remote d) (rpcs d) (calls d) (updp (handlers d) p x) (announcers d) (servers d) (callbacks d) (starters d) (sockets d) (runner d) (closer d) (state d) (hist d).
Definition with_announcers x (d : dock) := mkDock (slots d) (remote d) (rpcs d) (calls d) (handlers d) x (servers d) (callbacks d) (starters d) (sockets d) (runner d) (closer d) (state d) (hist d).
Definition with_servers x (d : dock) := mkDock (slots d) (remote d) (rpcs d) (calls d) (handlers d) (announcers d) x (callbacks d) (starters d) (sockets d) (runner d) (closer d) (state d) (hist d).
Definition with_callbacks x (d : dock) := mkDock (slots d) (remote d) (rpcs d) (calls d) (handlers d) (announcers d) (servers d) x (starters d) (sockets d) (runner d) (closer d) (state d) (hist d).
Definition with_starters x (d : dock) := mkDock (slots d) (remote d) (rpcs d) (calls d) (handlers d) (announcers d) (servers d) (callbacks d) x (sockets d) (runner d) (closer d) (state d) (hist d).
Definition with_sockets x (d : dock) := mkDock (slots d) (remote d) (rpcs d) (calls d) (handlers d) (announcers d) (servers d) (callbacks d) (starters d) x (runner d) (closer d) (state d) (hist d).
Definition with_runner x (d : dock) := mkDock (slots d) (remote d) (rpcs d) (calls d) (handlers d) (announcers d) (servers d) (callbacks d) (starters d) (sockets d) x (closer d) (state d) (hist d).
Definition with_closer x (d : dock) := mkDock (slots d) (remote d) (rpcs d) (calls d) (handlers d) (announcers d) (servers d) (callbacks d) (starters d) (sockets d) (runner d) x (state d) (hist d).
Definition with_state x (d : dock) := mkDock (slots d) (remote d) (rpcs d) (calls d) (handlers d) (announcers d) (servers d) (callbacks d) (starters d) (sockets d) (runner d) (closer d) x (hist d).
(* d.sockets = append(d.sockets, socket), dock.go:122, 139, 204 *)
Definition open_socket k (d : dock) := adds [ESocket k] (with_sockets (sockets d ++ [k]) d).
(* Fields of one rpc, rpc.go:15-19. *)
Definition with_req c x (r : call) (d : dock) := with_calls (set_nth (calls d) c (mkCall (c_orig r) x (c_buf r) (c_closed r) (c_pc r))) d.
Definition with_chan c b k (r : call) (d : dock) := with_calls (set_nth (calls d) c (mkCall (c_orig r) (c_req r) b k (c_pc r))) d.
Definition with_pc c x (r : call) (d : dock) := with_calls (set_nth (calls d) c (mkCall (c_orig r) (c_req r) (c_buf r) (c_closed r) x)) d.
Definition at_call (c : nat) (d : dock) (f : call -> dock) : dock := match nth_error (calls d) c with Some r => f r | None => d end.

(* commit, dock.go:246-265, under remoteSlotsMutex for its whole length, so one step.
   [accepted]: whether peer.Send takes the packet (network/peer.go:54-60). *)
Definition commit (c : nat) (accepted : bool) (d : dock) : dock :=
  at_call c d (fun r =>
    match c_req r with
    | None => with_state (Crashed NilRequest) d                  (* rpc.req.Slot *)
    | Some q =>
        match remote d (q_slot q) with
        | Some p => adds [ECommit c p accepted; ESend p (KRequest q) accepted] (with_req c None r d)
        | None => match sockets d with
                  | [] => with_state (Crashed NoSocket) d          (* d.sockets[0] *)
                  | k :: _ => adds [EQuery k (q_slot q)] d
                  end
        end
    end).

(* dock.go:156-171: the response sent for a request; for Call the result stays nil *)
Definition respond (q : request) (result : list V) (err : option name) : response :=
  mkResp (q_index q) (q_slot q) (q_method q) (if q_withres q then result else []) (match err with Some e => e | None => [] end).
(* dock.go:182-191.  rpc.call hands only the error on, callWithResult both (rpc.go:40, 57). *)
Definition returned (r : response) : ret := mkRet (p_result r) (match p_err r with [] => None | e => Some e end).

Inductive label :=
| LRecv (p : nat) (k : packet)          (* OnPacket is called *)
| HGo (p : nat) | HPick (p : nat) (i : Z) | HCommit (p : nat) (accepted : bool)
| HSend (p : nat) (ns : list name) (accepted : bool) | HNet (p : nat) (ok : bool)
| LConnected (p : nat) | LAnnounce (j : nat) (ns : list name) (accepted : bool)
| LCall (f m : name) (args : list V) (withres : bool) (clock : Z)
| CStep (c : nat) (accepted : bool)
| SExec (k : nat) (result : list V) (err : option name) | SSend (k : nat) (accepted : bool)
| BStep (b : nat)
| TBegin (j : nat) | TStart (j : nat) (f : name)
| LDial (ok : bool) | LRun
| LClose | LDestroy (f : name) | KStep.

(* One atomic step.  Map and slice operations are atomic (the code has no lock around
   d.rpcs, d.slots and d.sockets). *)
Definition dstep (d : dock) (l : label) : option dock :=
  match state d with Alive =>
  match l with
  | LRecv p k =>
      match handlers d p with
      | HIdle =>
          let d1 := adds [ERecv p k] d in
          Some match k with
          | KReady sl => with_handler p (RNext sl) d1
          | KRegister sl => with_handler p (GSend sl) d1
          | KRegistered port => with_handler p (BListen port) d1
          | KAddress a => with_handler p (ADial a) d1
          | KRequest q => (* dock.go:143-146 *)
              match aget (slots d) (q_slot q) with
              | Some _ => adds [EServe (length (servers d))] (with_servers (servers d ++ [mkServer p q SRun]) d1)
              | None => d1
              end
          | KResponse r => (* dock.go:178-181 *)
              match zget (rpcs d) (p_index r) with
              | Some c => with_callbacks (callbacks d ++ [mkCallback c (p_index r) (returned r) BPut]) d1
              | None => d1
              end
          | _ => d1
          end
      | _ => None
      end
  | HGo p =>
      match handlers d p with
      | RNext [] => Some (with_handler p HIdle d)
      | RNext (f :: sl) => Some (with_handler p (RIter f sl (map fst (rpcs d))) d)
      | RIter f sl [] => Some (with_handler p (RNext sl) d)
      | RTested f sl todo c => (* dock.go:88, r.req.Slot *)
          Some (at_call c d (fun r => match c_req r with
            | None => with_state (Crashed NilRequest) d
            | Some q => with_handler p (if zlist_eqb (q_slot q) f then RCommit f sl todo c else RIter f sl todo) d
            end))
      | GPut [] => Some (with_handler p HIdle d)
      | GPut (f :: sl) => Some (adds [ECached f p] (with_handler p (GPut sl) (with_remote (updn (remote d) f (Some p)) d)))
      | BAppend port => Some (with_handler p BSend (open_socket (SListen port) d))
      | BGo => Some (with_handler p HIdle (with_starters (starters d ++ [TFresh]) d))
      | AAppend a => Some (with_handler p HIdle (open_socket (SDial a) d))
      | _ => None
      end
  | HPick p i => (* the next key of d.rpcs: one of those there at the start, or a newer one; gone: skipped *)
      match handlers d p with
      | RIter f sl todo =>
          let todo' := filter (fun k => negb (k =? i)%Z) todo in
          match zget (rpcs d) i with
          | None => if existsb (Z.eqb i) todo then Some (with_handler p (RIter f sl todo') d) else None
          | Some c => Some (at_call c d (fun r => with_handler p (match c_req r with Some _ => RTested f sl todo' c | None => RIter f sl todo' end) d))
          end
      | _ => None
      end
  | HCommit p acc =>
      match handlers d p with
      | RCommit f sl todo c => Some (with_handler p (RIter f sl todo) (commit c acc d))
      | _ => None
      end
  | HSend p ns acc =>
      if reorders ns (collected d) then
        match handlers d p with
        | GSend sl => Some (adds [ESend p (KReady ns) acc] (with_handler p (GPut sl) d))
        | BSend => Some (adds [ESend p (KReady ns) acc] (with_handler p BGo d))
        | _ => None
        end
      else None
  | HNet p ok => (* Listen/Dial; log.Fatal on error (network/socket.go:21-33, 55-72) *)
      match handlers d p with
      | BListen port => Some (if ok then with_handler p (BAppend port) d else with_state Exited d)
      | ADial a => Some (if ok then with_handler p (AAppend a) d else with_state Exited d)
      | _ => None
      end
  | LConnected p => Some (with_announcers (announcers d ++ [(p, false)]) d)   (* dock.go:55-61 *)
  | LAnnounce j ns acc => (* dock.go:61-69 *)
      match nth_error (announcers d) j with
      | Some (p, false) =>
          if reorders ns (collected d)
          then Some (adds [ESend p (KRegister ns) acc] (with_announcers (set_nth (announcers d) j (p, true)) d)) else None
      | _ => None
      end
  | LCall f m args w clock => (* dock.go:224-244; newRpc, rpc.go:11-13 *)
      match aget (slots d) f with
      | Some _ => Some (adds [ELocal f m args w] d)
      | None =>
          let q := mkReq clock f m args w in let c := length (calls d) in
          Some (adds [ENew c q] (with_calls (calls d ++ [mkCall q None None false CPut]) (with_rpcs (zput (rpcs d) clock c) d)))
      end
  | CStep c acc =>
      match nth_error (calls d) c with
      | Some r =>
          match c_pc r with
          | CPut => (* rpc.go:27-33, 44-50 *)
              Some (with_calls (set_nth (calls d) c (mkCall (c_orig r) (Some (c_orig r)) (c_buf r) (c_closed r) CSet)) d)
          | CSet => Some (let d1 := commit c acc d in at_call c d1 (fun r1 => with_pc c CWait r1 d1)) (* rpc.go:35, 52 *)
          | CWait => (* rpc.go:37, 54 *)
              match c_buf r with
              | Some x => Some (with_calls (set_nth (calls d) c (mkCall (c_orig r) (c_req r) None (c_closed r) (CGot x))) d)
              | None => None
              end
          | CGot x => (* rpc.go:38-40, 55-57 *)
              Some (adds [EReturn c x] (with_calls (set_nth (calls d) c (mkCall (c_orig r) (c_req r) (c_buf r) true (CDone x))) d))
          | CDone _ => None
          end
      | None => None
      end
  | SExec k result err => (* dock.go:147-154: the outcome of the invocation through chancall *)
      match nth_error (servers d) k with
      | Some sv => match s_pc sv with
          | SRun => Some (adds [ERan k result err] (with_servers (set_nth (servers d) k (mkServer (s_peer sv) (s_req sv) (SReply result err))) d))
          | _ => None end
      | None => None
      end
  | SSend k acc => (* dock.go:156-172 *)
      match nth_error (servers d) k with
      | Some sv => match s_pc sv with
          | SReply result err => Some (adds [EReplied k acc; ESend (s_peer sv) (KResponse (respond (s_req sv) result err)) acc]
                (with_servers (set_nth (servers d) k (mkServer (s_peer sv) (s_req sv) SDone)) d))
          | _ => None end
      | None => None
      end
  | BStep b =>
      match nth_error (callbacks d) b with
      | Some cb =>
          let next x := with_callbacks (set_nth (callbacks d) b (mkCallback (b_call cb) (b_index cb) (b_ret cb) x)) in
          match b_pc cb with
          | BPut => (* rpc.go:60-62 *)
              match nth_error (calls d) (b_call cb) with
              | Some r => if c_closed r then Some (with_state (Crashed ClosedChannel) d)
                          else match c_buf r with
                               | None => Some (next BDelete (with_chan (b_call cb) (Some (b_ret cb)) false r d))
                               | Some _ => None
                               end
              | None => None
              end
          | BDelete => Some (next BDone (with_rpcs (zdel (rpcs d) (b_index cb)) d)) (* dock.go:192 *)
          | BDone => None
          end
      | None => None
      end
  | TBegin j =>
      match nth_error (starters d) j with
      | Some TFresh => Some (with_starters (set_nth (starters d) j (TRun (map fst (slots d)))) d)
      | _ => None
      end
  | TStart j f =>
      match nth_error (starters d) j with
      | Some (TRun todo) => match takeout f todo with
          | Some rest => Some (adds [EStart j f] (with_starters (set_nth (starters d) j (TRun rest)) d)) | None => None end
      | _ => None
      end
  | LDial ok => match runner d with NDial => Some (if ok then with_runner NAppend d else with_state Exited d) | _ => None end
  | LRun => match runner d with NAppend => Some (with_runner NDone (open_socket SHub d)) | _ => None end
  | LClose => match closer d with KIdle => Some (with_closer (KDestroy (map fst (slots d))) d) | _ => None end
  | LDestroy f =>
      match closer d with
      | KDestroy todo => match takeout f todo with Some rest => Some (adds [EDestroy f] (with_closer (KDestroy rest) d)) | None => None end
      | _ => None
      end
  | KStep =>
      match closer d with
      | KDestroy [] => Some (adds [ECleared] (with_closer (KSock (length (sockets d))) (with_slots [] d)))
      | KSock (S n) => match nth_error (sockets d) n with Some k => Some (adds [ESockClosed k] (with_closer (KSock n) d)) | None => None end
      | KSock O => Some (adds [EClosed] (with_closer KIdle (with_sockets [] d)))
      | _ => None
      end
  end
  | _ => None
  end.
End Types.

Arguments mkReq {V}. Arguments q_index {V}. Arguments q_slot {V}. Arguments q_method {V}. Arguments q_args {V}. Arguments q_withres {V}. Arguments mkResp {V}. Arguments p_index {V}.
Arguments p_slot {V}. Arguments p_method {V}. Arguments p_result {V}. Arguments p_err {V}. Arguments mkRet {V}. Arguments r_result {V}. Arguments r_err {V}. Arguments mkCall {V}.
Arguments c_orig {V}. Arguments c_req {V}. Arguments c_buf {V}. Arguments c_closed {V}. Arguments c_pc {V}. Arguments mkServer {V}. Arguments s_peer {V}. Arguments s_req {V}.
Arguments s_pc {V}. Arguments mkCallback {V}. Arguments b_call {V}. Arguments b_index {V}. Arguments b_ret {V}. Arguments b_pc {V}. Arguments mkDock {V}. Arguments slots {V}.
Arguments remote {V}. Arguments rpcs {V}. Arguments calls {V}. Arguments handlers {V}. Arguments announcers {V}. Arguments servers {V}. Arguments callbacks {V}. Arguments starters {V}.
Arguments sockets {V}. Arguments runner {V}. Arguments closer {V}. Arguments state {V}. Arguments hist {V}. Arguments KError {V}. Arguments KReady {V}. Arguments KRegister {V}.
Arguments KRegistered {V}. Arguments KQuery {V}. Arguments KAddress {V}. Arguments KRequest {V}. Arguments KResponse {V}. Arguments CPut {V}. Arguments CSet {V}. Arguments CWait {V}.
Arguments CGot {V}. Arguments CDone {V}. Arguments SRun {V}. Arguments SReply {V}. Arguments SDone {V}. Arguments ERecv {V}. Arguments ESend {V}. Arguments EQuery {V}.
Arguments ELocal {V}. Arguments ENew {V}. Arguments ECommit {V}. Arguments EReturn {V}. Arguments ECached {V}. Arguments EServe {V}. Arguments ERan {V}. Arguments EReplied {V}.
Arguments EStart {V}. Arguments EDestroy {V}. Arguments ECleared {V}. Arguments ESockClosed {V}. Arguments EClosed {V}. Arguments ESocket {V}. Arguments LRecv {V}. Arguments HGo {V}.
Arguments HPick {V}. Arguments HCommit {V}. Arguments HSend {V}. Arguments HNet {V}. Arguments LConnected {V}. Arguments LAnnounce {V}. Arguments LCall {V}. Arguments CStep {V}.
Arguments SExec {V}. Arguments SSend {V}. Arguments BStep {V}. Arguments TBegin {V}. Arguments TStart {V}. Arguments LDial {V}. Arguments LRun {V}. Arguments LClose {V}.
Arguments LDestroy {V}. Arguments KStep {V}. Arguments new_dock {V}. Arguments collected {V}. Arguments adds {V}. Arguments with_slots {V}. Arguments with_remote {V}. Arguments with_rpcs {V}. Arguments with_calls {V}.
Arguments with_handler {V}. Arguments with_announcers {V}. Arguments with_servers {V}. Arguments with_callbacks {V}. Arguments with_starters {V}. Arguments with_sockets {V}. Arguments with_runner {V}. Arguments with_closer {V}.
Arguments with_state {V}. Arguments open_socket {V}. Arguments with_req {V}. Arguments with_chan {V}. Arguments with_pc {V}. Arguments at_call {V}. Arguments commit {V}. Arguments respond {V}.
Arguments returned {V}. Arguments dstep {V}.
