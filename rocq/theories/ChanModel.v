(* Model of package chancall: callee.go, caller.go, data.go, API.go and the timeout
   table of meta.go, as a transition system over goroutines. *)
From Verif Require Import Lts GoInt GoFloat.
From Coq Require Import Arith Bool.
Open Scope nat_scope.

(* total maps from numbers *)
Definition upd {A} (f : nat -> A) (k : nat) (v : A) : nat -> A := fun x => if x =? k then v else f x.

(* API.go:29: make(chan *callRequest, 2); API.go:40: make(chan *callResponse, 1) *)
Definition cRequestChanSize : nat := 2.
Definition cResponseChanSize : nat := 1.
(* meta.go:80-82: 1.0 as float32 bits *)
Definition cDefaultTimeout : Z := 0x3f800000%Z.
(* callee.go:65: time.Duration(timeout) * time.Second, an int64 product *)
Definition sleep_ns (timeout : Z) : Z := swrap 64 (f32_trunc timeout * 1000000000).

Section Chan.
(* Values passed and returned, the target object and its methods: [impl o m args] is
   the object after method m and the results, None a panic (a method that never
   returns is one whose LEnd step is never taken); [known m]: m is in meta.funcs
   (meta.go:31-42).  meta.call itself is modelled in MetaModel.v. *)
Context {O V : Type}.
Record target := mkTarget { known : nat -> bool; impl : O -> nat -> list V -> option (O * list V) }.
Variable T : target.

(* data.go:19-22: {result, nil} or {nil, "[method] function call timeout!"} *)
Inductive answer := AResult (l : list V) | ATimeout (m : nat).

(* data.go:11-17.  Requests (pointers) are numbered in the order of their creation;
   [rq_gor] (ghost) is the goroutine that made the call. *)
Record request := mkReq {
  rq_gor : nat; rq_caller : nat; rq_method : nat; rq_args : list V;
  rq_done : bool; rq_locked : bool }.
Definition no_request : request := mkReq 0 0 0 [] false false.
Definition set_done (q : request) : request := mkReq (rq_gor q) (rq_caller q) (rq_method q) (rq_args q) true (rq_locked q).
Definition set_locked (b : bool) (q : request) : request := mkReq (rq_gor q) (rq_caller q) (rq_method q) (rq_args q) (rq_done q) b.

(* The handler goroutine, callee.go:26-61: waiting for a request; in the method; about
   to lock the request; locked; has seen done = false; has set done and is sending;
   about to unlock. *)
Inductive hpoint :=
| HIdle | HRun (r : nat) | HResult (r : nat) (l : list V) | HLocked (r : nat) (l : list V)
| HSet (r : nat) (l : list V) | HSend (r : nat) (l : list V) | HUnlock (r : nat).
(* The goroutine started by track for a request, callee.go:63-78: not started; started,
   with its sleep duration; asleep until; locked, has seen done = false, sending, about
   to unlock; ended. *)
Inductive tpoint := TNone | TStarted (ns : Z) | TAsleep (until : Z) | TLocked | TSet | TSend | TUnlock | TEnded.
(* A calling goroutine: outside; at the channel send of caller.call (caller.go:54); at
   the receive of Call/CallWithResult (caller.go:27, 42). *)
Inductive gpoint := GIdle | GSending (r : nat) | GWaiting (r : nat).

(* Ghost history. *)
Inductive event :=
| EIssue (r g c m : nat) (args : list V)     (* goroutine g called method m on caller c *)
| EEnqueue (r : nat)
| EStart (r : nat) (at_ : Z) (timeout : Z)   (* time, and the timeout setting read *)
| EEnd (r : nat) (l : list V)
| ERespond (r : nat) (a : answer) (at_ : Z)  (* sent on the response channel *)
| EReturn (g r : nat) (origin : nat) (a : answer). (* g's call r received the answer made for [origin] *)

Record chan := mkChan {
  reqs : nat -> request; nreqs : nat;
  queue : list nat;                       (* callee.callRequest *)
  handler : hpoint;
  timer : nat -> tpoint;                  (* by request *)
  responses : nat -> list (nat * answer); (* caller.callResponse, by caller *)
  gor : nat -> gpoint;
  settings : nat -> Z;                    (* fcall.timeout of the known methods *)
  object : O; now : Z; crashed : bool; hist : list event }.

(* API.go:26-43 *)
Definition new_chan (o : O) : chan :=
  mkChan (fun _ => no_request) 0 [] HIdle (fun _ => TNone) (fun _ => []) (fun _ => GIdle)
         (fun _ => cDefaultTimeout) o 0%Z false [].

(* meta.go:64-71 *)
Definition timeout_of (s : chan) (m : nat) : Z := if known T m then settings s m else cDefaultTimeout.

Inductive label :=
| LTick (d : Z) | LSetTimeout (m : nat) (timeout : Z)
| LCall (g c m : nat) (args : list V) | LEnqueue (g : nat) | LReceive (g : nat)
| LPick | LEnd | LLock | LCheck | LDone | LRespond | LUnlock
| TSleep (r : nat) | TLock (r : nat) | TCheck (r : nat) | TDone (r : nat) | TRespond (r : nat) | TRelease (r : nat).

(* Of the state of chancall/callee.go:12-16, caller.go:11-14, data.go and of its goroutines: *)
(* field updates *)
Definition with_reqs (f : nat -> request) (s : chan) := mkChan f (nreqs s) (queue s) (handler s) (timer s) (responses s) (gor s) (settings s) (object s) (now s) (crashed s) (hist s).
Definition with_req (r : nat) (q : request) (s : chan) := with_reqs (upd (reqs s) r q) s.
Definition with_handler (h : hpoint) (s : chan) := mkChan (reqs s) (nreqs s) (queue s) h (timer s) (responses s) (gor s) (settings s) (object s) (now s) (crashed s) (hist s).
Definition with_timer (r : nat) (t : tpoint) (s : chan) := mkChan (reqs s) (nreqs s) (queue s) (handler s) (upd (timer s) r t) (responses s) (gor s) (settings s) (object s) (now s) (crashed s) (hist s).
Definition with_responses (c : nat) (l : list (nat * answer)) (s : chan) := mkChan (reqs s) (nreqs s) (queue s) (handler s) (timer s) (upd (responses s) c l) (gor s) (settings s) (object s) (now s) (crashed s) (hist s).
Definition with_gor (g : nat) (p : gpoint) (s : chan) := mkChan (reqs s) (nreqs s) (queue s) (handler s) (timer s) (responses s) (upd (gor s) g p) (settings s) (object s) (now s) (crashed s) (hist s).
Definition with_queue (q : list nat) (s : chan) := mkChan (reqs s) (nreqs s) q (handler s) (timer s) (responses s) (gor s) (settings s) (object s) (now s) (crashed s) (hist s).
Definition with_object (o : O) (s : chan) := mkChan (reqs s) (nreqs s) (queue s) (handler s) (timer s) (responses s) (gor s) (settings s) o (now s) (crashed s) (hist s).
Definition add (e : event) (s : chan) := mkChan (reqs s) (nreqs s) (queue s) (handler s) (timer s) (responses s) (gor s) (settings s) (object s) (now s) (crashed s) (hist s ++ [e]).

(* callee.go:56, 70 *)
(* request.callResponse <- response; blocks while the channel is full *)
Definition can_respond (r : nat) (s : chan) : bool := length (responses s (rq_caller (reqs s r))) <? cResponseChanSize.
Definition respond (r : nat) (a : answer) (s : chan) : chan :=
  let c := rq_caller (reqs s r) in
  add (ERespond r a (now s)) (with_responses c (responses s c ++ [(r, a)]) s).

(* One atomic step.  The "done" flag is only touched under the request's lock, in
   separate steps for the test and the assignment.  A waiting sender is not kept in
   Go's FIFO of blocked senders: any of them may go first.  nil callResponse
   (callee.go:42-44) and the recover clauses cannot occur: every request carries its
   caller's channel and no channel is ever closed. *)
Definition cstep (s : chan) (l : label) : option chan :=
  if crashed s then None else
  match l with
  | LTick d =>
      if (0 <? d)%Z then Some (mkChan (reqs s) (nreqs s) (queue s) (handler s) (timer s) (responses s) (gor s) (settings s) (object s) (now s + d)%Z false (hist s)) else None
  | LSetTimeout m x => (* meta.go:73-78 *)
      Some (if known T m then mkChan (reqs s) (nreqs s) (queue s) (handler s) (timer s) (responses s) (gor s) (upd (settings s) m x) (object s) (now s) false (hist s) else s)
  | LCall g c m args => (* caller.go:16-22, 31-37 *)
      match gor s g with
      | GIdle =>
          let r := nreqs s in
          Some (add (EIssue r g c m args) (with_gor g (GSending r)
            (mkChan (upd (reqs s) r (mkReq g c m args false false)) (S r) (queue s) (handler s) (timer s) (responses s) (gor s) (settings s) (object s) (now s) false (hist s))))
      | _ => None
      end
  | LEnqueue g => (* caller.go:54 *)
      match gor s g with
      | GSending r =>
          if length (queue s) <? cRequestChanSize
          then Some (add (EEnqueue r) (with_gor g (GWaiting r) (with_queue (queue s ++ [r]) s))) else None
      | _ => None
      end
  | LReceive g => (* caller.go:27-28, 42-43 *)
      match gor s g with
      | GWaiting r =>
          let c := rq_caller (reqs s r) in
          match responses s c with
          | (o, a) :: rest => Some (add (EReturn g r o a) (with_gor g GIdle (with_responses c rest s)))
          | [] => None
          end
      | _ => None
      end
  | LPick => (* callee.go:28, 36: the request is taken and track starts its goroutine *)
      match handler s, queue s with
      | HIdle, r :: q =>
          let t := timeout_of s (rq_method (reqs s r)) in
          Some (add (EStart r (now s) t) (with_timer r (TStarted (sleep_ns t)) (with_handler (HRun r) (with_queue q s))))
      | _, _ => None
      end
  | LEnd => (* callee.go:37, meta.go:44-62: the method returns; an unknown one at once, with nil *)
      match handler s with
      | HRun r =>
          let q := reqs s r in
          match (if known T (rq_method q) then impl T (object s) (rq_method q) (rq_args q) else Some (object s, [])) with
          | Some (o, l) => Some (add (EEnd r l) (with_handler (HResult r l) (with_object o s)))
          | None => Some (mkChan (reqs s) (nreqs s) (queue s) (handler s) (timer s) (responses s) (gor s) (settings s) (object s) (now s) true (hist s))
          end
      | _ => None
      end
  | LLock => (* callee.go:52 *)
      match handler s with
      | HResult r l => if rq_locked (reqs s r) then None else Some (with_handler (HLocked r l) (with_req r (set_locked true (reqs s r)) s))
      | _ => None
      end
  | LCheck => (* callee.go:54 *)
      match handler s with
      | HLocked r l => Some (with_handler (if rq_done (reqs s r) then HUnlock r else HSet r l) s)
      | _ => None
      end
  | LDone => (* callee.go:55 *)
      match handler s with
      | HSet r l => Some (with_handler (HSend r l) (with_req r (set_done (reqs s r)) s))
      | _ => None
      end
  | LRespond => (* callee.go:56 *)
      match handler s with
      | HSend r l => if can_respond r s then Some (with_handler (HUnlock r) (respond r (AResult l) s)) else None
      | _ => None
      end
  | LUnlock => (* callee.go:59 *)
      match handler s with
      | HUnlock r => Some (with_handler HIdle (with_req r (set_locked false (reqs s r)) s))
      | _ => None
      end
  | TSleep r => (* callee.go:65; Sleep returns at once for a duration <= 0 *)
      match timer s r with
      | TStarted ns => Some (with_timer r (TAsleep (now s + Z.max 0 ns)%Z) s)
      | _ => None
      end
  | TLock r => (* callee.go:66 *)
      match timer s r with
      | TAsleep u => if (u <=? now s)%Z && negb (rq_locked (reqs s r))
                     then Some (with_timer r TLocked (with_req r (set_locked true (reqs s r)) s)) else None
      | _ => None
      end
  | TCheck r => (* callee.go:68 *)
      match timer s r with
      | TLocked => Some (with_timer r (if rq_done (reqs s r) then TUnlock else TSet) s)
      | _ => None
      end
  | TDone r => (* callee.go:69 *)
      match timer s r with
      | TSet => Some (with_timer r TSend (with_req r (set_done (reqs s r)) s))
      | _ => None
      end
  | TRespond r => (* callee.go:70-73 *)
      match timer s r with
      | TSend => if can_respond r s then Some (with_timer r TUnlock (respond r (ATimeout (rq_method (reqs s r))) s)) else None
      | _ => None
      end
  | TRelease r => (* callee.go:76 *)
      match timer s r with
      | TUnlock => Some (with_timer r TEnded (with_req r (set_locked false (reqs s r)) s))
      | _ => None
      end
  end.
End Chan.
Arguments target : clear implicits. Arguments answer : clear implicits. Arguments event : clear implicits.
Arguments label : clear implicits. Arguments chan : clear implicits. Arguments request : clear implicits.
Arguments hpoint : clear implicits.
