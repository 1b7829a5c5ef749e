(* A whole system with its features: the hub and docks of SysModel.v, and for each feature
   of each dock the callee of ChanModel.v with its object.  What SysModel.v leaves to the
   environment, the outcome of an invocation, here comes from the callee.
   Simplifications: each callee has its own clock; methods are numbered by [code]; calls
   made by methods and by other goroutines of a dock are arbitrary.  A panic in a method
   ends its dock (chancall/callee.go:28-31; nothing recovers it). *)
From Verif Require Import Lts GoVal Tables DockModel SysModel.
From Verif Require ChanModel HubModel.
From Coq Require Import Arith Bool List ZArith.
Import ListNotations.
Open Scope nat_scope.

(* callee.go:71: "[%s] function call timeout!" *)
Definition timeout_text (m : name) : name :=
  ([91] ++ m ++ [93; 32; 102; 117; 110; 99; 116; 105; 111; 110; 32; 99; 97; 108; 108; 32; 116; 105; 109; 101; 111; 117; 116; 33])%Z.

(* Goroutines, each with the caller object it makes (dock.go:147, 227, 238): number 2k
   serves the k-th request, number 2n+1 makes the n-th local call. *)
Definition server_id (k : nat) : nat := 2 * k.
Definition local_id (n : nat) : nat := 2 * n + 1.

Section Full.
Context {O V : Type}.
Variables (carried : nat -> list (name * bool)) (link : nat -> nat -> wend) (hublink : nat -> option (nat * nat)).
Variables (carry : nat -> nat -> list V -> option (list V)) (black : list Z) (raddr : nat -> name) (hostport : name -> Z -> name).
Variable code : name -> nat.
Variable T : nat -> name -> ChanModel.target O V. (* of dock i's feature f *)
Variable o0 : nat -> name -> O.
Notation sstep := (sstep link hublink carry black raddr hostport).

(* A call of a feature in the same dock, dock.go:224-228, 235-239. *)
Record local := mkLocal { l_feature : name; l_method : name; l_args : list V }.
(* [begun] i k: the goroutine of the k-th request of dock i has made its call; [locals] i:
   local calls of dock i; [dead] i: a method panicked. *)
Record full := mkFull { fs : sys V; feat : nat -> name -> ChanModel.chan O V; begun : nat -> nat -> bool; locals : nat -> list local; dead : nat -> bool }.
Definition finit : full :=
  mkFull (sinit carried) (fun i f => ChanModel.new_chan (o0 i f)) (fun _ _ => false) (fun _ => []) (fun _ => false).

(* Field updates of [full]: a callee's state (chancall/callee.go:12-16), the docks
   (dock.go:34-41), the call made at dock.go:147-152, a local call made at dock.go:226-227 or
   237-238. *)
Definition set_feat (i : nat) (f : name) (c : ChanModel.chan O V) (s : full) : full :=
  mkFull (fs s) (updp (feat s) i (updn (feat s i) f c)) (begun s) (locals s) (updp (dead s) i (dead s i || ChanModel.crashed c)).
Definition set_sys (x : sys V) (s : full) : full := mkFull x (feat s) (begun s) (locals s) (dead s).
Definition set_begun (i k : nat) (s : full) : full := mkFull (fs s) (feat s) (updp (begun s) i (updp (begun s i) k true)) (locals s) (dead s).
Definition add_local (i : nat) (x : local) (s : full) : full := mkFull (fs s) (feat s) (begun s) (updp (locals s) i (locals s i ++ [x])) (dead s).

(* dock.go:34-41: no log.Fatal and no panic so far; *)
(* the process of dock i runs *)
Definition up (i : nat) (s : full) : bool := match state (sd (fs s) i) with Alive => negb (dead s i) | _ => false end.
(* For dock.go and hub.go: *)
(* the dock whose process takes a step of the system *)
Definition actor (l : slab V) : option nat := match l with SDock i _ _ | SDeliver i _ => Some i | _ => None end.
(* what the caller of an invocation gets: results and error (caller.go:27-28, 42-43) *)
Definition outcome (m : name) (a : ChanModel.answer V) : list V * option name :=
  match a with ChanModel.AResult l => (l, None) | ChanModel.ATimeout _ => ([], Some (timeout_text m)) end.
(* chancall/callee.go:26-78, caller.go:54: *)
(* Steps a callee takes by itself, and calls waiting to enter its queue *)
Definition inside (l : ChanModel.label V) : bool := match l with ChanModel.LCall _ _ _ _ | ChanModel.LReceive _ => false | _ => true end.

(* The steps of dock.go, hub.go and chancall/. *)
Inductive flab :=
| FSys (l : slab V)
| FBegin (i k : nat)                        (* dock.go:147-152, the call of the k-th request *)
| FReturn (i k : nat)                       (* and its return *)
| FLocal (i : nat) (f m : name) (args : list V) (w : bool) (* dock.go:226-227, 237-238 *)
| FLocalReturn (i n : nat)
| FFeat (i : nat) (f : name) (l : ChanModel.label V).

(* dock.go:224-244: no rpc for a feature of one's own; dock.go:147-152: the result is the
   callee's. *)
Definition allowed (s : full) (l : slab V) : bool :=
  match l with
  | SDock _ (SExec _ _ _) _ => false
  | SDock i (LCall f _ _ _ _) _ => match aget (slots (sd (fs s) i)) f with None => true | Some _ => false end
  | _ => true
  end && match actor l with Some i => negb (dead s i) | None => true end.

(* dock.go:146-173, 224-244, chancall/caller.go:16-64, callee.go:26-78 *)
Definition fstep (s : full) (l : flab) : option full :=
  match l with
  | FSys l => if allowed s l then option_map (fun x => set_sys x s) (sstep (fs s) l) else None
  | FBegin i k =>
      if up i s && negb (begun s i k) then
        match nth_error (servers (sd (fs s) i)) k with
        | Some sv =>
            let q := s_req sv in
            match ChanModel.cstep (T i (q_slot q)) (feat s i (q_slot q)) (ChanModel.LCall (server_id k) (server_id k) (code (q_method q)) (q_args q)) with
            | Some c => Some (set_begun i k (set_feat i (q_slot q) c s))
            | None => None
            end
        | None => None
        end
      else None
  | FReturn i k =>
      if up i s && begun s i k then
        match nth_error (servers (sd (fs s) i)) k with
        | Some sv =>
            let q := s_req sv in
            match ChanModel.responses (feat s i (q_slot q)) (server_id k), ChanModel.cstep (T i (q_slot q)) (feat s i (q_slot q)) (ChanModel.LReceive (server_id k)) with
            | (_, a) :: _, Some c =>
                option_map (fun x => set_sys x (set_feat i (q_slot q) c s))
                  (sstep (fs s) (SDock i (SExec k (fst (outcome (q_method q) a)) (snd (outcome (q_method q) a))) []))
            | _, _ => None
            end
        | None => None
        end
      else None
  | FLocal i f m args w =>
      match aget (slots (sd (fs s) i)) f with
      | Some _ =>
          if up i s then
            let n := local_id (length (locals s i)) in
            match sstep (fs s) (SDock i (LCall f m args w 0%Z) []), ChanModel.cstep (T i f) (feat s i f) (ChanModel.LCall n n (code m) args) with
            | Some x, Some c => Some (add_local i (mkLocal f m args) (set_sys x (set_feat i f c s)))
            | _, _ => None
            end
          else None
      | None => None
      end
  | FLocalReturn i n =>
      if up i s then
        match nth_error (locals s i) n with
        | Some x => option_map (fun c => set_feat i (l_feature x) c s) (ChanModel.cstep (T i (l_feature x)) (feat s i (l_feature x)) (ChanModel.LReceive (local_id n)))
        | None => None
        end
      else None
  | FFeat i f l =>
      if up i s && inside l then option_map (fun c => set_feat i f c s) (ChanModel.cstep (T i f) (feat s i f) l) else None
  end.
End Full.
Arguments mkLocal {V}. Arguments l_feature {V}. Arguments l_method {V}. Arguments l_args {V}. Arguments full : clear implicits. Arguments local : clear implicits. Arguments flab : clear implicits.
