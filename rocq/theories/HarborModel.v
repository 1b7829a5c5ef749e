(* A network down to the bytes together with the features of its docks: docks, hub,
   connections, queues and bytes as in FleetModel.v, and for each feature of each dock the
   callee of ChanModel.v with its object.  What FleetModel.v leaves to the environment, the
   outcome of an invocation, here comes from the callee.
   Simplifications: those of FleetModel.v and ChanModel.v; each callee has its own clock;
   methods are numbered by [code]; calls made by methods and by other goroutines of a dock
   are arbitrary.  A panic in a method ends its dock (chancall/callee.go:28-31; nothing
   recovers it).  Any process may be ended from outside at any moment. *)
From Verif Require Import Lts GoInt GoVal Tables DockModel SysModel WorldModel ByteModel FleetModel.
From Verif Require ChanModel HubModel FullModel.
From Coq Require Import Arith Bool List ZArith.
Import ListNotations.
Open Scope nat_scope.
Notation server_id := FullModel.server_id. Notation local_id := FullModel.local_id.
Notation outcome := FullModel.outcome. Notation inside := FullModel.inside.
Notation mkLocal := FullModel.mkLocal. Notation l_feature := FullModel.l_feature. Notation l_method := FullModel.l_method. Notation l_args := FullModel.l_args.

Section Harbor.
Context {O : Type}.
Variables (carried : nat -> list (name * bool)) (black : list Z) (raddr : nat -> name) (wz : option nat -> wsize).
Variable code : name -> nat.
Variable T : nat -> name -> ChanModel.target O gval. (* of dock i's feature f *)
Variable o0 : nat -> name -> O.
Notation fstep := (fstep black raddr wz).

(* The programs (dock.go:34-41, hub.go:22-37, network/) and the callees
   (chancall/callee.go:12-16).  [begun] i k: the goroutine of the k-th request of dock i has
   made its call (dock.go:147-152); [locals] i: local calls of dock i (dock.go:224-244);
   [dead] o: a method of dock o panicked, or the process of
   dock o or of the hub (None) was ended from outside. *)
Record harbor := mkHarbor { hf : fleet; feat : nat -> name -> ChanModel.chan O gval; begun : nat -> nat -> bool; locals : nat -> list (FullModel.local gval); dead : option nat -> bool }.
(* newDock, dock.go:17-32; chancall/API.go:26-43 *)
Definition hinit : harbor :=
  mkHarbor (finit carried) (fun i f => ChanModel.new_chan (o0 i f)) (fun _ _ => false) (fun _ => []) (fun _ => false).

(* the process of a dock (dock.go:34-41) or the hub's (hub.go:22-37) *)
Definition same_proc (o o' : option nat) : bool := match o, o' with Some i, Some j => i =? j | None, None => true | _, _ => false end.
(* Field updates: a callee's state (chancall/callee.go:12-16), the programs (dock.go:34-41,
   hub.go:22-37), the call made at dock.go:147-152, a local call made at dock.go:226-227 or
   237-238. *)
Definition set_feat (i : nat) (f : name) (c : ChanModel.chan O gval) (s : harbor) : harbor :=
  mkHarbor (hf s) (updp (feat s) i (updn (feat s i) f c)) (begun s) (locals s) (fun o => dead s o || (same_proc o (Some i) && ChanModel.crashed c)).
Definition set_fleet (x : fleet) (s : harbor) : harbor := mkHarbor x (feat s) (begun s) (locals s) (dead s).
Definition set_begun (i k : nat) (s : harbor) : harbor := mkHarbor (hf s) (feat s) (updp (begun s) i (updp (begun s i) k true)) (locals s) (dead s).
Definition add_local (i : nat) (x : FullModel.local gval) (s : harbor) : harbor := mkHarbor (hf s) (feat s) (begun s) (updp (locals s) i (locals s i ++ [x])) (dead s).
(* The operating system ends the process of dock.go:34-41 (Some i) or hub.go:22-37 (None); no
   code of its own runs. *)
Definition kill (o : option nat) (s : harbor) : harbor := mkHarbor (hf s) (feat s) (begun s) (locals s) (fun o' => dead s o' || same_proc o' o).

(* dock.go:34-41: no log.Fatal and no panic so far, of the serializer (serializer.go) either; *)
(* the process of dock i runs *)
Definition up (i : nat) (s : harbor) : bool :=
  match state (bd (fb (hf s)) i) with Alive => negb (dead s (Some i)) && negb (gone (fb (hf s)) (Some i)) | _ => false end.
(* For dock.go, hub.go, network/peer.go, network/socket.go: *)
(* the process that takes a step: a dock's, or the hub's (None) *)
Definition actor (l : flab) : option nat :=
  match l with
  | FDock i _ | FDial i _ | FListen i _ _ | FConnect i _ _ _ | FFail i _ | FAccept i _ => Some i
  | FHub _ => None
  | FRoutine l => match site l with Some (DockEnd i _) => Some i | _ => None end
  end.

(* The steps of dock.go, hub.go, network/ and chancall/. *)
Inductive hlab :=
| HFleet (l : flab)
| HBegin (i k : nat)                        (* dock.go:147-152, the call of the k-th request *)
| HReturn (i k : nat)                       (* and its return *)
| HLocal (i : nat) (f m : name) (args : list gval) (w : bool) (* dock.go:226-227, 237-238 *)
| HLocalReturn (i n : nat)
| HFeat (i : nat) (f : name) (l : ChanModel.label gval)
| HKill (o : option nat).                   (* no code: the process is ended from outside *)

(* dock.go:224-244: no rpc for a feature of one's own; dock.go:147-152: the result is the
   callee's; network/socket.go:67: a process that has ended is not reached.  Its port counts as
   taken still (the hub hands out each port of a machine once, hub.go:145-169). *)
Definition allowed (s : harbor) (l : flab) : bool :=
  match l with
  | FDock _ (SExec _ _ _) => false
  | FDock i (LCall f _ _ _ _) => match aget (slots (bd (fb (hf s)) i)) f with None => true | Some _ => false end
  | FConnect _ _ j _ => negb (dead s (Some j))
  | FDial _ true => negb (dead s None) && negb (gone (fb (hf s)) None)
  | _ => true
  end && negb (dead s (actor l)).

(* dock.go:146-173, 224-244, chancall/caller.go:16-64, callee.go:26-78 *)
Definition hstep (s : harbor) (l : hlab) : option harbor :=
  match l with
  | HFleet l => if allowed s l then option_map (fun x => set_fleet x s) (fstep (hf s) l) else None
  | HBegin i k =>
      if up i s && negb (begun s i k) then
        match nth_error (servers (bd (fb (hf s)) i)) k with
        | Some sv =>
            let q := s_req sv in
            match ChanModel.cstep (T i (q_slot q)) (feat s i (q_slot q)) (ChanModel.LCall (server_id k) (server_id k) (code (q_method q)) (q_args q)) with
            | Some c => Some (set_begun i k (set_feat i (q_slot q) c s))
            | None => None
            end
        | None => None
        end
      else None
  | HReturn i k =>
      if up i s && begun s i k then
        match nth_error (servers (bd (fb (hf s)) i)) k with
        | Some sv =>
            let q := s_req sv in
            match ChanModel.responses (feat s i (q_slot q)) (server_id k), ChanModel.cstep (T i (q_slot q)) (feat s i (q_slot q)) (ChanModel.LReceive (server_id k)) with
            | (_, a) :: _, Some c =>
                option_map (fun x => set_fleet x (set_feat i (q_slot q) c s))
                  (fstep (hf s) (FDock i (SExec k (fst (outcome (q_method q) a)) (snd (outcome (q_method q) a)))))
            | _, _ => None
            end
        | None => None
        end
      else None
  | HLocal i f m args w =>
      match aget (slots (bd (fb (hf s)) i)) f with
      | Some _ =>
          if up i s then
            let n := local_id (length (locals s i)) in
            match fstep (hf s) (FDock i (LCall f m args w 0%Z)), ChanModel.cstep (T i f) (feat s i f) (ChanModel.LCall n n (code m) args) with
            | Some x, Some c => Some (add_local i (mkLocal f m args) (set_fleet x (set_feat i f c s)))
            | _, _ => None
            end
          else None
      | None => None
      end
  | HLocalReturn i n =>
      if up i s then
        match nth_error (locals s i) n with
        | Some x => option_map (fun c => set_feat i (l_feature x) c s) (ChanModel.cstep (T i (l_feature x)) (feat s i (l_feature x)) (ChanModel.LReceive (local_id n)))
        | None => None
        end
      else None
  | HFeat i f l =>
      if up i s && inside l then option_map (fun c => set_feat i f c s) (ChanModel.cstep (T i f) (feat s i f) l) else None
  | HKill o => Some (kill o s)
  end.
End Harbor.
Arguments harbor : clear implicits.
