(* C68: data races. *)
From Verif Require Import RaceModel.

(* What the program itself may start. *)
Definition entry (f : fn) : Prop :=
  match f with FServe _ | FStartup _ | FClose | FMock | FHandling _ _ => True | _ => False end.
(* [s] can be reached by a program that makes the calls [fs]. *)
Definition reached (fs : list fn) (s : st) : Prop := Forall entry fs /\ exists ls, exec rstep (start fs) ls = Some s.

(* Goroutine t is about to read (false) or write (true) x. *)
Definition about (s : st) (t : nat) (x : loc) (w : bool) : Prop :=
  exists k, nth_error (threads s) t = Some ((if w then Wr x else Rd x) :: k).
(* A data race: two goroutines are about to use x, one of them to write it. *)
Definition race (s : st) (x : loc) : Prop := exists t u w, t <> u /\ about s t x true /\ about s u x w.

(* Memory without races whatever the program does, *)
Definition safe (x : loc) : Prop :=
  match x with DRemote _ | Done _ | Registry => True | _ => False end.
(* memory whose races all involve ferry.Close, *)
Definition safe_until_close (x : loc) : Prop :=
  match x with HDocks _ | HPorts _ | HBlack _ | DSlots _ | PSink _ => True | _ => False end.
(* memory of sockets and the mock network that races with ferry.Close (without it: not
   settled here, the order is kept by the channels the model leaves out), *)
Definition raced_by_close (x : loc) : Prop :=
  match x with SPeers _ | CPeer _ | LConns _ => True | _ => False end.
(* memory that only races if the network is replaced while in use, *)
Definition raced_by_mock (x : loc) : Prop := match x with Makers => True | _ => False end.
(* and memory with races in a process that only starts hubs, docks and features. *)
Definition raced (x : loc) : Prop :=
  match x with
  | HStubs _ | HReady _ | DSockets _ | DRpcs _ | RReq _ | Visiters _ | Insts | Timeouts _
  | Serializers | Listeners | Vport | CStatus _ => True
  | _ => False
  end.

(* Goroutine t waits for mutex m, which u holds. *)
Definition waits (s : st) (t : nat) (m : lock) (u : nat) : Prop :=
  (exists k, nth_error (threads s) t = Some (Lk m :: k)) /\ held s m = Some u.
