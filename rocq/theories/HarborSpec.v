(* Vocabulary of the theorems about a network down to the bytes with its features. *)
From Verif Require Import Lts GoInt GoVal Tables DockModel DockSpec SysModel SysSpec FullModel FullSpec WorldModel ByteModel ByteSpec FleetModel FleetSpec HarborModel.
From Verif Require Import SysCodec LiveSpec FleetLiveSpec.
From Verif Require ChanModel ChanSpec ChanLiveSpec HubModel.
From Coq Require Import Arith Bool List ZArith.
Import ListNotations.
Open Scope nat_scope.

Section Spec.
Context {O : Type}.
Implicit Types s : harbor O.

(* what the callee of feature f of dock i has done *)
Definition deeds s (i : nat) (f : name) : list (ChanModel.event gval) := ChanModel.hist (feat s i f).
(* request r of the callee of feature f of dock i is the call of method m with args by goroutine g *)
Definition issued (code : name -> nat) s (i : nat) (f m : name) (g : nat) (args : list gval) (r : nat) : Prop :=
  In (ChanModel.EIssue r g g (code m) args) (deeds s i f).
(* goroutine g of dock i calls method m of feature f: for the k-th request accepted, or in the n-th local call *)
Definition asked (carried : nat -> list (name * bool)) s (i : nat) (f m : name) (g : nat) (args : list gval) : Prop :=
  (exists k p q, g = server_id k /\ nth_error (accepted (map fst (carried i)) (hist (bd (fb (hf s)) i))) k = Some (p, q) /\ q_slot q = f /\ q_method q = m /\ q_args q = args) \/
  (exists n, g = local_id n /\ nth_error (local_calls (hist (bd (fb (hf s)) i))) n = Some (f, m, args)).
(* the outcome of request r: the method's result, or the error of a call that timed out *)
Definition came_to s (i : nat) (f m : name) (r : nat) (res : list gval) (err : option name) : Prop :=
  (err = None /\ In (ChanModel.EEnd r res) (deeds s i f)) \/
  (res = [] /\ err = Some (timeout_text m) /\ exists n t, In (ChanModel.ERespond r (ChanModel.ATimeout n) t) (deeds s i f)).
(* The call q of dock i was the k-th request that dock j accepted, and request r of the
   callee of its feature there, on the arguments as the codec carries them; dock j carries the
   feature as discoverable; x is what arrives of the outcome at the caller. *)
Definition performed (carried : nat -> list (name * bool)) (code : name -> nat) s (i : nat) (q : request gval) (j k r : nat) (x : ret gval) : Prop :=
  carries (carried j) (q_slot q) true /\
  exists args res err, through (q_args q) = Some args /\
    served carried (fends (hf s)) (parts (fb (hf s))) i j k (mkReq (q_index q) (q_slot q) (q_method q) args (q_withres q)) /\
    issued code s j (q_slot q) (q_method q) (server_id k) args r /\
    came_to s j (q_slot q) (q_method q) r res err /\
    through (if q_withres q then res else []) = Some (r_result x) /\ r_err x = err.
(* the process of dock j has ended: by log.Fatal or a panic of its own, by one in the
   serializer, by one in a method, or from outside *)
Definition over s (j : nat) : Prop := state (bd (fb (hf s)) j) <> Alive \/ gone (fb (hf s)) (Some j) = true \/ dead s (Some j) = true.
(* the hub's process has ended *)
Definition hub_over s : Prop := gone (fb (hf s)) None = true \/ dead s None = true.
(* and nothing of it is under way any more: no bytes to a dock, no part of a message with one,
   no dock about to dial another *)
Definition cut_off s : Prop :=
  hub_over s /\
  forall i, flight (out (fb (hf s)) (HubEnd i)) = [] /\ buffer (inb (fb (hf s)) (DockEnd i 0)) = [] /\ forall p a, handlers (bd (fb (hf s)) i) p <> ADial a.
End Spec.

Section Live.
Context {O : Type}.
Variables (carried : nat -> list (name * bool)) (black : list Z) (raddr : nat -> name) (wz : option nat -> wsize).
Variable code : name -> nat.
Variable T : nat -> name -> ChanModel.target O gval.
Variable o0 : nat -> name -> O.
Notation step := (hstep black raddr wz code T).
Implicit Types (run : nat -> harbor O) (lab : nat -> option hlab).

(* The state at each moment, and the step then taken, if any. *)
Record hendless run lab : Prop := {
  he_start : run 0 = hinit carried o0;
  he_step : forall n, match lab n with Some l => step (run n) l = Some (run (S n)) | None => run (S n) = run n end }.

(* The goroutines: those of docks, hub and connections but for the ones serving requests; the
   one serving the k-th request of dock i, which calls the feature, waits and sends the
   response; the one making dock i's n-th local call; and in the callee of feature f of dock i
   the method running, the handler and the timers. *)
Inductive htask := HtFleet (t : ftask) | HtServe (i k : nat) | HtLocal (i n : nat) | HtFeat (i : nat) (f : name) (k : ChanLiveSpec.task).
Definition of_htask (t : htask) (l : hlab) : Prop :=
  match t with
  | HtFleet (FtServe _ _) => False
  | HtFleet t => exists l', l = HFleet l' /\ of_ftask t l'
  | HtServe i k => l = HBegin i k \/ l = HReturn i k \/ exists acc, l = HFleet (FDock i (SSend k acc))
  | HtLocal i n => l = HLocalReturn i n
  | HtFeat i f k => exists l', l = HFeat i f l' /\ ChanLiveSpec.of_task k l'
  end.
Definition hresting (t : htask) (s : harbor O) : Prop := forall l, of_htask t l -> step s l = None.
(* A goroutine that never waits from some moment on takes a step (weak fairness); a method
   being executed ends. *)
Definition hfair run lab : Prop := forall t n, exists m, n <= m /\ (hresting t (run m) \/ exists l, lab m = Some l /\ of_htask t l).
(* No goroutine is passed over for ever at the queue of a feature, as in ChanLiveSpec.v. *)
Definition hturns run lab : Prop := forall i f g n,
  exists m, n <= m /\ (lab m = Some (HFeat i f (ChanModel.LEnqueue g)) \/ forall k, m <= k -> step (run k) (HFeat i f (ChanModel.LEnqueue g)) = None).
(* no method panics and no process is ended from outside *)
Definition hno_panic run : Prop := forall n o, dead (run n) o = false.
End Live.
