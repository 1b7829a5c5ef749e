(* Vocabulary of the theorems about some docks of a network going on whatever becomes of the
   other docks and of the hub. *)
From Verif Require Import Lts GoInt GoVal Tables DockModel DockSpec SysModel SysSpec FullModel FullSpec WorldModel ByteModel ByteSpec FleetModel FleetSpec FleetLiveSpec HarborModel HarborSpec.
From Verif Require Import SysCodec LiveSpec.
From Verif Require ChanModel ChanSpec ChanLiveSpec HubModel.
From Coq Require Import Arith Bool List ZArith.
Import ListNotations.
Open Scope nat_scope.

(* the dock whose goroutine it is, if not the hub's or the network's *)
Definition owner (t : ftask) : option nat :=
  match t with
  | FtSend (DockEnd i _) | FtReceive (DockEnd i _) | FtAccept i _ | FtAnnounce i _ | FtCall i _ | FtServe i _ | FtBack i _ => Some i
  | _ => None
  end.
Definition howner (t : htask) : option nat :=
  match t with HtFleet t => owner t | HtServe i _ | HtLocal i _ | HtFeat i _ _ => Some i end.

Section Spec.
Context {O : Type}.
Variables (black : list Z) (raddr : nat -> name) (wz : option nat -> wsize).
Variable code : name -> nat.
Variable T : nat -> name -> ChanModel.target O gval.
Implicit Types (D : nat -> Prop) (run : nat -> harbor O) (lab : nat -> option hlab).

(* The docks D go on: their processes do not end, none of their goroutines that can go on is
   held up for ever, and none is passed over for ever at the queue of a feature.  Of other docks
   and of the hub nothing is said: their processes may end, or stop. *)
Record going_on D run lab : Prop := {
  go_up : forall i n, D i -> ~ over (run n) i;
  go_fair : forall t i n, howner t = Some i -> D i -> exists m, n <= m /\ (hresting black raddr wz code T t (run m) \/ exists l, lab m = Some l /\ of_htask t l);
  go_turns : forall i f g n, D i ->
    exists m, n <= m /\ (lab m = Some (HFeat i f (ChanModel.LEnqueue g)) \/ forall k, m <= k -> hstep black raddr wz code T (run k) (HFeat i f (ChanModel.LEnqueue g)) = None) }.
(* The connection of dock i with number p works at this end: both routines run, every range over
   the waiting calls ends, and nothing sent on it is refused for want of room. *)
Record working run (i p : nat) : Prop := {
  wk_out : forall n, ended (out (fb (hf (run n))) (DockEnd i p)) = false;
  wk_in : forall n, reading (inb (fb (hf (run n))) (DockEnd i p)) = true;
  wk_range : forall n, exists m, n <= m /\ ~ ranging (handlers (bd (fb (hf (run m))) i) p);
  wk_room : forall n k, ~ In (ESend p k false) (hist (bd (fb (hf (run n))) i)) }.
End Spec.
