(* Vocabulary of the theorems about networks whose connections are dialled. *)
From Verif Require Import Lts GoVal Tables DockModel DockSpec SysModel SysSpec WorldModel.
From Verif Require HubModel HubSpec.
From Coq Require Import Arith Bool List ZArith.
Import ListNotations.
Open Scope nat_scope.

Section Spec.
Context {V : Type}.
Variables (carry : nat -> nat -> list V -> option (list V)) (black : list Z) (raddr : nat -> name).
Implicit Types w : world V.

(* no packet is lost on the way *)
Definition nothing_lost (ls : list (wlab V)) : Prop := forall l, In l ls -> match l with WLose _ _ _ | WHubLose _ _ => False | _ => True end.

(* No process has crashed or exited, no dock has been closed, every queue took what it was
   given, queries went to the hub, the calls of a dock carry different identifiers. *)
Record healthy (s : sys V) : Prop := {
  h_alive : forall i, state (sd s i) = Alive;
  h_hub : HubModel.halted (sh s) = false;
  h_open : forall i, ~ cleared (hist (sd s i));
  h_taken : forall i p k, ~ In (ESend p k false) (hist (sd s i));
  h_asked : forall i k f, In (EQuery k f) (hist (sd s i)) -> k = DockModel.SHub;
  h_ids : forall i, NoDup (map q_index (requests (hist (sd s i)))) }.

(* Steps that need nobody to ask for them: packets arrive, connections are accepted, the
   goroutines of docks and hub go on, features answer.  Not among them: new calls, closing,
   a dock dialling the hub, and the hub's polling for queries. *)
Definition due (l : wlab V) : Prop :=
  match l with
  | WDeliver _ _ | WHubDeliver _ | WListen _ _ _ | WConnect _ _ _ _ | WFail _ _ | WAccept _ _ => True
  | WHub (HubModel.HStep _) => True
  | WDock _ l => match l with
      | HGo _ | HPick _ _ | HCommit _ _ | HSend _ _ _ | LAnnounce _ _ _ | CStep _ _ | SExec _ _ _ | SSend _ _ | BStep _ => True
      | _ => False end
  | _ => False
  end.
(* Nothing is due, and polling finds no answer however long it goes on. *)
Definition settled w : Prop :=
  (forall l, due l -> wstep carry black raddr w l = None) /\
  forall t n w', exec (wstep carry black raddr) w (repeat (WHub (HubModel.QStep t)) n) = Some w' ->
    HubSpec.answers t (HubModel.hist (sh (ws w'))) = HubSpec.answers t (HubModel.hist (sh (ws w))).
End Spec.
