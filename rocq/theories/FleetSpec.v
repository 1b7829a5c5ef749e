(* Vocabulary of the theorems about networks down to the bytes. *)
From Verif Require Import Lts GoInt GoVal Tables DockModel DockSpec SysModel SysSpec WorldModel WorldSpec ByteModel ByteSpec FleetModel.
From Verif Require HubModel HubSpec.
From Coq Require Import Arith Bool List ZArith.
Import ListNotations.
Open Scope nat_scope.

(* the two ends of its connections *)
Definition across (n : fleet) : endp -> option endp := other (fends n) hub_end.
(* no process has been ended by the serializer, no routine has ended *)
Definition unbroken (n : fleet) : Prop :=
  (forall o, gone (fb n) o = false) /\ forall e, across n e <> None -> ended (out (fb n) e) = false /\ reading (inb (fb n) e) = true.
(* Steps that need nobody to ask for them: those of networks, and the routines' that send,
   receive and handle. *)
Definition fdue (l : flab) : Prop :=
  match l with
  | FRoutine (BPop _) | FRoutine (BWrite _) | FRoutine (BTake _) => True
  | FRoutine (BRead _ n) => 0 < n
  | FListen _ _ _ | FConnect _ _ _ _ | FFail _ _ | FAccept _ _ => True
  | FHub (HubModel.HStep _) => True
  | FDock i l => due (WDock i l)
  | _ => False
  end.
(* Nothing is due, and polling finds no answer however long it goes on. *)
Definition fsettled black raddr ws (n : fleet) : Prop :=
  (forall l, fdue l -> fstep black raddr ws n l = None) /\
  forall t k n', exec (fstep black raddr ws) n (repeat (FHub (HubModel.QStep t)) k) = Some n' ->
    HubSpec.answers t (HubModel.hist (bh (fb n'))) = HubSpec.answers t (HubModel.hist (bh (fb n))).
