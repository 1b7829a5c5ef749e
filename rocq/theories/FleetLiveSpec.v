(* Vocabulary of the theorems about endless runs of networks down to the bytes. *)
From Verif Require Import Lts GoInt GoVal Tables DockModel DockSpec SysModel SysSpec WorldModel WorldSpec LiveSpec ByteModel ByteSpec FleetModel FleetSpec.
From Verif Require HubModel.
From Coq Require Import Arith Bool List ZArith.
Import ListNotations.
Open Scope nat_scope.

Section Spec.
Variables (carried : nat -> list (name * bool)) (black : list Z) (raddr : nat -> name) (wz : option nat -> wsize).
Notation step := (fstep black raddr wz).

(* The state at each moment, and the step then taken, if any. *)
Record fendless (r : nat -> fleet) (lab : nat -> option flab) : Prop := {
  fe_start : r 0 = finit carried;
  fe_step : forall n, match lab n with Some l => step (r n) l = Some (r (S n)) | None => r (S n) = r n end }.

(* The goroutines: each goes on by itself. *)
Inductive ftask :=
| FtSend (e : endp)        (* the send routine of a peer *)
| FtReceive (e : endp)     (* the receive routine of a peer, which handles the packets too *)
| FtAccept (j q : nat)     (* dock j accepts connection q *)
| FtAnnounce (i j : nat)   (* dock i announces its slots on a new connection *)
| FtCall (i c : nat)       (* call c of dock i *)
| FtServe (i k : nat)      (* dock i serves the k-th request *)
| FtBack (i b : nat)       (* dock i hands over the b-th response *)
| FtQuery (t : nat).       (* the hub polls for query t *)
(* a step of the handler of the peer e *)
Definition handling (e : endp) (l : flab) : Prop :=
  match e with
  | DockEnd i p =>
      match l with
      | FDock i' (HGo p') | FDock i' (HPick p' _) | FDock i' (HCommit p' _) | FDock i' (HSend p' _ _) => i' = i /\ p' = p
      | FListen i' p' _ | FConnect i' p' _ _ | FFail i' p' => i' = i /\ p' = p
      | _ => False end
  | HubEnd h => l = FHub (HubModel.HStep h)
  end.
Definition of_ftask (T : ftask) (l : flab) : Prop :=
  match T with
  | FtSend e => l = FRoutine (BPop e) \/ l = FRoutine (BWrite e)
  | FtReceive e => l = FRoutine (BTake e) \/ (exists k, 0 < k /\ l = FRoutine (BRead e k)) \/ handling e l
  | FtAccept j q => l = FAccept j q
  | FtAnnounce i j => exists ns acc, l = FDock i (LAnnounce j ns acc)
  | FtCall i c => exists acc, l = FDock i (CStep c acc)
  | FtServe i k => (exists res err, l = FDock i (SExec k res err)) \/ exists acc, l = FDock i (SSend k acc)
  | FtBack i b => l = FDock i (BStep b)
  | FtQuery t => l = FHub (HubModel.QStep t)
  end.
(* goroutine T waits *)
Definition fresting (T : ftask) (n : fleet) : Prop := forall l, of_ftask T l -> step n l = None.
(* A goroutine that never waits from some moment on takes a step (weak fairness). *)
Definition ffair (r : nat -> fleet) (lab : nat -> option flab) : Prop :=
  forall T n, exists m, n <= m /\ (fresting T (r m) \/ exists l, lab m = Some l /\ of_ftask T l).

(* every range over the waiting calls ends, as in LiveSpec.v *)
Definition franges_end (r : nat -> fleet) : Prop := forall i p n, exists m, n <= m /\ ~ ranging (handlers (bd (fb (r m)) i) p).

(* No process or routine ends, no query and no packet of the hub finds a full queue, and no
   dock and not the hub breaks. *)
Definition fundisturbed (r : nat -> fleet) : Prop := forall n, unbroken (r n) /\ dropped (fb (r n)) = false /\ healthy (parts (fb (r n))).
(* All messages handed to Send are legitimate. *)
Definition flegitimate (r : nat -> fleet) : Prop := forall n, Forall (legitimate (across (r n)) wz) (handed (fb (r n))).
End Spec.
