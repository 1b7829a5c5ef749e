(* Vocabulary of the theorems about what a feature lets others call. *)
From Verif Require Import Lts GoInt GoVal Tables DockModel DockSpec SysModel WorldModel ByteModel FleetModel FleetLiveSpec HarborModel HarborSpec IsleSpec MetaModel SlotModel.
From Verif Require ChanModel.
From Coq Require Import Arith Bool List ZArith.
Import ListNotations.
Open Scope nat_scope.

(* the name begins with a capital letter *)
Definition capital (n : list Z) : Prop := exists c r, n = c :: r /\ (65 <= c <= 90)%Z.
(* the two methods of IFeature *)
Definition life_cycle (n : list Z) : Prop := n = onStart \/ n = onDestroy.
(* one of the methods has this name, takes an ISlot and returns nothing *)
Definition has {O} (ms : list (method O)) (n : list Z) : Prop := exists m, In m ms /\ m_name m = n /\ m_params m = [islot] /\ m_results m = 0.

Section Spec.
Context {O : Type}.
Variables (black : list Z) (raddr : nat -> name) (wz : option nat -> wsize).
Variable code : name -> nat.
Variable T : nat -> name -> ChanModel.target O gval.
Implicit Types (run : nat -> harbor O) (lab : nat -> option hlab).
(* As long as its process runs, the goroutines of dock j that can go on are not held up for
   ever, and none is passed over for ever at the queue of a feature. *)
Record attended run lab (j : nat) : Prop := {
  at_fair : forall t n, howner t = Some j -> exists m, n <= m /\ (hresting black raddr wz code T t (run m) \/ exists l, lab m = Some l /\ of_htask t l);
  at_turns : forall f g n,
    exists m, n <= m /\ (lab m = Some (HFeat j f (ChanModel.LEnqueue g)) \/ forall k, m <= k -> hstep black raddr wz code T (run k) (HFeat j f (ChanModel.LEnqueue g)) = None) }.
(* sooner or later the process of dock j has ended: it does not go on for ever *)
Definition will_end run (j : nat) : Prop := ~ forall n, ~ over (run n) j.
End Spec.
(* feature f of dock j is one put in a slot (its methods have different names) *)
Definition from_slot {O} (wz : option nat -> wsize) (open : open_conversion) (decode : nat -> name) (T : nat -> name -> ChanModel.target O gval) (j : nat) (f : name) : Prop :=
  exists ms discoverable sl, NoDup (map m_name ms) /\ new_slot ms discoverable = Some sl /\ T j f = slot_target (wz (Some j)) open decode sl.
