(* C44 (instance list), C46, C47. *)
From Verif Require Import MiscModel MiscSpec MiscProof MiscProof2.
From Coq Require Import Arith List ZArith Permutation.
Import ListNotations.
Open Scope nat_scope.

(* C46: every call answers as a mathematical set would. *)
Theorem C46_set_answers ops : Forall (fun o => hashable (item o) = true) ops ->
  exists bs d, set_run new_set ops = Some (bs, d) /\ length bs = length ops /\
    forall a o b, ops = a ++ o :: b ->
      nth_error bs (length a) = Some (match o with SAdd x => negb (present x a) | SRemove x => present x a end).
Proof. exact (set_answers ops). Qed.
Print Assumptions C46_set_answers.
Definition one := VInt 0 IInt 1.
Definition str (l : list Z) := VStr 0 l.
Definition pzero := VF64 0 0.
Definition nzero := VF64 0 (2 ^ 63).
Definition nan := VF64 0 (2047 * 2 ^ 52 + 1).
Example C46_ex_answers :
  set_run new_set [SAdd one; SAdd (str [97%Z]); SAdd one; SAdd pzero; SAdd nzero; SRemove one; SRemove one; SAdd one] =
    Some ([true; true; false; true; false; true; false; true], [str [97%Z]; pzero; one]).
Proof. vm_compute. reflexivity. Qed.

(* C46: the listing holds each member exactly once, under some added representative. *)
Theorem C46_listing_is_the_members ops bs d out :
  Forall (fun o => ordinary (item o)) ops -> set_run new_set ops = Some (bs, d) -> to_slice d out ->
  (forall x, ordinary x -> copies x out = if present x ops then 1 else 0) /\ (forall y, In y out -> In (SAdd y) ops) /\
  (forall y, In y out -> present y ops = true).
Proof. exact (set_listing ops bs d out). Qed.
Print Assumptions C46_listing_is_the_members.
Example C46_ex_listing : to_slice [str [97%Z]; pzero; one] [one; str [97%Z]; pzero] /\ copies nzero [one; str [97%Z]; pzero] = 1.
Proof. split; [|vm_compute; reflexivity]. unfold to_slice. apply (Permutation_cons_app [str [97%Z]; pzero] [] one). rewrite app_nil_r. apply Permutation_refl. Qed.

(* C46: an item that is not equal to itself (NaN, an array holding NaN) is never found again... *)
Theorem C46_nan_never_found ops x : Forall (fun o => hashable (item o) = true) ops -> hashable x = true -> key_eqb x x = false ->
  exists bs d d', set_run new_set ops = Some (bs, d) /\ set_op d (SAdd x) = Some (true, d') /\ set_op d (SRemove x) = Some (false, d).
Proof. exact (odd_never_found ops x). Qed.
Print Assumptions C46_nan_never_found.
(* ... and every Add of one leaves another entry in the listing for ever. *)
Theorem C46_nan_piles_up ops bs d out : set_run new_set ops = Some (bs, d) -> to_slice d out ->
  length (filter odd_item out) = length (filter (fun o => match o with SAdd x => odd_item x | SRemove _ => false end) ops).
Proof. exact (odd_listing ops bs d out). Qed.
Print Assumptions C46_nan_piles_up.
Example C46_ex_nan : set_run new_set [SAdd nan; SAdd nan; SRemove nan; SAdd (VArr (AArray 1) [nan])] =
    Some ([true; true; false; true], [nan; nan; VArr (AArray 1) [nan]]) /\ odd_item nan = true.
Proof. vm_compute. auto. Qed.

(* C46: an unhashable item panics, wherever it comes in the sequence. *)
Theorem C46_unhashable_panics a o b : hashable (item o) = false -> forall d, set_run d (a ++ o :: b) = None.
Proof. exact (unhashable_panics a o b). Qed.
Print Assumptions C46_unhashable_panics.
Example C46_ex_unhashable : set_run new_set ([SAdd one] ++ SRemove (VArr ASliceIface []) :: []) = None.
Proof. vm_compute. reflexivity. Qed.

(* C47: visits of one name on one slot that do not overlap all return the first proxy made. *)
Theorem C47_same_proxy ls st s f : exec vstep vinit ls = Some st -> serial s f (vhist st) ->
  forall a g v b, vhist st = a ++ EVisit g s f (Some v) :: b -> forall g' r, In (EVisit g' s f r) b -> r = Some v.
Proof. exact (same_proxy ls st s f). Qed.
Print Assumptions C47_same_proxy.
(* C47: a maker that produced a proxy for a slot is never called for it again. *)
Theorem C47_made_once ls st s f : exec vstep vinit ls = Some st -> serial s f (vhist st) ->
  forall a g m v b, vhist st = a ++ EMade g s f m (Some v) :: b -> forall g' m' v', ~ In (EMade g' s f m' v') b.
Proof. exact (made_once ls st s f). Qed.
Print Assumptions C47_made_once.
(* C47: a proxy returned was made by the maker registered last when it was made. *)
Theorem C47_proxy_is_made ls st : exec vstep vinit ls = Some st -> forall a g s f v b, vhist st = a ++ EVisit g s f (Some v) :: b ->
  exists a1 g' m b1, a = a1 ++ EMade g' s f m (Some v) :: b1 /\ latest f a1 = MFunc m.
Proof. exact (returned_made ls st). Qed.
Print Assumptions C47_proxy_is_made.
(* C47: Visit returns nil while no maker is registered. *)
Theorem C47_nil_without_maker ls st : exec vstep vinit ls = Some st -> forall a g s f r b, vhist st = a ++ EVisit g s f r :: b ->
  (forall m, ~ In (ERegister f (MFunc m)) a) -> r = None.
Proof. exact (nil_without_maker ls st). Qed.
Print Assumptions C47_nil_without_maker.
(* C47: a slot for which no proxy was made yet uses the latest registration, whatever other slots did. *)
Theorem C47_fresh_slot_uses_latest ls st g s f m v : exec vstep vinit ls = Some st -> vcrash st = false ->
  (forall g' m' v', ~ In (EMade g' s f m' (Some v')) (vhist st)) -> pc st g = VIdle -> latest f (vhist st) = MFunc m ->
  exists st', exec vstep st [LVisit g s f; LTry g v; LStore g] = Some st' /\
    vhist st' = vhist st ++ [EStart g s f; EMade g s f m v; EVisit g s f v].
Proof. exact (fresh_slot_latest ls st g s f m v). Qed.
Print Assumptions C47_fresh_slot_uses_latest.
(* C47: with makers of the right type Visit does not panic and returns within two more steps of its own. *)
Theorem C47_right_types_no_panic ls st : exec vstep vinit ls = Some st -> (forall f, ~ In (ERegister f MWrong) (vhist st)) -> vcrash st = false.
Proof. exact (right_types_no_panic ls st). Qed.
Print Assumptions C47_right_types_no_panic.
Theorem C47_visit_returns ls st g s f v : exec vstep vinit ls = Some st -> (forall f, ~ In (ERegister f MWrong) (vhist st)) ->
  (exists a b, vhist st = a ++ EStart g s f :: b /\ forall r, ~ In (EVisit g s f r) b) ->
  exists more st' es r, length more <= 2 /\ Forall (fun l => l = LTry g v \/ l = LStore g) more /\ exec vstep st more = Some st' /\
    vhist st' = vhist st ++ es ++ [EVisit g s f r].
Proof. exact (visit_returns ls st g s f v). Qed.
Print Assumptions C47_visit_returns.

(* Nil first; then two registrations around a visit: slot 0 keeps proxy 7, slot 1 gets 8. *)
Definition fA : name := [65%Z].
Definition visit g s v := [LVisit g s fA; LTry g v; LStore g].
Definition vrun := [LVisit 0 0 fA; LTry 0 None; LRegister fA (MFunc 1)] ++ visit 0 0 None ++ visit 0 0 (Some 7) ++
  [LRegister fA (MFunc 2); LVisit 1 0 fA] ++ visit 0 1 (Some 8) ++ [LVisit 0 0 fA; LVisit 2 1 fA].
Definition vend := match exec vstep vinit vrun with Some st => vhist st | None => [] end.
Example C47_ex_run : vend = [EStart 0 0 fA; EVisit 0 0 fA None; ERegister fA (MFunc 1);
  EStart 0 0 fA; EMade 0 0 fA 1 None; EVisit 0 0 fA None; EStart 0 0 fA; EMade 0 0 fA 1 (Some 7); EVisit 0 0 fA (Some 7);
  ERegister fA (MFunc 2); EStart 1 0 fA; EVisit 1 0 fA (Some 7);
  EStart 0 1 fA; EMade 0 1 fA 2 (Some 8); EVisit 0 1 fA (Some 8); EStart 0 0 fA; EVisit 0 0 fA (Some 7); EStart 2 1 fA; EVisit 2 1 fA (Some 8)].
Proof. vm_compute. reflexivity. Qed.
Example C47_ex_serial : serial 0 fA vend.
Proof. apply serialb_ok. vm_compute. reflexivity. Qed.
(* a slot without a proxy after another registration; and a visit under way *)
Example C47_ex_fresh : exists st, exec vstep vinit (vrun ++ [LRegister fA (MFunc 3)]) = Some st /\ vcrash st = false /\ pc st 0 = VIdle /\
  latest fA (vhist st) = MFunc 3 /\ (forall g m v, ~ In (EMade g 5 fA m (Some v)) (vhist st)) /\ (forall f, ~ In (ERegister f MWrong) (vhist st)).
Proof. eexists. split; [vm_compute; reflexivity|]. do 3 (split; [reflexivity|]). split; intros; vm_compute; intuition discriminate. Qed.
Example C47_ex_under_way : exists st a, exec vstep vinit (vrun ++ [LVisit 4 5 fA]) = Some st /\ vhist st = a ++ EStart 4 5 fA :: [] /\
  (forall f, ~ In (ERegister f MWrong) (vhist st)).
Proof. eexists. exists vend. split; [vm_compute; reflexivity|]. split; [vm_compute; reflexivity|]. intros f. vm_compute. intuition discriminate. Qed.

(* C47 fails for overlapping visits: two goroutines make two proxies, and the proxy a third
   call has seen is replaced. *)
Theorem C47_overlapping_refuted : exists ls st a b, exec vstep vinit ls = Some st /\
  vhist st = a ++ EVisit 0 0 fA (Some 7) :: b /\ In (EVisit 2 0 fA (Some 8)) b.
Proof.
  exists [LRegister fA (MFunc 1); LVisit 0 0 fA; LVisit 1 0 fA; LTry 0 (Some 7); LStore 0; LTry 1 (Some 8); LStore 1; LVisit 2 0 fA].
  eexists. eexists [_; _; _; _]. eexists. split; [reflexivity|]. split; [reflexivity|]. cbn. auto 10.
Qed.
Print Assumptions C47_overlapping_refuted.
(* C47: registering something that is not a func(ISlot) interface{} panics at the first Visit. *)
Theorem C47_wrong_maker_panics_refuted : exists ls st, exec vstep vinit ls = Some st /\ vcrash st = true.
Proof. exists [LRegister fA MWrong; LVisit 0 0 fA; LTry 0 None]. eexists. split; reflexivity. Qed.
Print Assumptions C47_wrong_maker_panics_refuted.

(* C44: ferry.Close closes every waiting instance once, in reverse order of creation. *)
Theorem C44_instances_closed_in_reverse ls st : exec rstep rinit ls = Some st ->
  forall a g b c, rhist st = a ++ EDestroy g :: b ++ EDestroyed g :: c ->
  (forall e, In e b -> exists i, e = EClose g i) -> b = map (EClose g) (rev (waiting a)).
Proof. exact (destroy_closes ls st). Qed.
Print Assumptions C44_instances_closed_in_reverse.
Theorem C44_destroy_finishes ls st g : exec rstep rinit ls = Some st -> rcrash st = false -> dpcs st g = DIdle ->
  exists st', exec rstep st (LDestroy g :: repeat (LClose g) (S (length (waiting (rhist st))))) = Some st' /\
    rhist st' = rhist st ++ EDestroy g :: map (EClose g) (rev (waiting (rhist st))) ++ [EDestroyed g].
Proof. exact (destroy_finishes ls st g). Qed.
Print Assumptions C44_destroy_finishes.
(* C44: it panics only when another Close completes meanwhile. *)
Theorem C44_destroy_panics_only_on_overlap ls st : exec rstep rinit ls = Some st -> rcrash st = true ->
  exists a g b g', rhist st = a ++ EDestroy g :: b /\ ~ In (EDestroyed g) b /\ In (EDestroyed g') b.
Proof. exact (destroy_panic ls st). Qed.
Print Assumptions C44_destroy_panics_only_on_overlap.
Example C44_ex_instances : option_map rhist (exec rstep rinit [LWait 1; LWait 2; LWait 3; LDestroy 0; LClose 0; LClose 0; LClose 0; LClose 0; LDestroy 0; LClose 0]) =
  Some [EWait 1; EWait 2; EWait 3; EDestroy 0; EClose 0 3; EClose 0 2; EClose 0 1; EDestroyed 0; EDestroy 0; EDestroyed 0].
Proof. vm_compute. reflexivity. Qed.
(* a second Close while the first one runs *)
Example C44_ex_overlap : exists st, exec rstep rinit [LWait 1; LWait 2; LDestroy 0; LDestroy 1; LClose 1; LClose 1; LClose 1; LClose 0] = Some st /\ rcrash st = true /\
  In (EDestroyed 1) (rhist st) /\ ~ In (EDestroyed 0) (rhist st).
Proof. eexists. split; [vm_compute; reflexivity|]. split; [reflexivity|]. split; vm_compute; intuition discriminate. Qed.
(* C44 fails for overlapping calls: an instance started while Close runs is never closed ... *)
Theorem C44_overlapping_wait_refuted : exists ls st, exec rstep rinit ls = Some st /\ In (EWait 2) (rhist st) /\ waiting (rhist st) = [] /\
  (forall g, dpcs st g = DIdle) /\ forall g, ~ In (EClose g 2) (rhist st).
Proof.
  exists [LWait 1; LDestroy 0; LWait 2; LClose 0; LClose 0]. eexists. split; [reflexivity|]. cbn. repeat split; auto; [intros [|g]; reflexivity|].
  intros g H. repeat destruct H as [H|H]; try discriminate. exact H.
Qed.
Print Assumptions C44_overlapping_wait_refuted.
(* ... and two Close calls at once panic with an index out of range. *)
Theorem C44_overlapping_destroy_refuted : exists ls st, exec rstep rinit ls = Some st /\ rcrash st = true.
Proof. exists [LWait 1; LWait 2; LDestroy 0; LDestroy 1; LClose 0; LClose 0; LClose 0; LClose 1]. eexists. split; reflexivity. Qed.
Print Assumptions C44_overlapping_destroy_refuted.
