(* Vocabulary for the chancall theorems: functions of the history or of the schedule
   only. *)
From Verif Require Import Lts GoInt GoFloat ChanModel.
From Coq Require Import Arith Bool.
Open Scope nat_scope.

Section Spec.
Context {O V : Type}.
Notation event := (event V). Notation label := (label V). Notation answer := (answer V).

(* the answers made for request r *)
Definition answers (r : nat) (h : list event) : list answer :=
  flat_map (fun e => match e with ERespond q a _ => if q =? r then [a] else [] | _ => [] end) h.
(* requests in the order in which they entered the queue / began / ended *)
Definition enqueued (h : list event) : list nat := flat_map (fun e => match e with EEnqueue r => [r] | _ => [] end) h.
Definition started (h : list event) : list nat := flat_map (fun e => match e with EStart r _ _ => [r] | _ => [] end) h.
Definition ended (h : list event) : list (nat * list V) := flat_map (fun e => match e with EEnd r l => [(r, l)] | _ => [] end) h.

(* Executions do not overlap: reading the history, [cur] is the request being executed. *)
Fixpoint serial (cur : option nat) (h : list event) : option (option nat) :=
  match h with
  | [] => Some cur
  | EStart r _ _ :: t => match cur with None => serial (Some r) t | Some _ => None end
  | EEnd r _ :: t => match cur with Some q => if q =? r then serial None t else None | None => None end
  | _ :: t => serial cur t
  end.

(* The object after executing calls one after the other, with their results: a known
   method is applied, an unknown one does nothing and returns nothing. *)
Inductive replay (T : target O V) (h : list event) : O -> list (nat * list V) -> O -> Prop :=
| replay_nil o : replay T h o [] o
| replay_known o o' o'' r g c m args l rest : In (EIssue r g c m args) h -> known T m = true ->
    impl T o m args = Some (o', l) -> replay T h o' rest o'' -> replay T h o ((r, l) :: rest) o''
| replay_unknown o o' r g c m args rest : In (EIssue r g c m args) h -> known T m = false ->
    replay T h o rest o' -> replay T h o ((r, []) :: rest) o'.

(* The caller object goroutine g is calling through after the schedule ls. *)
Definition calling (ls : list label) (g : nat) : option nat :=
  fold_left (fun cur l => match l with
    | LCall g' c _ _ => if g' =? g then Some c else cur
    | LReceive g' => if g' =? g then None else cur
    | _ => cur end) ls None.
(* a call on caller object c begins only while no goroutine is calling through c *)
Definition one_goroutine_per_caller (ls : list label) : Prop :=
  forall a g c m args b, ls = a ++ LCall g c m args :: b -> forall g', calling a g' <> Some c.

(* The timeout setting of method m after the schedule: the last SetTimeout of m, or 1.0. *)
Definition setting (ls : list label) (m : nat) : Z :=
  fold_left (fun cur l => match l with LSetTimeout m' x => if m' =? m then x else cur | _ => cur end) ls 0x3f800000%Z.
End Spec.

(* k is the value of the finite float32 with this bit pattern, cut toward zero; the
   value is f32_scaled b / 2^1074 *)
Definition truncated (b k : Z) : Prop :=
  (Z.abs k * 2 ^ 1074 <= Z.abs (f32_scaled b) < (Z.abs k + 1) * 2 ^ 1074 /\
   (0 <= f32_scaled b -> 0 <= k) /\ (f32_scaled b <= 0 -> k <= 0))%Z.
