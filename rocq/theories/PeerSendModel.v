(* Model of the sending half of network/peer.go: Send, the send routine and close. *)
From Verif Require Import Lts.
From Coq Require Import Arith Bool.

(* peer.go:14 *)
Definition cSendChanSize : nat := 20.

(* What happened, in order.  Ghost: the code keeps no such log. *)
Inductive pevent (P : Type) :=
| EDrop (t : nat) (x : option P)   (* goroutine t's Send(x) returned at the check *)
| EAdmit (t : nat) (x : option P)  (* ... passed the check *)
| EPush (t : nat) (x : option P)   (* ... put x into the channel *)
| EPop (x : option P)              (* the send routine received x *)
| EWrite (p : P)                   (* conn.Write of p's frame succeeded *)
| EFail (p : P)                    (* conn.Write of p's frame returned an error *)
| EConnClosed.                     (* conn.Close() *)
Arguments EDrop {P}. Arguments EAdmit {P}. Arguments EPush {P}. Arguments EPop {P}. Arguments EWrite {P}. Arguments EFail {P}. Arguments EConnClosed {P}.

(* The send routine: waiting on the channel, between receive and write, or ended. *)
Inductive writer (P : Type) := WWaiting | WHolding (p : P) | WEnded.
Arguments WWaiting {P}. Arguments WHolding {P}. Arguments WEnded {P}.

(* peer.go:31-40.  Packets are abstract; nil is None.  [pending] are the goroutines
   between the check of Send (peer.go:55) and the channel send (peer.go:59). *)
Record peer (P : Type) := mkPeer {
  queue : list (option P);
  pending : list (nat * option P);
  routine : writer P;
  open : bool;
  log : list (pevent P) }.
Arguments mkPeer {P}. Arguments queue {P}. Arguments pending {P}. Arguments routine {P}. Arguments open {P}. Arguments log {P}.

(* newPeer, peer.go:18-29, after run() *)
Definition new_peer {P} : peer P := mkPeer [] [] WWaiting true [].

Fixpoint find_pending {P} (t : nat) (l : list (nat * option P)) : option (option P) :=
  match l with [] => None | (u, x) :: r => if t =? u then Some x else find_pending t r end.
Definition del_pending {P} (t : nat) (l : list (nat * option P)) : list (nat * option P) :=
  filter (fun u => negb (t =? fst u)) l.

(* One atomic step.  The check and the channel send of Send are separate steps, as
   Send holds no lock.  close (peer.go:103-115) is Send(nil), then conn.Close(); its
   lock does not exclude Send.  conn is never nil (newPeer is given a connection), so
   the second test of peer.go:67 is dropped; Marshal (peer.go:71) is taken to
   succeed.  A write can fail at any time and cannot succeed on a closed
   connection. *)
Inductive plabel (P : Type) := LCheck (t : nat) (x : option P) | LPush (t : nat) | LPop | LWrite | LWriteFails | LConnClose.
Arguments LCheck {P}. Arguments LPush {P}. Arguments LPop {P}. Arguments LWrite {P}. Arguments LWriteFails {P}. Arguments LConnClose {P}.

Definition pstep {P} (s : peer P) (l : plabel P) : option (peer P) :=
  match l with
  | LCheck t x => (* peer.go:55-57 *)
      match find_pending t (pending s) with
      | Some _ => None (* t is still inside its previous Send *)
      | None =>
          if length (queue s) =? cSendChanSize
          then Some (mkPeer (queue s) (pending s) (routine s) (open s) (log s ++ [EDrop t x]))
          else Some (mkPeer (queue s) (pending s ++ [(t, x)]) (routine s) (open s) (log s ++ [EAdmit t x]))
      end
  | LPush t => (* peer.go:59, blocks while the channel is full *)
      match find_pending t (pending s) with
      | None => None
      | Some x =>
          if length (queue s) <? cSendChanSize
          then Some (mkPeer (queue s ++ [x]) (del_pending t (pending s)) (routine s) (open s) (log s ++ [EPush t x]))
          else None
      end
  | LPop => (* peer.go:66-69 *)
      match routine s, queue s with
      | WWaiting, x :: q =>
          Some (mkPeer q (pending s) (match x with None => WEnded | Some p => WHolding p end) (open s) (log s ++ [EPop x]))
      | _, _ => None
      end
  | LWrite => (* peer.go:71-72 *)
      match routine s with
      | WHolding p => if open s then Some (mkPeer (queue s) (pending s) WWaiting (open s) (log s ++ [EWrite p])) else None
      | _ => None
      end
  | LWriteFails => (* peer.go:72-74 *)
      match routine s with
      | WHolding p => Some (mkPeer (queue s) (pending s) WEnded (open s) (log s ++ [EFail p]))
      | _ => None
      end
  | LConnClose => (* peer.go:114 *)
      Some (mkPeer (queue s) (pending s) (routine s) false (log s ++ [EConnClosed]))
  end.
