(* network/mock.go: the in-memory network used by the tests.
   Simplifications: a Write hands over the slice itself; here its bytes are fixed at the
   time of the Write.  The local and remote addresses of connections and the deadlines (no
   effect in the code) are left out, as is the network name.  A step is one read or write
   of a shared variable or one channel operation; listener.Close is one step. *)
From Verif Require Export GoVal Tables Lts.
From Verif Require Import HubModel.
From Coq Require Import Arith List ZArith.
Import ListNotations.
Open Scope nat_scope.

(* formatAddr, mock.go:92-95: strings.Split on ':' and the last piece. "0.0.0.0:" *)
Definition any_host : name := [48; 46; 48; 46; 48; 46; 48; 58]%Z.
Definition format_addr (a : name) : name := any_host ++ last (split_colon a) [].

(* conn.status, mock.go:144: 0 new, 1 handed to a listener, 2 accepted, -1 given up. *)
Inductive status := SNew | SQueued | SOpen | SFailed.

(* A []byte: nil, or its bytes. *)
Definition slice := option (list Z).

(* The goroutine started by Dial, mock.go:49-75, for a conn: none; at the head of the loop
   with the formatted address; about to send the conn to listener l (line 61); about to
   write -1 (line 66); about to read the status for the result (line 74); finished. *)
Inductive dpc := DNone | DLoop (a : name) | DPush (a : name) (l : nat) | DGiveUp (a : name) | DResult (a : name) | DDone.

(* What follows a Write: it returns, or it was called by Close. *)
Inductive after := AWrite | AClose.
(* Accept mock.go:103-120, Write mock.go:160-167, Close mock.go:169-173. *)
(* What a goroutine using the network is about to do: nothing; evaluate c.peer.chanbuf in
   Write (line 162, the check of line 161 passed); send b to the channel of conn d; set
   c.peer to nil (line 171); in Accept of listener l with the conn d received and the new
   conn c: link them (112-114), set the status (115), write the map (117). *)
Inductive gpc :=
| GIdle | GDeref (c : nat) (b : slice) (k : after) | GSend (c d : nat) (b : slice) (k : after) | GNil (c : nat)
| GLink (l c d : nat) | GStatus (l c d : nat) | GEnter (l c d : nat).

(* Ghost: what Listen, Dial, Accept, Read, Write and Close of mock.go:29-173 have done. *)
Inductive mev :=
| EListen (l : nat) (a : name)               (* Listen(a) made listener l *)
| EDial (c : nat) (a : name)                 (* Dial(a) was called and made conn c *)
| EDialed (c : nat) (ok : bool)              (* and returned c, or an error *)
| ELinked (l c d : nat)                      (* Accept on l linked the dialled conn d and the new conn c *)
| EAccepted (l c d : nat)                    (* and returned c *)
| EClosedL (l : nat)                         (* a Close on l returned *)
| ERefused (l : nat)                         (* Accept returned "Listener closed!" *)
| EWrote (c d : nat) (b : slice)             (* a Write (or Close) on c put b into the channel of d *)
| EWriteErr (c : nat)                        (* a Write on c returned "Conn is nil!" *)
| ERead (c n : nat) (r : slice)              (* a Read on c with a buffer of n bytes returned r (None: an error) *)
| EClosed (c : nat).                         (* a Close on c returned *)

(* The state of mock.go: 20-24, 97-101, 143-149, and of the goroutines in it. *)
Record mst := mkM {
  lmap : name -> option nat;           (* listeners, mock.go:22 *)
  nl : nat;                            (* listeners made so far *)
  chanconn : nat -> list (option nat); (* listener.chanconn, capacity 1 *)
  closed : nat -> bool;                (* listener.conns is nil *)
  nc : nat;                            (* conns made so far *)
  stat : nat -> status;
  peer : nat -> option nat;
  chanbuf : nat -> list slice;         (* conn.chanbuf, capacity 1 *)
  dial : nat -> dpc;
  gor : nat -> gpc;
  crash : bool;
  hist : list mev }.
(* mock.go:20-24 *)
Definition minit : mst :=
  mkM (fun _ => None) 0 (fun _ => []) (fun _ => false) 0 (fun _ => SNew) (fun _ => None) (fun _ => [])
      (fun _ => DNone) (fun _ => GIdle) false [].

(* Field updates of [mst], the state of mock.go:20-24, 97-101, 143-149. *)
Definition add (e : mev) (s : mst) : mst :=
  mkM (lmap s) (nl s) (chanconn s) (closed s) (nc s) (stat s) (peer s) (chanbuf s) (dial s) (gor s) (crash s) (hist s ++ [e]).
Definition w_lmap f s := mkM f (nl s) (chanconn s) (closed s) (nc s) (stat s) (peer s) (chanbuf s) (dial s) (gor s) (crash s) (hist s).
Definition w_nl n s := mkM (lmap s) n (chanconn s) (closed s) (nc s) (stat s) (peer s) (chanbuf s) (dial s) (gor s) (crash s) (hist s).
Definition w_chanconn l q s :=
  mkM (lmap s) (nl s) (updp (chanconn s) l q) (closed s) (nc s) (stat s) (peer s) (chanbuf s) (dial s) (gor s) (crash s) (hist s).
Definition w_closed l s :=
  mkM (lmap s) (nl s) (chanconn s) (updp (closed s) l true) (nc s) (stat s) (peer s) (chanbuf s) (dial s) (gor s) (crash s) (hist s).
Definition w_nc n s := mkM (lmap s) (nl s) (chanconn s) (closed s) n (stat s) (peer s) (chanbuf s) (dial s) (gor s) (crash s) (hist s).
Definition w_stat c x s :=
  mkM (lmap s) (nl s) (chanconn s) (closed s) (nc s) (updp (stat s) c x) (peer s) (chanbuf s) (dial s) (gor s) (crash s) (hist s).
Definition w_peer c x s :=
  mkM (lmap s) (nl s) (chanconn s) (closed s) (nc s) (stat s) (updp (peer s) c x) (chanbuf s) (dial s) (gor s) (crash s) (hist s).
Definition w_chanbuf c x s :=
  mkM (lmap s) (nl s) (chanconn s) (closed s) (nc s) (stat s) (peer s) (updp (chanbuf s) c x) (dial s) (gor s) (crash s) (hist s).
Definition w_dial c x s :=
  mkM (lmap s) (nl s) (chanconn s) (closed s) (nc s) (stat s) (peer s) (chanbuf s) (updp (dial s) c x) (gor s) (crash s) (hist s).
Definition w_gor g x s :=
  mkM (lmap s) (nl s) (chanconn s) (closed s) (nc s) (stat s) (peer s) (chanbuf s) (dial s) (updp (gor s) g x) (crash s) (hist s).
Definition w_crash s :=
  mkM (lmap s) (nl s) (chanconn s) (closed s) (nc s) (stat s) (peer s) (chanbuf s) (dial s) (gor s) true (hist s).

(* The steps of mock.go:29-173. *)
Inductive mlab :=
| MListen (a : name) | MReset | MDial (a : name)
| MTick (c : nat) (expired : bool)   (* the goroutine of Dial for conn c; expired: timeout <= 0 *)
| MAccept (g l : nat) | MCloseL (l : nat)
| MWrite (g c : nat) (b : slice) | MClose (g c : nat) | MRead (c n : nat)
| MGo (g : nat).                     (* goroutine g goes on *)

(* mock.go:29-173, a line or a few at a time *)
Definition mstep (s : mst) (l : mlab) : option mst :=
  if crash s then None else
  match l with
  | MListen a => (* mock.go:29-44 *)
      Some (add (EListen (nl s) a) (w_nl (S (nl s)) (w_lmap (updn (lmap s) (format_addr a) (Some (nl s))) s)))
  | MReset => (* mock.go:85-90 *)
      Some (w_lmap (fun _ => None) s)
  | MDial a => (* mock.go:47-50 *)
      Some (add (EDial (nc s) a) (w_dial (nc s) (DLoop (format_addr a)) (w_nc (S (nc s)) s)))
  | MTick c expired =>
      match dial s c with
      | DNone | DDone => None
      | DLoop a =>
          match stat s c with
          | SNew => (* mock.go:53-62 *)
              match lmap s a with
              | None => Some s
              | Some l => Some (w_dial c (DPush a l) (w_stat c SQueued s))
              end
          | SOpen => Some (w_dial c (DResult a) s)                                  (* 63-64 *)
          | _ => if expired then Some (w_dial c (DGiveUp a) s) else Some s          (* 65, 70-71 *)
          end
      | DPush a l => (* mock.go:61; blocked while the channel is full *)
          match chanconn s l with
          | [] => Some (w_dial c (DLoop a) (w_chanconn l [Some c] s))
          | _ => None
          end
      | DGiveUp a => Some (w_dial c (DResult a) (w_stat c SFailed s))               (* 66 *)
      | DResult a => (* 74-82 *)
          Some (add (EDialed c (match stat s c with SOpen => true | _ => false end)) (w_dial c DDone s))
      end
  | MAccept g l => (* mock.go:104-110; blocked while the channel is empty *)
      match gor s g, chanconn s l with
      | GIdle, None :: q => Some (add (ERefused l) (w_chanconn l q s))
      | GIdle, Some d :: q => Some (w_gor g (GLink l (nc s) d) (w_nc (S (nc s)) (w_chanconn l q s)))
      | _, _ => None
      end
  | MCloseL l => (* mock.go:122-127 *)
      match chanconn s l with
      | [] => Some (add (EClosedL l) (w_closed l (w_chanconn l [None] s)))
      | _ => None
      end
  | MWrite g c b => (* mock.go:160-161,165 *)
      match gor s g with
      | GIdle => if c <? nc s then match peer s c with
                                   | None => Some (add (EWriteErr c) s)
                                   | Some _ => Some (w_gor g (GDeref c b AWrite) s)
                                   end else None
      | _ => None
      end
  | MClose g c => (* mock.go:169-170: c.Write(nil) *)
      match gor s g with
      | GIdle => if c <? nc s then match peer s c with
                                   | None => Some (w_gor g (GNil c) s)
                                   | Some _ => Some (w_gor g (GDeref c None AClose) s)
                                   end else None
      | _ => None
      end
  | MRead c n => (* mock.go:151-158; blocked while the channel is empty *)
      if c <? nc s then
      match chanbuf s c with
      | [] => None
      | b :: q => Some (add (ERead c n (option_map (firstn n) b)) (w_chanbuf c q s))
      end else None
  | MGo g =>
      match gor s g with
      | GIdle => None
      | GDeref c b k => (* mock.go:162: c.peer.chanbuf, a nil dereference when peer is nil now *)
          match peer s c with
          | Some d => Some (w_gor g (GSend c d b k) s)
          | None => Some (w_crash s)
          end
      | GSend c d b k => (* mock.go:162: the send, blocked while the channel is full *)
          match chanbuf s d with
          | [] => Some (add (EWrote c d b)
                         (w_gor g (match k with AWrite => GIdle | AClose => GNil c end) (w_chanbuf d [b] s)))
          | _ => None
          end
      | GNil c => Some (add (EClosed c) (w_gor g GIdle (w_peer c None s)))          (* 171-172 *)
      | GLink l c d => (* 112-114 *)
          Some (add (ELinked l c d) (w_gor g (GStatus l c d) (w_peer d (Some c) (w_peer c (Some d) s))))
      | GStatus l c d => Some (w_gor g (GEnter l c d) (w_stat d SOpen s))           (* 115 *)
      | GEnter l c d => (* 117: a write to a nil map panics *)
          if closed s l then Some (w_crash s) else Some (add (EAccepted l c d) (w_gor g GIdle s))
      end
  end.
