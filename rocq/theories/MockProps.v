(* C51: the mock network. *)
From Verif Require Import MockModel MockSpec MockProof MockProof2 MockProof3.
From Coq Require Import Arith List ZArith Lia.
Import ListNotations.
Open Scope nat_scope.

(* A schedule for the examples: listener 0 at "a:1", conn 0 dials "b:1", Accept makes conn
   1, both calls return. *)
Definition at_a : name := [97; 58; 49]%Z.
Definition at_b : name := [98; 58; 49]%Z.
Definition connect : list mlab :=
  [MListen at_a; MDial at_b; MTick 0 false; MTick 0 false; MAccept 0 0; MGo 0; MGo 0; MGo 0; MTick 0 false; MTick 0 false].
Definition write (g c : nat) (b : slice) : list mlab := [MWrite g c b; MGo g; MGo g].
Definition talk : list mlab :=
  connect ++ write 0 0 (Some [1; 2; 3]%Z) ++ [MRead 1 2] ++ write 0 0 (Some [4]%Z) ++ [MRead 1 2] ++ write 1 1 (Some [9]%Z) ++
  [MClose 0 0; MGo 0; MGo 0; MGo 0].
Definition connected : list mev := [EListen 0 at_a; EDial 0 at_b; ELinked 0 1 0; EAccepted 0 1 0; EDialed 0 true].
Definition talked : list mev := connected ++
  [EWrote 0 1 (Some [1; 2; 3]%Z); ERead 1 2 (Some [1; 2]%Z); EWrote 0 1 (Some [4]%Z); ERead 1 2 (Some [4]%Z);
   EWrote 1 0 (Some [9]%Z); EWrote 0 1 None; EClosed 0].

Definition hist_of (ls : list mlab) : option (list mev * bool) := option_map (fun s => (hist s, crash s)) (mexec ls).

(* What is written on one end is read on the other, in order, each Write by one Read, with
   at most one Write waiting; a Read returns as much of its Write as its buffer holds. *)
Theorem C51_delivery : forall ls s c d, mexec ls = Some s -> ends (hist s) c d ->
  exists taken rest, sent c (hist s) = taken ++ rest /\ Forall2 read_of taken (reads d (hist s)) /\ length rest <= 1.
Proof. exact connection_delivers. Qed.
Print Assumptions C51_delivery.
Example C51_delivery_ex : hist_of talk = Some (talked, false) /\ ends talked 0 1 /\
  sent 0 talked = [Some [1; 2; 3]; Some [4]; None]%Z /\ reads 1 talked = [(2, Some [1; 2]%Z); (2, Some [4]%Z)].
Proof. split; [vm_compute; reflexivity|]. split; [|vm_compute; auto]. exists 0. right. cbn. auto. Qed.

(* Writes no larger than the buffers arrive unchanged. *)
Theorem C51_whole : forall ls s c d, mexec ls = Some s -> ends (hist s) c d ->
  (forall b n r, In (Some b) (sent c (hist s)) -> In (n, r) (reads d (hist s)) -> length b <= n) ->
  exists rest, sent c (hist s) = map snd (reads d (hist s)) ++ rest /\ length rest <= 1.
Proof. exact delivered_whole. Qed.
Print Assumptions C51_whole.
Definition C51_talk : list mlab := connect ++ write 0 0 (Some [1; 2]%Z) ++ [MRead 1 2] ++ write 0 0 (Some [4]%Z).
Example C51_whole_ex : exists h, hist_of C51_talk = Some (h, false) /\ ends h 0 1 /\
  (forall b n r, In (Some b) (sent 0 h) -> In (n, r) (reads 1 h) -> length b <= n) /\
  sent 0 h = [Some [1; 2]; Some [4]]%Z /\ map snd (reads 1 h) = [Some [1; 2]]%Z.
Proof.
  eexists. split; [vm_compute; reflexivity|]. repeat split; [exists 0; right; cbn; auto 10|].
  intros b n r Hb [Hn|[]]. injection Hn as <- <-. destruct Hb as [Hb|[Hb|[]]]; injection Hb as <-; cbn; lia.
Qed.

(* A larger Write loses its tail although it returned without error. *)
Theorem C51_long_write_refuted : ~ (forall ls s c d, mexec ls = Some s -> ends (hist s) c d ->
  exists rest, sent c (hist s) = map snd (reads d (hist s)) ++ rest).
Proof.
  intros H. concrete mstep minit (connect ++ write 0 0 (Some [1; 2; 3]%Z) ++ [MRead 1 2]) s E.
  destruct (H _ _ 0 1 E) as [rest X]; vm_compute in E; injection E as <-; [exists 0; right; cbn; auto|].
  vm_compute in X. discriminate.
Qed.
Print Assumptions C51_long_write_refuted.

(* No conn is an end of two connections, and nothing is sent outside a connection. *)
Theorem C51_one_connection : forall ls s l c d l' c' d', mexec ls = Some s ->
  In (ELinked l c d) (hist s) -> In (ELinked l' c' d') (hist s) ->
  c = c' \/ d = d' \/ c = d' \/ d = c' -> l = l' /\ c = c' /\ d = d'.
Proof. exact connection_unique. Qed.
Print Assumptions C51_one_connection.
Theorem C51_private : forall ls s c d b, mexec ls = Some s -> In (EWrote c d b) (hist s) -> ends (hist s) c d.
Proof. exact writes_on_connections. Qed.
Print Assumptions C51_private.
Example C51_private_ex : exists h, hist_of
    (connect ++ [MDial at_b; MTick 2 false; MTick 2 false; MAccept 0 0; MGo 0; MGo 0; MGo 0] ++ write 0 3 (Some [7]%Z)) = Some (h, false) /\
  In (ELinked 0 1 0) h /\ In (ELinked 0 3 2) h /\ In (EWrote 3 2 (Some [7]%Z)) h.
Proof. eexists. split; [vm_compute; reflexivity|]. cbn. auto 20. Qed.

(* Listen and Dial meet exactly when the addresses agree after the last ':'. *)
Theorem C51_addresses : forall a b, format_addr a = format_addr b <-> same_port a b.
Proof. exact format_iff. Qed.
Print Assumptions C51_addresses.
Example C51_addresses_ex : format_addr at_a = format_addr at_b /\ at_a <> at_b /\ ~ same_port at_a [97; 58; 50]%Z.
Proof. split; [vm_compute; reflexivity|]. split; [discriminate|]. rewrite <- format_iff. vm_compute. discriminate. Qed.

(* Dial returns, with a connection or an error, only if somebody listened on the port (so
   without a listener it never returns); on success its conn is linked to one accepted
   from a listener on that port. *)
Theorem C51_dial : forall ls s d r, mexec ls = Some s -> In (EDialed d r) (hist s) ->
  exists a b l, In (EDial d a) (hist s) /\ In (EListen l b) (hist s) /\ same_port a b /\
  (r = true -> exists l' c b', In (ELinked l' c d) (hist s) /\ In (EListen l' b') (hist s) /\ same_port a b').
Proof. exact dial_result. Qed.
Print Assumptions C51_dial.
Example C51_dial_ex : hist_of connect = Some (connected, false) /\ In (EDialed 0 true) connected /\
  (* without a listener: 1000 turns, time up, and still waiting *)
  hist_of (MDial at_b :: repeat (MTick 0 true) 1000) = Some ([EDial 0 at_b], false).
Proof. split; [vm_compute; reflexivity|]. split; [cbn; auto 10|vm_compute; reflexivity]. Qed.
Theorem C51_accept : forall ls s l c d, mexec ls = Some s -> In (EAccepted l c d) (hist s) ->
  In (ELinked l c d) (hist s) /\ exists a b, In (EDial d a) (hist s) /\ In (EListen l b) (hist s) /\ same_port a b.
Proof. exact accepted_is_linked. Qed.
Print Assumptions C51_accept.
Example C51_accept_ex : hist_of connect = Some (connected, false) /\ In (EAccepted 0 1 0) connected.
Proof. split; [vm_compute; reflexivity|cbn; auto]. Qed.

(* The timeout of Dial is no timeout without a listener. *)
Theorem C51_dial_times_out_refuted : ~ (forall ls s d a, mexec ls = Some s -> crash s = false -> dial s d = DLoop a ->
  exists k s', exec mstep s (repeat (MTick d true) k) = Some s' /\ dial s' d = DDone).
Proof.
  intros H. concrete mstep minit [MDial at_b] s E.
  destruct (H _ _ 0 (format_addr at_b) E) as (k & s' & X & D); try (vm_compute in E; injection E as <-; reflexivity).
  assert (N : forall k, exec mstep s (repeat (MTick 0 true) k) = Some s).
  { injection E as <-. clear. induction k; auto. }
  rewrite N in X. injection X as <-. vm_compute in E. injection E as <-. discriminate.
Qed.
Print Assumptions C51_dial_times_out_refuted.
(* With one it is: a Dial that has handed its conn over returns. *)
Theorem C51_dial_returns : forall ls s d a, mexec ls = Some s -> crash s = false -> dial s d = DLoop a -> stat s d <> SNew ->
  exists k s', k <= 3 /\ exec mstep s (repeat (MTick d true) k) = Some s' /\ dial s' d = DDone /\
    exists r, hist s' = hist s ++ [EDialed d r].
Proof. exact dial_returns. Qed.
Print Assumptions C51_dial_returns.
Theorem C51_dial_offers : forall s d a l, crash s = false -> dial s d = DLoop a -> stat s d = SNew ->
  lmap s a = Some l -> chanconn s l = [] ->
  forall e, exists s', exec mstep s [MTick d e; MTick d e] = Some s' /\
    dial s' d = DLoop a /\ stat s' d = SQueued /\ chanconn s' l = [Some d].
Proof. exact dial_offers. Qed.
Print Assumptions C51_dial_offers.
(* The listener a Dial finds is the last one made for its port since the last Reset; *)
Theorem C51_dial_reaches : forall ls s d b l, mexec ls = Some s -> crash s = false -> dial s d = DLoop (format_addr b) -> stat s d = SNew ->
  listening ls b l -> chanconn s l = [] ->
  forall e, exists s', exec mstep s [MTick d e; MTick d e] = Some s' /\ dial s' d = DLoop (format_addr b) /\ stat s' d = SQueued /\ chanconn s' l = [Some d].
Proof. exact dial_reaches. Qed.
Print Assumptions C51_dial_reaches.
Example C51_dial_reaches_ex : exists s, mexec [MListen at_a; MReset; MListen at_b; MDial at_a] = Some s /\ crash s = false /\ dial s 0 = DLoop (format_addr at_a) /\ stat s 0 = SNew /\
  listening [MListen at_a; MReset; MListen at_b; MDial at_a] at_a 1 /\ chanconn s 1 = [].
Proof.
  eexists. split; [vm_compute; reflexivity|]. repeat (split; [vm_compute; reflexivity|]). split; [|reflexivity].
  exists [MListen at_a; MReset], at_b, [MDial at_a]. split; [reflexivity|]. split; [apply format_iff; vm_compute; reflexivity|]. split; [reflexivity|]. split; [intros [X|[]]; discriminate|]. intros b' [X|[]]; discriminate.
Qed.
(* no Dial made after a Reset is linked to a listener made before it. *)
Theorem C51_after_reset : forall ls1 s1 ls2 s l c d, mexec ls1 = Some s1 -> exec mstep s1 (MReset :: ls2) = Some s ->
  l < nl s1 -> nc s1 <= d -> ~ In (ELinked l c d) (hist s).
Proof. exact after_reset. Qed.
Print Assumptions C51_after_reset.
Example C51_after_reset_ex : exists s1 s, mexec [MListen at_a; MDial at_b; MTick 0 false; MTick 0 false] = Some s1 /\ nl s1 = 1 /\ nc s1 = 1 /\
  exec mstep s1 (MReset :: [MListen at_b; MAccept 0 0; MGo 0; MDial at_a; MTick 2 false; MTick 2 false; MAccept 1 1; MGo 1]) = Some s /\
  In (ELinked 0 1 0) (hist s) /\ In (ELinked 1 3 2) (hist s).
Proof. eexists. eexists. split; [vm_compute; reflexivity|]. do 2 (split; [reflexivity|]). split; [vm_compute; reflexivity|]. cbn. auto 10. Qed.
Theorem C51_accept_succeeds : forall ls s g l d a, mexec ls = Some s -> crash s = false -> closed s l = false ->
  chanconn s l = [Some d] -> gor s g = GIdle -> dial s d = DLoop a ->
  exists s', exec mstep s [MAccept g l; MGo g; MGo g; MGo g; MTick d false; MTick d false] = Some s' /\
    exists c, In (EAccepted l c d) (hist s') /\ In (EDialed d true) (hist s') /\ peer s' c = Some d /\ peer s' d = Some c.
Proof. exact accept_succeeds. Qed.
Print Assumptions C51_accept_succeeds.
Example C51_accept_succeeds_ex : exists s s2, mexec [MListen at_a; MDial at_b] = Some s /\ dial s 0 = DLoop (format_addr at_b) /\
  stat s 0 = SNew /\ lmap s (format_addr at_b) = Some 0 /\ chanconn s 0 = [] /\
  exec mstep s [MTick 0 false; MTick 0 false] = Some s2 /\ crash s2 = false /\ closed s2 0 = false /\
  chanconn s2 0 = [Some 0] /\ gor s2 0 = GIdle /\ dial s2 0 = DLoop (format_addr at_b) /\ stat s2 0 = SQueued.
Proof.
  eexists. eexists. split; [vm_compute; reflexivity|]. do 4 (split; [vm_compute; reflexivity|]).
  split; [vm_compute; reflexivity|]. repeat (split; [vm_compute; reflexivity|]). vm_compute. reflexivity.
Qed.

(* Dial may report failure for a connection that the other side then holds. *)
Theorem C51_failed_dial_refuted : ~ (forall ls s d, mexec ls = Some s -> In (EDialed d false) (hist s) ->
  forall l c, ~ In (EAccepted l c d) (hist s)).
Proof.
  intros H. concrete mstep minit [MListen at_a; MDial at_b; MTick 0 false; MTick 0 false; MTick 0 true; MTick 0 true; MTick 0 true;
    MAccept 0 0; MGo 0; MGo 0; MGo 0] s E.
  apply (H _ _ 0 E) with (l := 0) (c := 1); vm_compute in E; injection E as <-; cbn; auto 10.
Qed.
Print Assumptions C51_failed_dial_refuted.

(* Single calls on an open connection whose writes have all been read. *)
Theorem C51_write : forall ls s g c d b, mexec ls = Some s -> crash s = false -> gor s g = GIdle ->
  ends (hist s) c d -> ~ In (EClosed c) (hist s) -> length (sent c (hist s)) = length (reads d (hist s)) ->
  exists s', exec mstep s [MWrite g c b; MGo g; MGo g] = Some s' /\ hist s' = hist s ++ [EWrote c d b] /\ gor s' g = GIdle /\
    crash s' = false.
Proof. exact write_works. Qed.
Print Assumptions C51_write.
Theorem C51_close : forall ls s g c d, mexec ls = Some s -> crash s = false -> gor s g = GIdle ->
  ends (hist s) c d -> ~ In (EClosed c) (hist s) -> length (sent c (hist s)) = length (reads d (hist s)) ->
  exists s', exec mstep s [MClose g c; MGo g; MGo g; MGo g] = Some s' /\
    hist s' = hist s ++ [EWrote c d None; EClosed c] /\ gor s' g = GIdle /\ crash s' = false.
Proof. exact close_works. Qed.
Print Assumptions C51_close.
(* After it, Write fails. *)
Theorem C51_write_after_close : forall ls s g c d b, mexec ls = Some s -> crash s = false -> gor s g = GIdle ->
  ends (hist s) c d -> ~ In (EClosed c) (hist s) -> length (sent c (hist s)) = length (reads d (hist s)) ->
  exists s', exec mstep s [MClose g c; MGo g; MGo g; MGo g; MWrite g c b] = Some s' /\
    hist s' = hist s ++ [EWrote c d None; EClosed c; EWriteErr c] /\ gor s' g = GIdle /\ crash s' = false.
Proof. exact write_after_close. Qed.
Print Assumptions C51_write_after_close.
Example C51_close_ex : exists s, mexec (connect ++ write 0 0 (Some [1]%Z) ++ [MRead 1 5]) = Some s /\ crash s = false /\ gor s 0 = GIdle /\
  ends (hist s) 0 1 /\ ~ In (EClosed 0) (hist s) /\ length (sent 0 (hist s)) = 1 /\ length (reads 1 (hist s)) = 1.
Proof.
  eexists. split; [vm_compute; reflexivity|]. repeat split; [exists 0; right; cbn; auto|].
  cbn. intuition discriminate.
Qed.
(* A Read returns exactly when something written is unread. *)
Theorem C51_read : forall ls s c d n, mexec ls = Some s -> crash s = false -> ends (hist s) c d ->
  length (reads d (hist s)) < length (sent c (hist s)) <->
  exists s' r, mstep s (MRead d n) = Some s' /\ hist s' = hist s ++ [ERead d n r].
Proof. exact read_works. Qed.
Print Assumptions C51_read.
Example C51_read_ex : exists s, mexec (connect ++ write 0 0 (Some [1]%Z)) = Some s /\ crash s = false /\ ends (hist s) 0 1 /\
  length (reads 1 (hist s)) < length (sent 0 (hist s)).
Proof. eexists. split; [vm_compute; reflexivity|]. repeat split; [exists 0; right; cbn; auto|cbn; lia]. Qed.
(* A Write waiting for room gets it with the next Read. *)
Theorem C51_blocked_write : forall ls s g c d b k, mexec ls = Some s -> crash s = false -> gor s g = GSend c d b k ->
  (exists s', mstep s (MGo g) = Some s' /\ In (EWrote c d b) (hist s')) \/
  (forall n, exists s1 s2, mstep s (MRead d n) = Some s1 /\ mstep s1 (MGo g) = Some s2 /\ In (EWrote c d b) (hist s2)).
Proof. exact blocked_write. Qed.
Print Assumptions C51_blocked_write.
Example C51_blocked_write_ex : exists s, mexec (connect ++ write 0 0 (Some [1]%Z) ++ [MWrite 0 0 (Some [2]%Z); MGo 0]) = Some s /\
  crash s = false /\ gor s 0 = GSend 0 1 (Some [2]%Z) AWrite /\ mstep s (MGo 0) = None.
Proof. eexists. split; [vm_compute; reflexivity|]. repeat split; vm_compute; reflexivity. Qed.
(* "Conn is nil!" only after the conn's own Close. *)
Theorem C51_write_error : forall ls s g c b s' d, mexec ls = Some s -> mstep s (MWrite g c b) = Some s' ->
  hist s' = hist s ++ [EWriteErr c] -> ends (hist s) c d -> In (EClosed c) (hist s).
Proof. exact write_error. Qed.
Print Assumptions C51_write_error.
Example C51_write_error_ex : hist_of (talk ++ [MWrite 0 0 (Some [5]%Z)]) = Some (talked ++ [EWriteErr 0], false) /\
  (* the other end may go on writing without error into the closed connection *)
  hist_of (talk ++ [MRead 0 9] ++ write 1 1 (Some [5]%Z)) = Some (talked ++ [ERead 0 9 (Some [9]%Z); EWrote 1 0 (Some [5]%Z)], false).
Proof. split; vm_compute; reflexivity. Qed.

(* Panics need a Close of a conn or a listener... *)
Theorem C51_panic : forall ls s, mexec ls = Some s -> crash s = true ->
  (exists c, In (EClosed c) (hist s)) \/ (exists l, In (EClosedL l) (hist s)).
Proof. exact crash_cause. Qed.
Print Assumptions C51_panic.
Example C51_panic_ex :
  hist_of (connect ++ [MWrite 0 0 (Some [1]%Z); MClose 1 0; MGo 1; MGo 1; MGo 1; MGo 0]) =
    Some (connected ++ [EWrote 0 1 None; EClosed 0], true).
Proof. vm_compute. reflexivity. Qed.
(* ...and do occur: Close during a Write of the same conn, Close of a listener during its
   Accept, and Accept once more after "Listener closed!", since Dial still finds the
   listener. *)
Theorem C51_no_panic_refuted :
  ~ (forall ls s, mexec ls = Some s -> (forall l, ~ In (EClosedL l) (hist s)) -> crash s = false) /\
  ~ (forall ls s, mexec ls = Some s -> (forall c, ~ In (EClosed c) (hist s)) -> crash s = false) /\
  ~ (forall ls s, mexec ls = Some s -> (forall l, In (EClosedL l) (hist s) -> In (ERefused l) (hist s)) ->
     (forall c, ~ In (EClosed c) (hist s)) -> crash s = false).
Proof.
  repeat split; intros H.
  - concrete mstep minit (connect ++ [MWrite 0 0 (Some [1]%Z); MClose 1 0; MGo 1; MGo 1; MGo 1; MGo 0]) s E.
    assert (X : crash s = false); [|vm_compute in E; injection E as <-; discriminate].
    apply (H _ _ E). vm_compute in E. injection E as <-. cbn. intros l K. intuition discriminate.
  - concrete mstep minit [MListen at_a; MDial at_b; MTick 0 false; MTick 0 false; MAccept 0 0; MGo 0; MGo 0; MCloseL 0; MGo 0] s E.
    assert (X : crash s = false); [|vm_compute in E; injection E as <-; discriminate].
    apply (H _ _ E). vm_compute in E. injection E as <-. cbn. intros l K. intuition discriminate.
  - concrete mstep minit [MListen at_a; MCloseL 0; MAccept 0 0; MDial at_b; MTick 0 false; MTick 0 false; MAccept 0 0; MGo 0; MGo 0; MGo 0] s E.
    assert (X : crash s = false); [|vm_compute in E; injection E as <-; discriminate].
    apply (H _ _ E); vm_compute in E; injection E as <-; cbn; intros l K.
    + assert (l = 0) as -> by intuition congruence. auto.
    + intuition discriminate.
Qed.
Print Assumptions C51_no_panic_refuted.
