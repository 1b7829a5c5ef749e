(* The steps of the dock model as a relation, one rule per case. *)
From Verif Require Import Lts GoVal Tables DockModel.
From Coq Require Import Arith Bool List ZArith Lia.
Import ListNotations.
Open Scope nat_scope.

Section Tr.
Variable V : Type.
Notation dock := (DockModel.dock V).
Notation label := (DockModel.label V).
Implicit Types d : dock.

Inductive tr (d : dock) : label -> dock -> Prop :=
| t_recv_ready p sl : handlers d p = HIdle -> tr d (LRecv p (KReady sl)) (with_handler p (RNext sl) (adds [ERecv p (KReady sl)] d))
| t_recv_register p sl : handlers d p = HIdle -> tr d (LRecv p (KRegister sl)) (with_handler p (GSend sl) (adds [ERecv p (KRegister sl)] d))
| t_recv_registered p n : handlers d p = HIdle -> tr d (LRecv p (KRegistered n)) (with_handler p (BListen n) (adds [ERecv p (KRegistered n)] d))
| t_recv_address p a : handlers d p = HIdle -> tr d (LRecv p (KAddress a)) (with_handler p (ADial a) (adds [ERecv p (KAddress a)] d))
| t_recv_request p q v : handlers d p = HIdle -> aget (slots d) (q_slot q) = Some v ->
    tr d (LRecv p (KRequest q)) (adds [EServe (length (servers d))] (with_servers (servers d ++ [mkServer p q (SRun)]) (adds [ERecv p (KRequest q)] d)))
| t_recv_response p r c : handlers d p = HIdle -> zget (rpcs d) (p_index r) = Some c ->
    tr d (LRecv p (KResponse r)) (with_callbacks (callbacks d ++ [mkCallback c (p_index r) (returned r) BPut]) (adds [ERecv p (KResponse r)] d))
| t_recv_dropped p k : handlers d p = HIdle ->
    match k with KRequest q => aget (slots d) (q_slot q) = None | KResponse r => zget (rpcs d) (p_index r) = None
    | KError => True | KQuery _ => True | _ => False end ->
    tr d (LRecv p k) (adds [ERecv p k] d)
(* cReady *)
| t_ready_done p : handlers d p = RNext [] -> tr d (HGo p) (with_handler p HIdle d)
| t_ready_slot p f sl : handlers d p = RNext (f :: sl) -> tr d (HGo p) (with_handler p (RIter f sl (map fst (rpcs d))) d)
| t_iter_done p f sl : handlers d p = RIter f sl [] -> tr d (HGo p) (with_handler p (RNext sl) d)
| t_pick_gone p i f sl todo : handlers d p = RIter f sl todo -> zget (rpcs d) i = None -> In i todo ->
    tr d (HPick p i) (with_handler p (RIter f sl (filter (fun k => negb (k =? i)%Z) todo)) d)
| t_pick_sent p i f sl todo c r : handlers d p = RIter f sl todo -> zget (rpcs d) i = Some c -> nth_error (calls d) c = Some r -> c_req r = None ->
    tr d (HPick p i) (with_handler p (RIter f sl (filter (fun k => negb (k =? i)%Z) todo)) d)
| t_pick_unsent p i f sl todo c r q : handlers d p = RIter f sl todo -> zget (rpcs d) i = Some c -> nth_error (calls d) c = Some r -> c_req r = Some q ->
    tr d (HPick p i) (with_handler p (RTested f sl (filter (fun k => negb (k =? i)%Z) todo) c) d)
| t_pick_void p i f sl todo c : handlers d p = RIter f sl todo -> zget (rpcs d) i = Some c -> nth_error (calls d) c = None -> tr d (HPick p i) d
| t_tested_nil p f sl todo c r : handlers d p = RTested f sl todo c -> nth_error (calls d) c = Some r -> c_req r = None ->
    tr d (HGo p) (with_state (Crashed NilRequest) d)
| t_tested_hit p f sl todo c r q : handlers d p = RTested f sl todo c -> nth_error (calls d) c = Some r -> c_req r = Some q -> q_slot q = f ->
    tr d (HGo p) (with_handler p (RCommit f sl todo c) d)
| t_tested_miss p f sl todo c r q : handlers d p = RTested f sl todo c -> nth_error (calls d) c = Some r -> c_req r = Some q -> q_slot q <> f ->
    tr d (HGo p) (with_handler p (RIter f sl todo) d)
| t_tested_void p f sl todo c : handlers d p = RTested f sl todo c -> nth_error (calls d) c = None -> tr d (HGo p) d
| t_hcommit_nil p acc f sl todo c r : handlers d p = RCommit f sl todo c -> nth_error (calls d) c = Some r -> c_req r = None ->
    tr d (HCommit p acc) (with_handler p (RIter f sl todo) (with_state (Crashed NilRequest) d))
| t_hcommit_send p acc f sl todo c r q k : handlers d p = RCommit f sl todo c -> nth_error (calls d) c = Some r -> c_req r = Some q -> remote d (q_slot q) = Some k ->
    tr d (HCommit p acc) (with_handler p (RIter f sl todo) (adds [ECommit c k acc; ESend k (KRequest q) acc] (with_req c None r d)))
| t_hcommit_none p acc f sl todo c r q : handlers d p = RCommit f sl todo c -> nth_error (calls d) c = Some r -> c_req r = Some q -> remote d (q_slot q) = None ->
    sockets d = [] -> tr d (HCommit p acc) (with_handler p (RIter f sl todo) (with_state (Crashed NoSocket) d))
| t_hcommit_query p acc f sl todo c r q k ks : handlers d p = RCommit f sl todo c -> nth_error (calls d) c = Some r -> c_req r = Some q -> remote d (q_slot q) = None ->
    sockets d = k :: ks -> tr d (HCommit p acc) (with_handler p (RIter f sl todo) (adds [EQuery k (q_slot q)] d))
| t_hcommit_void p acc f sl todo c : handlers d p = RCommit f sl todo c -> nth_error (calls d) c = None ->
    tr d (HCommit p acc) (with_handler p (RIter f sl todo) d)
(* cRegisterRequest *)
| t_send_ready p ns acc sl : reorders ns (collected d) = true -> handlers d p = GSend sl ->
    tr d (HSend p ns acc) (adds [ESend p (KReady ns) acc] (with_handler p (GPut sl) d))
| t_put_done p : handlers d p = GPut [] -> tr d (HGo p) (with_handler p HIdle d)
| t_put p f sl : handlers d p = GPut (f :: sl) ->
    tr d (HGo p) (adds [ECached f p] (with_handler p (GPut sl) (with_remote (updn (remote d) f (Some p)) d)))
(* cRegisterResponse *)
| t_listen p n : handlers d p = BListen n -> tr d (HNet p true) (with_handler p (BAppend n) d)
| t_listen_fails p n : handlers d p = BListen n -> tr d (HNet p false) (with_state Exited d)
| t_listening p n : handlers d p = BAppend n -> tr d (HGo p) (with_handler p BSend (open_socket (SListen n) d))
| t_send_hub p ns acc : reorders ns (collected d) = true -> handlers d p = BSend ->
    tr d (HSend p ns acc) (adds [ESend p (KReady ns) acc] (with_handler p BGo d))
| t_go p : handlers d p = BGo -> tr d (HGo p) (with_handler p HIdle (with_starters (starters d ++ [TFresh]) d))
(* cQueryResponse *)
| t_dial p a : handlers d p = ADial a -> tr d (HNet p true) (with_handler p (AAppend a) d)
| t_dial_fails p a : handlers d p = ADial a -> tr d (HNet p false) (with_state Exited d)
| t_dialled p a : handlers d p = AAppend a -> tr d (HGo p) (with_handler p HIdle (open_socket (SDial a) d))
(* OnConnected *)
| t_connected p : tr d (LConnected p) (with_announcers (announcers d ++ [(p, false)]) d)
| t_announce j ns acc p : nth_error (announcers d) j = Some (p, false) -> reorders ns (collected d) = true ->
    tr d (LAnnounce j ns acc) (adds [ESend p (KRegister ns) acc] (with_announcers (set_nth (announcers d) j (p, true)) d))
(* calls *)
| t_local f m args w clock v : aget (slots d) f = Some v -> tr d (LCall f m args w clock) (adds [ELocal f m args w] d)
| t_new f m args w clock : aget (slots d) f = None ->
    tr d (LCall f m args w clock) (adds [ENew (length (calls d)) (mkReq clock f m args w)]
      (with_calls (calls d ++ [mkCall (mkReq clock f m args w) None None false (CPut)]) (with_rpcs (zput (rpcs d) clock (length (calls d))) d)))
| t_set c acc r : nth_error (calls d) c = Some r -> c_pc r = CPut ->
    tr d (CStep c acc) (with_calls (set_nth (calls d) c (mkCall (c_orig r) (Some (c_orig r)) (c_buf r) (c_closed r) (CSet))) d)
| t_ccommit_nil c acc r : nth_error (calls d) c = Some r -> c_pc r = CSet -> c_req r = None ->
    tr d (CStep c acc) (with_pc c (CWait) r (with_state (Crashed NilRequest) d))
| t_ccommit_send c acc r q k : nth_error (calls d) c = Some r -> c_pc r = CSet -> c_req r = Some q -> remote d (q_slot q) = Some k ->
    tr d (CStep c acc) (adds [ECommit c k acc; ESend k (KRequest q) acc]
      (with_calls (set_nth (calls d) c (mkCall (c_orig r) None (c_buf r) (c_closed r) (CWait))) d))
| t_ccommit_none c acc r q : nth_error (calls d) c = Some r -> c_pc r = CSet -> c_req r = Some q -> remote d (q_slot q) = None -> sockets d = [] ->
    tr d (CStep c acc) (with_pc c (CWait) r (with_state (Crashed NoSocket) d))
| t_ccommit_query c acc r q k ks : nth_error (calls d) c = Some r -> c_pc r = CSet -> c_req r = Some q -> remote d (q_slot q) = None -> sockets d = k :: ks ->
    tr d (CStep c acc) (adds [EQuery k (q_slot q)] (with_pc c (CWait) r d))
| t_take c acc r x : nth_error (calls d) c = Some r -> c_pc r = CWait -> c_buf r = Some x ->
    tr d (CStep c acc) (with_calls (set_nth (calls d) c (mkCall (c_orig r) (c_req r) None (c_closed r) (CGot x))) d)
| t_return c acc r x : nth_error (calls d) c = Some r -> c_pc r = CGot x ->
    tr d (CStep c acc) (adds [EReturn c x] (with_calls (set_nth (calls d) c (mkCall (c_orig r) (c_req r) (c_buf r) true (CDone x))) d))
(* serving *)
| t_exec k res err sv : nth_error (servers d) k = Some sv -> s_pc sv = SRun ->
    tr d (SExec k res err) (adds [ERan k res err] (with_servers (set_nth (servers d) k (mkServer (s_peer sv) (s_req sv) (SReply res err))) d))
| t_reply k acc sv res err : nth_error (servers d) k = Some sv -> s_pc sv = SReply res err ->
    tr d (SSend k acc) (adds [EReplied k acc; ESend (s_peer sv) (KResponse (respond (s_req sv) res err)) acc]
      (with_servers (set_nth (servers d) k (mkServer (s_peer sv) (s_req sv) (SDone))) d))
(* responses *)
| t_put_closed b cb r : nth_error (callbacks d) b = Some cb -> b_pc cb = BPut -> nth_error (calls d) (b_call cb) = Some r -> c_closed r = true ->
    tr d (BStep b) (with_state (Crashed ClosedChannel) d)
| t_put_ret b cb r : nth_error (callbacks d) b = Some cb -> b_pc cb = BPut -> nth_error (calls d) (b_call cb) = Some r -> c_closed r = false -> c_buf r = None ->
    tr d (BStep b) (with_callbacks (set_nth (callbacks d) b (mkCallback (b_call cb) (b_index cb) (b_ret cb) BDelete))
      (with_calls (set_nth (calls d) (b_call cb) (mkCall (c_orig r) (c_req r) (Some (b_ret cb)) false (c_pc r))) d))
| t_delete b cb : nth_error (callbacks d) b = Some cb -> b_pc cb = BDelete ->
    tr d (BStep b) (with_callbacks (set_nth (callbacks d) b (mkCallback (b_call cb) (b_index cb) (b_ret cb) BDone)) (with_rpcs (zdel (rpcs d) (b_index cb)) d))
(* life cycle *)
| t_begin j : nth_error (starters d) j = Some TFresh -> tr d (TBegin j) (with_starters (set_nth (starters d) j (TRun (map fst (slots d)))) d)
| t_start j f todo rest : nth_error (starters d) j = Some (TRun todo) -> takeout f todo = Some rest ->
    tr d (TStart j f) (adds [EStart j f] (with_starters (set_nth (starters d) j (TRun rest)) d))
| t_run_dial : runner d = NDial -> tr d (LDial true) (with_runner NAppend d)
| t_run_fails : runner d = NDial -> tr d (LDial false) (with_state Exited d)
| t_run : runner d = NAppend -> tr d (LRun) (with_runner NDone (open_socket SHub d))
| t_close : closer d = KIdle -> tr d (LClose) (with_closer (KDestroy (map fst (slots d))) d)
| t_destroy f todo rest : closer d = KDestroy todo -> takeout f todo = Some rest -> tr d (LDestroy f) (adds [EDestroy f] (with_closer (KDestroy rest) d))
| t_clear : closer d = KDestroy [] -> tr d (KStep) (adds [ECleared] (with_closer (KSock (length (sockets d))) (with_slots [] d)))
| t_sock n k : closer d = KSock (S n) -> nth_error (sockets d) n = Some k -> tr d (KStep) (adds [ESockClosed k] (with_closer (KSock n) d))
| t_closed : closer d = KSock 0 -> tr d (KStep) (adds [EClosed] (with_closer KIdle (with_sockets [] d))).

Lemma dstep_tr d l d' : dstep d l = Some d' -> state d = Alive /\ tr d l d'.
Proof.
  intros H. unfold dstep in H. destruct (state d) eqn:Es; try discriminate. split; [reflexivity|].
  destruct l.
  - destruct (handlers d p) eqn:Eh; try discriminate. injection H as <-. destruct k; try (constructor; auto; fail).
    + destruct (aget (slots d) (q_slot q)) eqn:Ea; [eapply t_recv_request; eauto|apply t_recv_dropped; auto].
    + destruct (zget (rpcs d) (p_index r)) eqn:Ea; [eapply t_recv_response; eauto|apply t_recv_dropped; auto].
  - destruct (handlers d p) as [|[|]|? ? [|]| | | |[|]| | | | | |] eqn:Eh; try discriminate; injection H as <-; try (econstructor; eauto; fail).
    unfold at_call. destruct (nth_error (calls d) c) eqn:Ec; [|eapply t_tested_void; eauto].
    destruct (c_req c0) as [q|] eqn:Eq; [|eapply t_tested_nil; eauto].
    destruct (zlist_eqb_spec (q_slot q) f); [eapply t_tested_hit|eapply t_tested_miss]; eauto.
  - destruct (handlers d p) eqn:Eh; try discriminate. destruct (zget (rpcs d) i) as [c|] eqn:Ez.
    + injection H as <-. unfold at_call. destruct (nth_error (calls d) c) eqn:Ec; [|eapply t_pick_void; eauto].
      destruct (c_req c0) as [q|] eqn:Eq; [eapply t_pick_unsent|eapply t_pick_sent]; eauto.
    + destruct (existsb (Z.eqb i) todo) eqn:Ex; [|discriminate]. injection H as <-. apply existsb_exists in Ex as (x & Hx & E).
      apply Z.eqb_eq in E. subst. eapply t_pick_gone; eauto.
  - destruct (handlers d p) eqn:Eh; try discriminate. injection H as <-. unfold commit, at_call.
    destruct (nth_error (calls d) c) eqn:Ec; [|eapply t_hcommit_void; eauto].
    destruct (c_req c0) as [q|] eqn:Eq; [|eapply t_hcommit_nil; eauto].
    destruct (remote d (q_slot q)) eqn:Er; [eapply t_hcommit_send; eauto|].
    destruct (sockets d) eqn:Ek; [eapply t_hcommit_none|eapply t_hcommit_query]; eauto.
  - destruct (reorders ns (collected d)) eqn:Er; [|discriminate]. destruct (handlers d p) eqn:Eh; try discriminate; injection H as <-; econstructor; eauto.
  - destruct (handlers d p) eqn:Eh; try discriminate; injection H as <-; destruct ok; [eapply t_listen|eapply t_listen_fails|eapply t_dial|eapply t_dial_fails]; eauto.
  - injection H as <-. constructor.
  - destruct (nth_error (announcers d) j) as [[p []]|] eqn:Ea; try discriminate. destruct (reorders ns (collected d)) eqn:Er; [|discriminate].
    injection H as <-. constructor; auto.
  - destruct (aget (slots d) f) eqn:Ea; injection H as <-; [eapply t_local; eauto|apply t_new; auto].
  - destruct (nth_error (calls d) c) as [r|] eqn:Ec; [|discriminate]. destruct (c_pc r) eqn:Ep; try discriminate.
    + injection H as <-. apply t_set; auto.
    + injection H as <-. destruct (c_req r) as [q|] eqn:Eq.
      2: { replace (commit c accepted d) with (with_state (Crashed NilRequest) d) by (unfold commit, at_call; rewrite Ec, Eq; reflexivity).
           unfold at_call. cbn [calls with_state]. rewrite Ec. eapply t_ccommit_nil; eauto. }
      destruct (remote d (q_slot q)) as [k|] eqn:Er.
      * replace (commit c accepted d) with (adds [ECommit c k accepted; ESend k (KRequest q) accepted] (with_req c None r d))
          by (unfold commit, at_call; rewrite Ec, Eq, Er; reflexivity).
        unfold at_call. cbn [calls adds with_req with_calls]. rewrite set_nth_same by (eapply nth_lt; eauto).
        unfold with_pc, adds, with_calls; cbn. rewrite set_nth_twice. eapply t_ccommit_send; eauto.
      * destruct (sockets d) as [|k ks] eqn:Ek.
        -- replace (commit c accepted d) with (with_state (Crashed NoSocket) d) by (unfold commit, at_call; rewrite Ec, Eq, Er, Ek; reflexivity).
           unfold at_call. cbn [calls with_state]. rewrite Ec. eapply t_ccommit_none; eauto.
        -- replace (commit c accepted d) with (adds [EQuery k (q_slot q)] d) by (unfold commit, at_call; rewrite Ec, Eq, Er, Ek; reflexivity).
           unfold at_call. cbn [calls adds]. rewrite Ec. eapply (t_ccommit_query d c accepted r q); eauto.
    + destruct (c_buf r) eqn:Eb; [|discriminate]. injection H as <-. eapply t_take; eauto.
    + injection H as <-. eapply t_return; eauto.
  - destruct (nth_error (servers d) k) eqn:Ek; [|discriminate]. destruct (s_pc s) eqn:Ep; try discriminate. injection H as <-. econstructor; eauto.
  - destruct (nth_error (servers d) k) eqn:Ek; [|discriminate]. destruct (s_pc s) eqn:Ep; try discriminate. injection H as <-. econstructor; eauto.
  - destruct (nth_error (callbacks d) b) eqn:Eb; [|discriminate]. destruct (b_pc c) eqn:Ep; try discriminate.
    + destruct (nth_error (calls d) (b_call c)) eqn:Ec; [|discriminate]. destruct (c_closed c0) eqn:El; [injection H as <-; eapply t_put_closed; eauto|].
      destruct (c_buf c0) eqn:Ebu; [discriminate|]. injection H as <-. eapply t_put_ret; eauto.
    + injection H as <-. eapply t_delete; eauto.
  - destruct (nth_error (starters d) j) as [[|]|] eqn:Ej; try discriminate. injection H as <-. constructor; auto.
  - destruct (nth_error (starters d) j) as [[|]|] eqn:Ej; try discriminate. destruct (takeout f todo) eqn:Et; [|discriminate]. injection H as <-. econstructor; eauto.
  - destruct (runner d) eqn:Er; try discriminate. injection H as <-. destruct ok; constructor; auto.
  - destruct (runner d) eqn:Er; try discriminate. injection H as <-. constructor; auto.
  - destruct (closer d) eqn:Ek; try discriminate. injection H as <-. constructor; auto.
  - destruct (closer d) eqn:Ek; try discriminate. destruct (takeout f todo) eqn:Et; [|discriminate]. injection H as <-. econstructor; eauto.
  - destruct (closer d) as [|[|]|[|n]] eqn:Ek; try discriminate.
    + injection H as <-. constructor; auto.
    + injection H as <-. constructor; auto.
    + destruct (nth_error (sockets d) n) eqn:En; [|discriminate]. injection H as <-. econstructor; eauto.
Qed.
End Tr.
