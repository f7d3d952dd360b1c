(** C87: a client and a server of this library understand each other, whatever they say. *)
From Verif Require Import Bytes Frame World WebSocket AsyncWebSocket SpecFrame SpecSend SpecListen SpecApi SpecAsync SpecReply SpecThreads SpecAccept SpecEndToEnd
  ProofSend ProofApi ProofProps PropAccept Lifecycle Server SpecServer PropServer ThreadServer SpecThreadServer.
From Verif Require PropThreadServer2.
From Coq Require Import Lia.
Local Open Scope N_scope.
Local Arguments takeN : simpl never.
Local Arguments dropN : simpl never.
Local Arguments lenN : simpl never.

Lemma carried_frames w ops X : carried w ops X -> frames_for ops (bytes_of X) /\ Forall (fun op => lenN (req_payload op) < 2 ^ 63) ops.
Proof.
  intros (Hh & Hf & _ & w' & Es & Ho). destruct (send_all_healthy ops w _ w' Hh Hf Es) as (_ & _ & _ & kops & <- & _ & Hout).
  rewrite Hout in Ho. apply app_inv_head in Ho. rewrite <- Ho. split; [apply frames_for_sent|eapply fits_63; exact Hf].
Qed.
Lemma carried_reading w ops X : carried w ops X -> stream_reading false (bytes_of X) = told_of ops /\
  (match stream_ending false (bytes_of X) with Closed _ | Rejected _ => true | _ => false end) = finishes ops.
Proof.
  intros H. apply carried_frames in H. destruct H as [H1 H2]. destruct (understood_reading ops false (bytes_of X) H2 H1) as [R1 R2].
  split; [exact R1|]. unfold finishes. destruct (snd (understood false ops)); cbn [ends_as] in R2.
  - now rewrite R2.
  - destruct R2 as (b & -> & _). reflexivity.
  - destruct R2 as (k & b & -> & _). reflexivity.
Qed.
Lemma frames_of_for m rnd pos ops : frames_for ops (frames_of m rnd pos ops).
Proof. revert pos. induction ops as [|op r IH]; intros pos; cbn [frames_of]; constructor. apply IH. Qed.
Lemma listens_told ops b react w l new : frames_for ops b -> Forall (fun op => lenN (req_payload op) < 2 ^ 63) ops -> listens_to b react w l new ->
  transcript new = told_of ops /\ Forall (fun e => fst e = l) new.
Proof.
  intros Hf Hl ((A1 & A2 & A3 & A4 & A5 & A6) & Ho & Hs & <- & o & w' & E & Hn).
  destruct (listen_exact react w o w' A1 A2 A3 A4 A5 A6 E) as (new' & H1 & H2 & H3 & _).
  rewrite H1 in Hn. apply app_inv_head in Hn. subst new'. unfold seen in H3. rewrite Hs in H3. change (opn_of w) with (open_of (w_sock w)) in H3. rewrite Ho in H3.
  destruct (understood_reading ops false _ Hl Hf) as [R1 _]. split; [rewrite H3; exact R1|].
  eapply Forall_impl; [|exact H2]. intros e He. cbn in He. rewrite Hs in He. congruence.
Qed.

Lemma polite_small cs : Forall polite_cmd cs -> Forall (fun op => lenN (req_payload op) < 2 ^ 63) (sends_of cs).
Proof.
  induction 1 as [|c cs Hc _ IH]; cbn [sends_of]; [constructor|].
  destruct c; cbn in Hc; try contradiction; try exact IH; constructor; try exact IH; cbn; lia.
Qed.
Lemma harmless_small cs : Forall harmless_cmd cs -> Forall (fun op => lenN (req_payload op) < 2 ^ 63) (sends_of cs).
Proof.
  induction 1 as [|c cs Hc _ IH]; cbn [sends_of]; [constructor|].
  destruct c; cbn in Hc; try contradiction; try exact IH; constructor; try exact IH; cbn; lia.
Qed.
Lemma replies_small react : polite_react react -> forall new log, Forall (fun op => lenN (req_payload op) < 2 ^ 63) (replies react log new).
Proof. intros H. induction new as [|e new IH]; intros log; cbn [replies]; [constructor|]. apply Forall_app. split; [apply polite_small, H|apply IH]. Qed.

(** A client (masking or not) makes the sending calls [ops] on a connection served by a ConnectionHandler among any other connections, and
    listens to the answers. The server's listener is told exactly what those calls mean ([told_of]), the socket is destroyed exactly if they end
    the connection, and the client's listener is told exactly what the sends of the server's code mean. *)
Theorem C87_threaded_server : forall setup farewell react ws before i p a1 a2 s client ops reactc wc lc newc l,
  w_log (ws i) = [] -> w_in (ws i) = [] -> w_out (ws i) = [] -> healthy (w_wr (ws i)) ->
  bno_conn i before -> bno_conn i (a1 ++ BRun i :: a2) -> barrived i a2 = [] ->
  let evs := before ++ BConn i p true :: a1 ++ BRun i :: a2 in let L := binstance before in
  carried client ops (barrived i evs) ->
  Forall harmless_cmd (hello setup L p) -> Forall harmless_cmd (bye farewell L) -> after_cmds None (hello setup L p) = Some l ->
  polite_react (react i) -> never_stops (react i) ->
  brun setup farewell react evs (bserver_init ws) = BOk s ->
  listens_to (bsent_to i s) reactc wc lc newc ->
  exists log,
    bview i s = created L p ++ NListen :: called log ++ (if finishes ops then destroyed L else []) /\
    transcript log = told_of ops /\ Forall (fun e => fst e = l) log /\
    transcript newc = told_of (sends_of (hello setup L p) ++ replies (react i) [] log ++ (if finishes ops then sends_of (bye farewell L) else [])) /\
    Forall (fun e => fst e = lc) newc.
Proof.
  intros setup farewell react ws before i p a1 a2 s client ops reactc wc lc newc l H1 H2 H3 H4 H5 H6 H7 evs L Hc Hh Hb Ha Hp Hn E Hl.
  destruct (carried_reading _ _ _ Hc) as [R1 R2].
  destruct (PropThreadServer2.C74_completion setup farewell react ws before i p a1 a2 s H1 H2 H3 H4 H5 H6 H7 (proj1 (proj2 (proj2 Hc))) Hh Hb Hp Hn E) as (log & V & T & O).
  fold evs L in V, T, O. rewrite R2 in V, O. rewrite Ha, R1 in T. destruct T as [T1 T2].
  exists log. split; [exact V|]. split; [exact T1|]. split; [exact T2|].
  eapply listens_told with (b := bsent_to i s); [rewrite O; apply frames_of_for| |exact Hl].
  apply Forall_app. split; [now apply harmless_small|]. apply Forall_app. split; [now apply replies_small|].
  destruct (finishes ops); [now apply harmless_small|constructor].
Qed.
Print Assumptions C87_threaded_server.

(** The same with an AsyncConnectionHandler, once its coroutine has been iterated often enough. *)
Theorem C87_async_server : forall setup react ws before i p after client ops l,
  fresh_conn (ws i) -> no_conn i before -> no_conn i after -> no_drop i after -> healthy (w_wr (ws i)) ->
  let evs := before ++ VConn i p :: after in let L := instance_listener before in forall xs, plan setup L p = Some xs ->
  let k := served_sock xs in
  carried client ops (arrived i evs) -> (0 < s_buf k)%Z -> s_listener k = Some l ->
  user_react (react i) -> polite_react (react i) -> no_use (react i) -> mask_react (s_mask k) (react i) ->
  exists n, forall more, no_conn i more -> no_drop i more -> no_arrival i more -> (n <= steps_of i more)%nat ->
  exists s log, vrun setup react (evs ++ more) (server_init ws) = Some s /\
    view i s = created L p ++ NListen :: called log ++ (if finishes ops then destroyed L else []) /\
    transcript log = told_of ops /\ Forall (fun e => fst e = l) log /\
    forall reactc wc lc newc, listens_to (sent_to i s) reactc wc lc newc ->
      transcript newc = told_of (replies (react i) [] log) /\ Forall (fun e => fst e = lc) newc.
Proof.
  intros setup react ws before i p after client ops l H1 H2 H3 H4 H5 evs L xs Hx k Hc Hb Hk Hu Hp Hn Hm.
  destruct (carried_reading _ _ _ Hc) as [R1 R2].
  destruct (C68_completion setup react ws before i p after H1 H2 H3 H4 xs Hx (proj1 (proj2 (proj2 Hc))) H5 Hb Hu Hp Hn Hm) as (n & G).
  exists n. intros more M1 M2 M3 M4. destruct (G more M1 M2 M3 M4) as (s & log & E & V & T1 & T2 & O). fold evs L k in E, V, T1, T2, O.
  assert ((match stream_ending false (bytes_of (arrived i evs)) with Closed _ | Rejected _ => destroyed L | _ => [] end) = (if finishes ops then destroyed L else [])) as Hd
    by (rewrite <- R2; destruct (stream_ending false (bytes_of (arrived i evs))); reflexivity).
  rewrite Hd in V. unfold seen in T2. rewrite Hk, R1 in T2.
  exists s, log. split; [exact E|]. split; [exact V|]. split; [exact T2|]. split; [eapply Forall_impl; [|exact T1]; intros e He; cbn in He; fold k in He; congruence|].
  intros reactc wc lc newc Hl. eapply listens_told with (b := sent_to i s); [rewrite O; apply frames_of_for|now apply replies_small|exact Hl].
Qed.
Print Assumptions C87_async_server.

(** A masking client says "a", pings and closes; the bytes arrive in three pieces before, while and after the thread of the connection starts. The
    server greets, echoes, answers the ping and the close and says goodbye; the client hears all of it up to the close, and not the goodbye. *)
Local Open Scope nat_scope.
Definition demo_client : world := World [] [WAccept 3] [] (fun _ => x05) 0 [] (sock_new true).
Definition demo_ops : list sendop := [SoText (Some [x61]); SoPing None; SoClose0].
Definition demo_a1 : list bev := [BArrive 0 [RData x81 [x81; x05]; RIo IoRetry; RData x05 [x05; x05; x64; x89]]; BSet None].
Definition demo_before : list bev := [BSet (Some 9); BArrive 0 []].
Definition demo_all : list bev := demo_before ++ BConn 0 5 true :: (demo_a1 ++ [BRun 0; BArrive 0 [RData x80 [x05; x05; x05; x05; x88; x80; x05; x05; x05; x05]]]) ++ BRun 0 :: [].
Definition demo_listener : world :=
  World [RData x81 [x01; x68; x81; x01; x61]; RIo IoRetry; RData x8a [x00; x88; x02; x00; x00; x81; x01; x62]] [WAccept 1] [] (fun _ => x07) 0 [] (set_listener (sock_new true) (Some 8)).
Example C87_nonvacuous :
  carried demo_client demo_ops (barrived 0 demo_all) /\ finishes demo_ops = true /\
  told_of demo_ops = [OByte 1 x61; OEnd 1; OPing []; OClose 0 []] /\
  match brun PropThreadServer2.demo_setup PropThreadServer2.demo_farewell PropThreadServer2.demo_react demo_all (bserver_init (fun _ => PropThreadServer2.demo_world)) with
  | BOk s => bview 0 s = [NCreate 9 5; NListen; NCall 3 (EvMsg 1 [x61]); NCall 3 (EvEnd 1); NCall 3 (EvPing []); NCall 3 (EvClose 0 []); NDestroy 9] /\
    listens_to (bsent_to 0 s) (fun _ _ => []) demo_listener 8
      [(8, EvMsg 1 [x68]); (8, EvEnd 1); (8, EvMsg 1 [x61]); (8, EvEnd 1); (8, EvPong []); (8, EvClose 0 [])]
  | _ => False
  end.
Proof.
  split.
  { split; [repeat constructor|]. split; [repeat constructor|]. split; [unfold clean; cbn; repeat constructor|]. eexists. split; vm_compute; reflexivity. }
  split; [reflexivity|]. split; [vm_compute; reflexivity|].
  destruct (brun PropThreadServer2.demo_setup PropThreadServer2.demo_farewell PropThreadServer2.demo_react demo_all (bserver_init (fun _ => PropThreadServer2.demo_world))) as [s| |] eqn:E; [|vm_compute in E; discriminate|vm_compute in E; discriminate].
  assert (bview 0 s = [NCreate 9 5; NListen; NCall 3 (EvMsg 1 [x61]); NCall 3 (EvEnd 1); NCall 3 (EvPing []); NCall 3 (EvClose 0 []); NDestroy 9] /\
    bsent_to 0 s = bytes_of (w_in demo_listener)) as [H1 H2] by (vm_compute in E; injection E as <-; split; vm_compute; reflexivity).
  split; [exact H1|]. rewrite H2. split; [|split; [reflexivity|split; [reflexivity|split; [reflexivity|]]]].
  - split; [repeat constructor|]. split; [repeat constructor|]. split; [intros ? ?; constructor|]. split; [intros ? ?; reflexivity|]. split; [reflexivity|]. left. reflexivity.
  - eexists _, _. split; vm_compute; reflexivity.
Qed.
