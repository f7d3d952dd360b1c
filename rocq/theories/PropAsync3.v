(** Asynchronous listening: C54 (what every callback can rely on), C55 (refused frames), C56 (replies on the wire). *)
From Verif Require Import Bytes Frame World WebSocket AsyncWebSocket SpecFrame SpecSend SpecListen SpecApi SpecReply SpecAsync
  ProofFrame ProofStream ProofSend ProofCodec ProofHeader ProofListen ProofReading ProofApi ProofInv ProofHistory ProofProps
  ProofAsync ProofAsync2 ProofAsync3 PropListen2 PropReply PropSafe PropAsync PropAsync2.
From Coq Require Import ZifyBool ZifyNat ZifyN.
Local Open Scope N_scope.
Local Arguments takeN : simpl never.
Local Arguments dropN : simpl never.
Local Arguments lenN : simpl never.
Local Arguments be_enc : simpl never.
Local Arguments be_dec : simpl never.
Notation step := AsyncWebSocket.step.

(** * C54 *)
Lemma user_buf B react : user_react react -> buf_react B (as_blocking react).
Proof. intros H. apply tame_buf. now apply user_tame. Qed.
Lemma io_buf B s : io_only s -> buf_script B s.
Proof. intros H. apply stop_only_buf. now apply io_only_stop_only. Qed.

(** Chunks have between 1 byte and the configured buffer size. *)
Theorem C54_chunk_sizes : forall react w evs st c,
  s_listening (w_sock w) = false -> io_only (w_in w) -> io_only (arrivals evs) -> user_react react ->
  run react evs (ARun, start_listen w) = (st, c) ->
  exists new, w_log (c_world c) = w_log w ++ new /\
    Forall (fun e => match snd e with
                     | EvMsg _ d => 1 <= lenN d /\ (Z.of_N (lenN d) <= s_buf (w_sock w))%Z
                     | _ => True end) new.
Proof.
  intros react w evs st c Hl Hio Har Hu E.
  destruct (async_begins _ _ _ _ _ Hl Hio Har Hu E) as (o & w' & EL & (new & more & N1 & N2) & _).
  destruct (binv_listen (as_blocking react) (s_buf (w_sock w)) (user_buf _ _ Hu) (give w (arrivals evs)) o w') as (_ & (new' & G1 & G2) & _);
    [split; [apply io_buf, io_only_app; assumption|reflexivity]|exact EL|].
  cbn [w_log give set_in] in G1. rewrite N2 in G1. apply app_inv_head in G1. subst new'.
  exists new. split; [exact N1|]. apply Forall_app in G2. apply G2.
Qed.
Print Assumptions C54_chunk_sizes.

(** Nothing is called after onClose. *)
Theorem C54_close_is_last_call : forall react w evs st c,
  s_listening (w_sock w) = false -> io_only (w_in w) -> io_only (arrivals evs) -> user_react react -> last_ok (w_sock w) ->
  run react evs (ARun, start_listen w) = (st, c) ->
  exists new, w_log (c_world c) = w_log w ++ new /\
    forall n1 l code m n2, new = n1 ++ (l, EvClose code m) :: n2 -> n2 = [].
Proof.
  intros react w evs st c Hl Hio Har Hu Hlo E.
  destruct (async_begins _ _ _ _ _ Hl Hio Har Hu E) as (o & w' & EL & (new & more & N1 & N2) & _).
  destruct (C12_close_is_last_call (as_blocking react) (give w (arrivals evs)) o w') as (new' & G1 & G2);
    [apply io_only_stop_only, io_only_app; assumption|now apply user_tame|exact Hlo|exact EL|].
  cbn [w_log give set_in] in G1. rewrite N2 in G1. apply app_inv_head in G1. subst new'.
  exists new. split; [exact N1|]. intros n1 l code m n2 ->. specialize (G2 n1 l code m (n2 ++ more)).
  rewrite <- app_assoc in G2. specialize (G2 eq_refl). now apply app_eq_nil in G2.
Qed.
Print Assumptions C54_close_is_last_call.

(** No undefined behaviour, but for the dangling data pointer (C31) and masked sends of 2 GiB or more (C26). *)
Theorem C54_no_ub : forall react w evs st c u,
  s_listening (w_sock w) = false -> io_only (w_in w) -> io_only (arrivals evs) -> user_react react ->
  run react evs (ARun, start_listen w) = (st, c) -> st = AUb u ->
  u = UbDangling /\ ~ no_use react \/ u = UbSigned /\ ~ small_react react.
Proof.
  intros react w evs st c u Hl Hio Har Hu E ->.
  destruct (async_begins _ _ _ _ _ Hl Hio Har Hu E) as (o & w' & EL & _ & _ & Hub).
  assert ({u = UbDangling} + {u <> UbDangling}) as [-> |Hd] by (destruct u; (now left) || (now right)).
  - left. split; [reflexivity|]. intros Hn. destruct (C31_only_way _ _ _ _ E) as (log & l & op & d & _ & Hin).
    specialize (Hn l (w_log (c_world c))). rewrite Forall_forall in Hn. exact (Hn _ Hin eq_refl).
  - right. specialize (Hub u eq_refl Hd). subst o.
    destruct (binv_listen (as_blocking react) (s_buf (w_sock w)) (user_buf _ _ Hu) (give w (arrivals evs)) (Ub u) w') as (_ & _ & G);
      [split; [apply io_buf, io_only_app; assumption|reflexivity]|exact EL|].
    destruct (G u eq_refl) as [-> G']. split; [reflexivity|]. intros Hs. apply G'. now apply as_blocking_small.
Qed.
Print Assumptions C54_no_ub.

(** One read of data of a frame, up to the listener's coroutine. *)
Lemma payload_read react hdr short K L B prog w b bs t : w_in w = RData b bs :: t -> (prog < h_len hdr)%Z -> (0 < s_buf (w_sock w))%Z ->
  (Z.of_N (lenN (b :: bs)) <= s_buf (w_sock w))%Z -> (prog + Z.of_N (lenN (b :: bs)) <= h_len hdr)%Z -> (Z.of_N (lenN (b :: bs)) <= B)%Z ->
  star react (Conf hdr short (CoPayload L false B prog RpAct :: K) w) (Conf hdr short (CoPayload L false B prog (RpOnData (b :: bs)) :: K) (set_in w t)).
Proof.
  intros Hin H1 H2 H3 H4 H5.
  set (d := if (h_len hdr - prog <? s_buf (w_sock w))%Z then (h_len hdr - prog)%Z else s_buf (w_sock w)).
  assert (Z.of_N (lenN (b :: bs)) <= d /\ 0 < d)%Z as [D1 D2] by (unfold d; destruct (Z.ltb_spec (h_len hdr - prog) (s_buf (w_sock w))); lia).
  eapply star_step; [|apply star_one].
  - cbn [AsyncWebSocket.step step_payload]. destruct (Z.ltb_spec prog (h_len hdr)); [|lia]. fold d. reflexivity.
  - cbn [AsyncWebSocket.step step_payload]. unfold readSomeAsyncInline. destruct (Z.leb_spec d 0); [lia|]. rewrite Hin. cbn [read_raw].
    rewrite takeN_all, dropN_all by lia. cbn [unread]. destruct (Z.ltb_spec B (Z.of_N (lenN (b :: bs)))); [lia|].
    replace (set_sock (set_in w t) (w_sock w)) with (set_in w t) by (destruct w; reflexivity). reflexivity.
Qed.
Lemma payload_overflow react hdr short K L B prog w b bs t : w_in w = RData b bs :: t -> (0 <= B < s_buf (w_sock w))%Z ->
  (B < Z.of_N (lenN (b :: bs)))%Z -> (prog + Z.of_N (lenN (b :: bs)) <= h_len hdr)%Z ->
  exists c2, halts react (Conf hdr short (CoPayload L false B prog RpAct :: K) w) (AUb UbOverflow) c2.
Proof.
  intros Hin H1 H2 H3.
  set (d := if (h_len hdr - prog <? s_buf (w_sock w))%Z then (h_len hdr - prog)%Z else s_buf (w_sock w)).
  assert (B < d)%Z as D1 by (unfold d; destruct (Z.ltb_spec (h_len hdr - prog) (s_buf (w_sock w))); lia).
  eexists. eexists. split; [apply star_one|split; [|discriminate]].
  - cbn [AsyncWebSocket.step step_payload]. destruct (Z.ltb_spec prog (h_len hdr)); [|lia]. fold d. reflexivity.
  - cbn [AsyncWebSocket.step step_payload]. unfold readSomeAsyncInline. destruct (Z.leb_spec d 0); [lia|]. rewrite Hin. cbn [read_raw].
    destruct (Z.ltb_spec B (Z.of_N (lenN (takeN (Z.to_N d) (b :: bs))))) as [?|Hle]; [reflexivity|].
    exfalso. rewrite lenN_takeN in Hle. lia.
Qed.
Lemma overflow_steps react hdr short K w d ds e es q m B' l op ev :
  h_opcode hdr = op -> op = 1 \/ op = 2 -> open_of (w_sock w) = false -> (0 < s_buf (w_sock w))%Z ->
  w_in w = RData d ds :: RData e es :: q ->
  (Z.of_N (lenN (d :: ds)) <= s_buf (w_sock w) < Z.of_N (lenN (e :: es)))%Z -> (s_buf (w_sock w) < B')%Z ->
  (Z.of_N (lenN (d :: ds)) + Z.of_N (lenN (e :: es)) <= h_len hdr)%Z ->
  plain hdr 0 (d :: ds) = ev ->
  s_listener (w_sock w) = Some l -> react l (w_log w ++ [(l, EvMsg op ev)]) = [CSetConfig m B'] ->
  exists c2, halts react (Conf hdr short (CoHandle (Some l) HfAct :: K) w) (AUb UbOverflow) c2.
Proof.
  intros Hop Hd Hopen HB Hin H1 H2 H3 Hpl Hl Hre.
  set (w1 := set_sock w (set_last (w_sock w) (if h_fin hdr then (-1)%Z else Z.of_N (h_opcode hdr)))).
  assert (step react (Conf hdr short (CoHandle (Some l) HfAct :: K) w) =
    (ARun, Conf hdr short (CoPayload (Some l) false (s_buf (w_sock w)) 0 RpAct :: CoHandle (Some l) HfFinish :: K) w1)) as S1.
  { assert (checkForContinuationA hdr w = (true, w1)) as Ec.
    { unfold checkForContinuationA. unfold open_of in Hopen. destruct ((_ =? 1) || (_ =? 2))%Z%bool eqn:Eo; [exfalso; lia|]. reflexivity. }
    cbn [AsyncWebSocket.step step_handle].
    destruct Hd as [Hd|Hd]; rewrite Hd in Hop; rewrite Hop; rewrite Ec; unfold readPayloadAsync; cbn [andb w1 w_sock set_sock set_last s_buf s_listener];
      (destruct (Z.ltb_spec (s_buf (w_sock w)) 0); [lia|]); rewrite Hl; reflexivity. }
  set (K1 := CoHandle (Some l) HfFinish :: K) in *.
  set (w2 := set_log (set_in w1 (RData e es :: q)) (w_log w ++ [(l, EvMsg op ev)])).
  set (w3 := set_sock w2 (set_config (w_sock w2) m B')).
  set (p1 := (0 + Z.of_N (lenN (d :: ds)))%Z).
  assert (0 <= p1)%Z as Hp1 by (unfold p1; lia).
  destruct (payload_overflow react hdr short K1 (Some l) (s_buf (w_sock w)) p1 w3 e es q eq_refl) as (c2 & c1 & A1 & A2 & A3).
  - cbn [w3 w_sock set_sock set_config s_buf]. lia.
  - lia.
  - unfold p1. lia.
  - exists c2, c1. split; [|split; assumption].
    eapply star_step; [exact S1|].
    eapply star_trans.
    { apply (payload_read react hdr short K1 (Some l) (s_buf (w_sock w)) 0 w1 d ds (RData e es :: q)).
      - exact Hin. - lia. - exact HB. - cbn [w1 w_sock set_sock set_last s_buf]; lia. - lia. - lia. }
    eapply star_step.
    { cbn [AsyncWebSocket.step step_payload].
      change (if h_hasMask hdr then xor_from (h_mask hdr) (Z.to_N 0) (d :: ds) else d :: ds) with (plain hdr 0 (d :: ds)).
      rewrite Hpl, Hop. unfold call_listener. cbn [w_log set_log set_in]. change (w_log w1) with (w_log w). rewrite Hre.
      fold w2 p1. reflexivity. }
    eapply star_step; [reflexivity|]. eapply star_step; [reflexivity|]. exact A1.
Qed.

(** The buffer overrun of C25 exists here as well: for every text or binary frame, every listener that answers its first piece by raising
    the buffer size, if the next read has more to give than the old size; whatever the schedule. *)
Theorem C54_overflow_refuted : forall react w evs lf fin r1 r2 r3 op key n b bs d ds e es q m B' l,
  rfc_header lf fin r1 r2 r3 op key n = b :: bs -> lform_fits lf n -> setup_ok w op n ->
  s_listening (w_sock w) = false -> io_only (w_in w) -> io_only (arrivals evs) ->
  w_in w ++ arrivals evs = RData b bs :: RData d ds :: RData e es :: q ->
  (Z.of_N (lenN (d :: ds)) <= s_buf (w_sock w) < Z.of_N (lenN (e :: es)))%Z -> (s_buf (w_sock w) < B')%Z ->
  lenN (d :: ds) + lenN (e :: es) <= n ->
  s_listener (w_sock w) = Some l -> react l (w_log w ++ [(l, EvMsg op (masked_opt key (d :: ds)))]) = [CSetConfig m B'] ->
  exists k, forall j, (k <= j)%nat -> fst (run react (evs ++ ticks j) (ARun, start_listen w)) = AUb UbOverflow.
Proof.
  intros react w evs lf fin r1 r2 r3 op key n b bs d ds e es q m B' l Hhd Hlf Hs Hl Hio Har Hin H1 H2 H3 Hli Hre.
  destruct Hs as (Hop & Hn & Hopen & HB).
  set (g := give w (arrivals evs)).
  assert (io_only (w_in g)) as Hgo by (apply io_only_app; assumption).
  assert (exists c2, halts react (start_listen g) (AUb UbOverflow) c2) as [c2 Hh].
  { assert (w_in g = RData b bs :: RData d ds :: RData e es :: q) as Hg by exact Hin.
    destruct (header_segment lf fin r1 r2 r3 op key n b bs g _ Hhd ltac:(destruct Hop; lia) Hlf Hg) as (h & Eh & Hm).
    assert (inv false (s_listener (w_sock w)) (s_buf (w_sock w)) true g) as Hi by (repeat split; try assumption; discriminate).
    assert (er g = g) as Heg by (apply er_id; exact Hl).
    pose proof (plain_masked h _ (d :: ds) Hm) as Hpl. destruct Hm as (_ & _ & M3 & _ & M5 & _ & _). cbn [i_opcode i_key i_len] in *.
    rewrite to_i64_small in M5 by exact Hn.
    pose proof (readFrameHeader_sim react false (s_listener (w_sock w)) (s_buf (w_sock w)) true
      header_init (Header false false false false 255 false 0 mask0) [] (CoHandle (s_listener (w_sock w)) HfAct :: CoListen :: []) g _ _ Hi eq_refl eq_refl Eh) as HS.
    cbn [sim] in HS. destruct HS as (Hi1 & h' & s' & [-> ->] & HS). rewrite Heg in HS.
    set (g1 := er (set_in g (RData d ds :: RData e es :: q))) in *.
    destruct (overflow_steps react h [] [CoListen] g1 d ds e es q m B' l op (masked_opt key (d :: ds))) as (c2 & c1 & A1 & A2 & A3); try assumption; try reflexivity.
    - lia.
    - exists c2, c1. split; [|split; assumption].
      eapply star_step; [reflexivity|]. eapply star_trans; [|exact A1].
      change (w_sock g) with (w_sock w). rewrite Hli in *. exact HS. }
  change (start_listen g) with (arrive (arrivals evs) (start_listen w)) in Hh.
  destruct (run react evs (ARun, start_listen w)) as [st1 c1] eqn:E1.
  pose proof (run_io react _ ARun (start_listen w) _ _ (or_introl eq_refl) Hio Har E1) as Hio1.
  destruct (run_halts react _ ARun (start_listen w) _ _ _ _ (or_introl eq_refl) Hio Har E1 Hh) as [[Hg Hh2]|(Hn' & -> & ->)].
  - destruct (halts_ticks react _ _ _ Hh2 Hio1) as [k Hk]. exists k. intros j Hj. rewrite run_app, E1, (Hk _ _ Hj Hg). reflexivity.
  - exists 0%nat. intros j _. rewrite run_app, E1, run_ticks_stopped by exact Hn'. reflexivity.
Qed.
Print Assumptions C54_overflow_refuted.

Example C54_overflow_nonvacuous :
  let r : react_t := fun _ _ => [CSetConfig false 8] in
  let w := set_sock (aworld [RData x82 [x08]; RData x01 [x02]; RData x03 [x04; x05; x06; x07; x08]] []) (set_listener (sock_new_config false 2) (Some 7%nat)) in
  rfc_header L7 true false false false 2 None 8 = [x82; x08] /\ setup_ok w 2 8 /\
  fst (run r (ticks 30) (ARun, start_listen w)) = AUb UbOverflow.
Proof. cbv zeta. split; [reflexivity|]. split; [repeat split; auto; lia|]. vm_compute. reflexivity. Qed.

(** * C55 *)
Lemma refused_accepts fs op n fin rsv k : history_ok false fs = true -> refused fs op n ->
  op < 16 /\ accepts (open_after false fs) (FInfo fin rsv op k n) = false.
Proof.
  intros Hok H. destruct H as [[Hop Hn]|[Hop|[[-> Hs]|[Hop Hs]]]].
  - split; [lia|]. unfold accepts. cbn [i_opcode i_len]. unfold eff_len. destruct (N.ltb_spec n (2 ^ 63)); [|lia].
    destruct Hop as [->|[->| ->]]; lia.
  - split; [lia|]. unfold accepts. cbn [i_opcode].
    assert (op <> 0 /\ op <> 1 /\ op <> 2 /\ op <> 8 /\ op <> 9 /\ op <> 10) as (H0 & H1 & H2 & H8 & H9 & H10) by lia.
    destruct op as [|[[[[p|p|]|[p|p|]|]|[[p|p|]|[p|p|]|]|]|[[[p|p|]|[p|p|]|]|[[p|p|]|[p|p|]|]|]|]]; try congruence; reflexivity.
  - split; [lia|]. rewrite open_started, Hs by exact Hok. reflexivity.
  - split; [lia|]. apply msg_open_started in Hs. destruct Hs as [?|Hs]; [discriminate|].
    rewrite open_started, Hs by exact Hok. destruct Hop as [-> | ->]; reflexivity.
Qed.

(** At any time, whatever happens: nothing of a refused frame, nor of anything behind it, is shown. *)
Theorem C55_never_delivered : forall react w evs st c fs lf fin r1 r2 r3 op k n rest,
  s_listening (w_sock w) = false -> io_only (w_in w) -> io_only (arrivals evs) -> user_react react ->
  last_ok (w_sock w) -> open_of (w_sock w) = false ->
  history_ok false fs = true -> refused fs op n -> lform_fits lf n ->
  bytes_of (w_in w ++ arrivals evs) = wires fs ++ rfc_header lf fin r1 r2 r3 op k n ++ rest ->
  run react evs (ARun, start_listen w) = (st, c) ->
  exists new, w_log (c_world c) = w_log w ++ new /\ prefix (transcript new) (frames_shown fs).
Proof.
  intros react w evs st c fs lf fin r1 r2 r3 op k n rest Hl Hio Har Hu Hlo Ho Hok Href Hlf Hbs E.
  destruct (C53_only_a_prefix _ _ _ _ _ Hl Hio Har Hu Hlo E) as (new & N1 & _ & N3).
  exists new. split; [exact N1|]. rewrite Hbs, Ho in N3.
  destruct (refused_accepts fs op n fin (rsv_of r1 r2 r3) k Hok Href) as [Hop Ha].
  destruct (reading_rejected (open_after false fs) (rfc_header lf fin r1 r2 r3 op k n ++ rest)
     (FInfo fin (rsv_of r1 r2 r3) op k n) rest) as [R1 R2]; [now apply rd_header_rfc|exact Ha|].
  destruct (stream_wires fs false (rfc_header lf fin r1 r2 r3 op k n ++ rest) Hok) as [S1 _].
  rewrite S1, R1, app_nil_r in N3. exact N3.
Qed.
Print Assumptions C55_never_delivered.

(** If nothing else goes wrong, the coroutine fails after having shown everything before the refused frame, and leaves
    the bytes behind its header unread. *)
Theorem C55_fails : forall react w evs fs lf fin r1 r2 r3 op k n rest,
  s_listening (w_sock w) = false -> user_react react -> good react (give w (arrivals evs)) -> open_of (w_sock w) = false ->
  history_ok false fs = true -> refused fs op n -> lform_fits lf n ->
  bytes_of (w_in w ++ arrivals evs) = wires fs ++ rfc_header lf fin r1 r2 r3 op k n ++ rest ->
  exists n0, forall m, (n0 <= m)%nat -> forall st c, run react (evs ++ ticks m) (ARun, start_listen w) = (st, c) ->
  st = AUb UbDangling \/
  (exists e, st = AFail e) /\ bytes_of (w_in (c_world c)) = rest /\
  exists new, w_log (c_world c) = w_log w ++ new /\ transcript new = seen (w_sock w) (frames_shown fs).
Proof.
  intros react w evs fs lf fin r1 r2 r3 op k n rest Hl Hu Hg Ho Hok Href Hlf Hbs.
  destruct (C53_delivery react w evs Hl Hu Hg) as [n0 H]. exists n0. intros m Hm st c E.
  destruct (H m Hm st c E) as [-> |(new & N1 & _ & N3 & N4)]; [now left|right].
  destruct (refused_accepts fs op n fin (rsv_of r1 r2 r3) k Hok Href) as [Hop Ha].
  destruct (reading_rejected (open_after false fs) (rfc_header lf fin r1 r2 r3 op k n ++ rest)
     (FInfo fin (rsv_of r1 r2 r3) op k n) rest) as [R1 R2]; [now apply rd_header_rfc|exact Ha|].
  destruct (stream_wires fs false (rfc_header lf fin r1 r2 r3 op k n ++ rest) Hok) as [S1 S2].
  rewrite Hbs, Ho, S1, R1, app_nil_r in N3. rewrite Hbs, Ho, S2, R2 in N4. destruct N4 as [N4 N5]. eauto 6.
Qed.
Print Assumptions C55_fails.

(** * C56: replies *)
Lemma sends_request cs : map request (sends_of (map as_blocking_cmd cs)) = map request (sends_of cs).
Proof.
  induction cs as [|c cs IH]; [reflexivity|]. destruct c as [| | |[] o| | |]; cbn [map as_blocking_cmd sends_of]; auto.
  - cbn [sends_of map]. rewrite IH. f_equal. destruct o; reflexivity.
  - destruct o; cbn [sends_of map]; rewrite IH; reflexivity.
  - rewrite IH. reflexivity.
Qed.
Lemma replies_request react new : forall log, map request (replies (as_blocking react) log new) = map request (replies react log new).
Proof.
  induction new as [|e new IH]; intros log; cbn [replies]; [reflexivity|]. rewrite !map_app, IH. f_equal. apply sends_request.
Qed.
Lemma frames_request m rnd ops1 : forall ops2 pos, map request ops1 = map request ops2 -> frames_of m rnd pos ops1 = frames_of m rnd pos ops2.
Proof.
  induction ops1 as [|op ops1 IH]; intros [|op2 ops2] pos H; try discriminate; [reflexivity|]. cbn [map] in H. injection H as H1 H2.
  cbn [frames_of]. rewrite (IH ops2) by exact H2. f_equal. unfold sent_wire, frame_for, req_payload, req_fin, req_opcode. now rewrite H1.
Qed.
Lemma frames_replies m rnd pos react log new : frames_of m rnd pos (replies (as_blocking react) log new) = frames_of m rnd pos (replies react log new).
Proof. apply frames_request, replies_request. Qed.

(** A run consults the listener code only for the calls it has made. *)
Definition agree (n : nat) (r1 r2 : react_t) : Prop := forall l log, (length log <= n)%nat -> r1 l log = r2 l log.
Lemma step_agree n r1 r2 c st c' : agree n r1 r2 -> step r1 c = (st, c') -> (length (w_log (c_world c')) <= n)%nat -> step r2 c = (st, c').
Proof.
  intros Ha. destruct c as [h s sk w]. destruct sk as [|co K]; [intros E _; exact E|].
  assert (forall l ev f K', match call_listener r1 l ev f w with (co, w') => (ARun, Conf h s (co :: K') w') end = (st, c') ->
    (length (w_log (c_world c')) <= n)%nat -> match call_listener r2 l ev f w with (co, w') => (ARun, Conf h s (co :: K') w') end = (st, c')) as Hcall.
  { intros l ev f K' E Hn. unfold call_listener in *. injection E as <- <-. cbn [c_world set_log w_log] in Hn. rewrite Ha by exact Hn. reflexivity. }
  destruct co as [|p|l p|l ush al pr p|fin op m hh p|hh p|cs frd|]; cbn [AsyncWebSocket.step]; try (intros E _; exact E).
  - unfold step_handle. cbv zeta. destruct p; try (intros E _; exact E); (destruct l as [l|]; [|intros E _; exact E]); apply Hcall.
  - unfold step_payload. cbv zeta. destruct p as [|z|got|]; try (intros E _; exact E).
    + destruct (pr <? h_len h)%Z; [intros E _; exact E|]. destruct (negb ush && h_fin h)%bool; [|intros E _; exact E].
      destruct l as [l|]; [|intros E _; exact E]. apply Hcall.
    + destruct got as [|g0 got]; [intros E _; exact E|]. destruct ush; [intros E _; exact E|]. destruct l as [l|]; [|intros E _; exact E]. apply Hcall.
Qed.
Lemma run_grows react evs : forall st c st' c', run react evs (st, c) = (st', c') -> prefix (w_log (c_world c)) (w_log (c_world c')).
Proof.
  induction evs as [|[|s] evs IH]; intros st c st' c' E; cbn [run] in E.
  - injection E as <- <-. apply prefix_refl.
  - destruct (tick react (st, c)) as [st1 c1] eqn:Et. apply IH in E. eapply prefix_trans; [|exact E].
    unfold tick in Et. destruct st; try (injection Et as <- <-; apply prefix_refl); apply step_grows in Et; apply Et.
  - apply IH in E. exact E.
Qed.
Lemma run_agree n r1 r2 evs : agree n r1 r2 -> forall st c st' c', run r1 evs (st, c) = (st', c') ->
  (length (w_log (c_world c')) <= n)%nat -> run r2 evs (st, c) = (st', c').
Proof.
  intros Ha. induction evs as [|[|s] evs IH]; intros st c st' c' E Hn; cbn [run] in *; [exact E| |].
  - destruct (tick r1 (st, c)) as [st1 c1] eqn:Et. replace (tick r2 (st, c)) with (st1, c1); [now apply IH|].
    symmetry. apply run_grows in E. destruct E as [r E]. unfold tick in *.
    assert (length (w_log (c_world c1)) <= n)%nat as Hn1 by (rewrite E, app_length in Hn; lia).
    destruct st; try exact Et; eapply step_agree; eassumption.
  - now apply IH.
Qed.
Definition cut (n : nat) (react : react_t) : react_t := fun l log => if (length log <=? n)%nat then react l log else [].
Lemma cut_agree n react : agree n react (cut n react).
Proof. intros l log H. unfold cut. destruct (Nat.leb_spec (length log) n); [reflexivity|lia]. Qed.
Lemma cut_user n react : user_react react -> user_react (cut n react).
Proof. intros H l log. unfold cut. destruct (_ <=? _)%nat; [apply H|constructor]. Qed.
Lemma cut_mask m n react : mask_react m react -> mask_react m (cut n react).
Proof. intros H l log. unfold cut. destruct (_ <=? _)%nat; [apply H|constructor]. Qed.
Lemma replies_past n react new : forall log, (n <= length log)%nat -> replies (cut n react) log new = [].
Proof.
  induction new as [|e new IH]; intros log Hn; cbn [replies]; [reflexivity|].
  rewrite IH by (rewrite app_length; cbn; lia). unfold cut. rewrite app_length. cbn [length].
  destruct (Nat.leb_spec (length log + 1) n); [lia|reflexivity].
Qed.
Lemma replies_cut n react new more : forall log, n = length (log ++ new) -> replies (cut n react) log (new ++ more) = replies react log new.
Proof.
  induction new as [|e new IH]; intros log Hn.
  - cbn [app replies]. rewrite replies_past; [reflexivity|]. rewrite Hn, app_nil_r. lia.
  - cbn [app replies]. rewrite IH by (rewrite <- app_assoc; exact Hn). f_equal. unfold cut.
    destruct (Nat.leb_spec (length (log ++ [e])) n); [reflexivity|]. rewrite Hn, !app_length in *. cbn in *. lia.
Qed.

Lemma io_mask m s : io_only s -> script_ok (mask_ext m) any_err s.
Proof. apply Forall_impl. intros [] H; cbn in *; auto; contradiction. Qed.

(** At any time: the bytes written are a beginning of the frames asked for by the callbacks made so far, in order, each
    masked with its own fresh key iff masking is configured; once the coroutine has finished or failed, all of them. *)
Theorem C56_replies : forall m react w evs st c,
  s_listening (w_sock w) = false -> io_only (w_in w) -> io_only (arrivals evs) -> user_react react ->
  s_mask (w_sock w) = m -> mask_react m react -> healthy (w_wr w) ->
  run react evs (ARun, start_listen w) = (st, c) ->
  exists new, w_log (c_world c) = w_log w ++ new /\
    prefix (w_out (c_world c)) (w_out w ++ frames_of m (w_rnd w) (w_rpos w) (replies react (w_log w) new)) /\
    (st = ADone \/ (exists e, st = AFail e) ->
     w_out (c_world c) = w_out w ++ frames_of m (w_rnd w) (w_rpos w) (replies react (w_log w) new)).
Proof.
  intros m react w evs st c Hl Hio Har Hu Hm Hmr Hh E.
  assert (io_only (w_in (give w (arrivals evs)))) as Hgo by (apply io_only_app; assumption).
  set (n := length (w_log (c_world c))).
  assert (run (cut n react) evs (ARun, start_listen w) = (st, c)) as Ec.
  { eapply run_agree; [apply cut_agree|exact E|apply le_n]. }
  destruct (async_begins (cut n react) w evs st c Hl Hio Har (cut_user _ _ Hu) Ec) as (o & w' & EL & (new & more & N1 & N2) & P & _).
  exists new. split; [exact N1|].
  destruct (C49_replies m (as_blocking (cut n react)) (give w (arrivals evs)) o w' Hm) as (new' & G1 & G2 & _);
    [apply as_blocking_mask, cut_mask, Hmr|now apply io_mask|exact Hh|exact EL|].
  cbn [w_log give set_in w_out w_rnd w_rpos] in G1, G2. assert (new' = new ++ more) as -> by (rewrite N2 in G1; now apply app_inv_head in G1).
  rewrite frames_replies, replies_cut in G2 by (unfold n; rewrite N1; reflexivity).
  split; [rewrite <- G2; exact P|]. intros Hst.
  destruct (listen_try (as_blocking react) (give w (arrivals evs))) as [o2 w2] eqn:ES.
  pose proof (C52_any_schedule _ _ _ _ _ _ _ Hl Hio Har Hu E ES) as H.
  assert (same_effects (c_world c) w2) as (_ & _ & E1 & _ & E2 & _) by (destruct Hst as [-> |[e ->]]; apply H).
  assert (listen (as_blocking react) (give w (arrivals evs)) = (match o2 with Throw _ => Ret tt | _ => o2 end, w2)) as EL2.
  { rewrite listen_of_try, ES. destruct o2; reflexivity. }
  destruct (C49_replies m (as_blocking react) (give w (arrivals evs)) _ w2 Hm (as_blocking_mask _ _ Hmr) (io_mask _ _ Hgo) Hh EL2) as (new2 & F1 & F2 & _).
  cbn [w_log give set_in w_out w_rnd w_rpos] in F1, F2.
  rewrite E1, F2, frames_replies. assert (new2 = new) as -> by (rewrite <- E2, N1 in F1; now apply app_inv_head in F1). reflexivity.
Qed.
Print Assumptions C56_replies.

(** Suspended with nothing left to do: all replies have been written. *)
Theorem C56_completion : forall m react w evs,
  s_listening (w_sock w) = false -> io_only (w_in w) -> io_only (arrivals evs) -> user_react react -> no_use react ->
  s_mask (w_sock w) = m -> mask_react m react -> healthy (w_wr w) ->
  exists n, forall k, (n <= k)%nat -> forall st c, run react (evs ++ ticks k) (ARun, start_listen w) = (st, c) ->
  exists new, w_log (c_world c) = w_log w ++ new /\
    w_out (c_world c) = w_out w ++ frames_of m (w_rnd w) (w_rpos w) (replies react (w_log w) new).
Proof.
  intros m react w evs Hl Hio Har Hu Hnu Hm Hmr Hh.
  assert (io_only (w_in (give w (arrivals evs)))) as Hgo by (apply io_only_app; assumption).
  destruct (listen_try (as_blocking react) (give w (arrivals evs))) as [o2 w2] eqn:ES.
  destruct (C52_completion react w evs o2 w2 Hl Hio Har Hu ES) as [n Hn]. exists n. intros k Hk st c E.
  destruct (Hn k Hk st c E) as [[_ (_ & _ & E1 & _ & E2 & _)]| ->].
  2: { exfalso. destruct (C31_only_way _ _ _ _ E) as (log & l & op & d & _ & Hin).
       specialize (Hnu l (w_log (c_world c))). rewrite Forall_forall in Hnu. exact (Hnu _ Hin eq_refl). }
  assert (listen (as_blocking react) (give w (arrivals evs)) = (match o2 with Throw _ => Ret tt | _ => o2 end, w2)) as EL2.
  { rewrite listen_of_try, ES. destruct o2; reflexivity. }
  destruct (C49_replies m (as_blocking react) (give w (arrivals evs)) _ w2 Hm (as_blocking_mask _ _ Hmr) (io_mask _ _ Hgo) Hh EL2) as (new2 & F1 & F2 & _).
  cbn [w_log give set_in w_out w_rnd w_rpos] in F1, F2. rewrite frames_replies in F2.
  exists new2. rewrite E1, E2. auto.
Qed.
Print Assumptions C56_completion.

(** A read buffer of two bytes, a frame of five: chunks of at most two; then a Close frame and more bytes. *)
Example C54_nonvacuous :
  let w := set_sock (aworld [RData x82 [x05; x01]] []) (set_listener (sock_new_config false 2) (Some 7%nat)) in
  let evs := ticks 9 ++ [Arrive [RData x02 [x03; x04; x05; x88; x00; x89; x00]]] ++ ticks 90 in
  match run user evs (ARun, start_listen w) with
  | (st, c) => st = ADone /\ map snd (w_log (c_world c)) = [EvMsg 2 [x01]; EvMsg 2 [x02; x03]; EvMsg 2 [x04; x05]; EvEnd 2; EvClose 0 []]
  end.
Proof. vm_compute. split; reflexivity. Qed.

(** A ping of 126 bytes, announced but not even arrived, after a message; a continuation frame at the start. *)
Example C55_nonvacuous :
  refused [(L7, RFrame true false false false 1 None [x61])] 9 126 /\ refused [] 0 1 /\
  let w := aworld [RData x81 [x01; x61]] [] in
  let evs := ticks 9 ++ [Arrive [RData x89 [x7e; x00]]] ++ ticks 9 ++ [Arrive [RData x7e [x01; x02]]] ++ ticks 20 in
  bytes_of (w_in w ++ arrivals evs) = wires [(L7, RFrame true false false false 1 None [x61])] ++ rfc_header L16 true false false false 9 None 126 ++ [x01; x02] /\
  match run user evs (ARun, start_listen w) with
  | (st, c) => (exists e, st = AFail e) /\ map snd (w_log (c_world c)) = [EvMsg 1 [x61]; EvEnd 1] /\ bytes_of (w_in (c_world c)) = [x01; x02]
  end.
Proof.
  split; [left; split; [right; left; reflexivity|split; reflexivity]|]. split; [right; right; left; split; reflexivity|].
  cbv zeta. split; [vm_compute; reflexivity|]. vm_compute. split; [eexists; reflexivity|split; reflexivity].
Qed.

(** The echo server on a slow connection. *)
Example C56_nonvacuous :
  let w := aworld [RData x81 [x02; x61; x62; x89]] [WAccept 1; WIo IoRetry; WAccept 2] in
  let evs := ticks 9 ++ [Arrive [RData x01 [x70]]] ++ ticks 90 in
  match run (SpecReply.echo 50) evs (ARun, start_listen w) with
  | (st, c) => st = AWait /\ replies (SpecReply.echo 50) [] (w_log (c_world c)) = [SoText (Some [x61; x62]); SoPong (Some [x70])] /\
               w_out (c_world c) = [x81; x02; x61; x62; x8a; x01; x70]
  end.
Proof. vm_compute. split; [reflexivity|split; reflexivity]. Qed.
