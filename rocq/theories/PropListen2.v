(** Property theorems about receiving on the blocking socket, part 2 (C12-C22, C46, C47). *)
From Verif Require Import Bytes Frame World WebSocket SpecFrame SpecSend SpecListen SpecApi
  ProofFrame ProofStream ProofSend ProofHeader ProofListen ProofReading ProofApi ProofInv ProofRel ProofSilent ProofProps
  ProofHistory PropListen.
From Coq Require Import ZifyBool ZifyNat ZifyN.
Local Open Scope N_scope.
Local Arguments takeN : simpl never.
Local Arguments dropN : simpl never.
Local Arguments lenN : simpl never.
Local Arguments be_enc : simpl never.
Local Arguments be_dec : simpl never.

Lemma demo_good react s : clean s -> polite_react react -> never_stops react -> good react (demo s).
Proof. intros H1 H2 H3. split; [exact H1|]. split; [constructor|]. split; [exact H2|]. split; [exact H3|]. split; [reflexivity|left; reflexivity]. Qed.
Ltac demo_ok := apply demo_good; [repeat constructor|first [apply passive_polite|apply ponger_polite]|first [apply passive_never|apply ponger_never]].

(** * C12: listen() ends right after a Close frame *)
Theorem C12_close_is_last_call : forall react w o w',
  stop_only (w_in w) -> tame_react react -> last_ok (w_sock w) ->
  listen react w = (o, w') ->
  exists new, w_log w' = w_log w ++ new /\
    forall n1 l c m n2, new = n1 ++ (l, EvClose c m) :: n2 -> n2 = [].
Proof.
  intros react w o w' Hs Ht Hl E.
  destruct (listen_safe react w o w' Hs Hl Ht E) as (_ & new & G1 & _ & G3 & _).
  exists new. split; [exact G1|]. intros n1 l c m n2 ->.
  pose proof (binv_listen react (s_buf (w_sock w)) (tame_buf _ _ Ht) w o w') as Hb.
  destruct Hb as (_ & (new' & Hn' & Hsz) & _); [split; [now apply stop_only_buf|reflexivity]|exact E|].
  rewrite G1 in Hn'. apply app_inv_head in Hn'. rewrite <- Hn' in Hsz.
  apply Forall_app in Hsz. destruct Hsz as [_ Hsz]. inversion Hsz as [|? ? _ Hsz2]; subst.
  destruct G3 as [t G3]. rewrite transcript_app in G3. change (transcript ((l, EvClose c m) :: n2)) with ([OClose c m] ++ transcript n2) in G3.
  rewrite <- app_assoc in G3. cbn [app] in G3. unfold stream_reading in G3. apply reading_close_last in G3.
  apply app_eq_nil in G3. destruct G3 as [G3 _]. eapply transcript_nil_log; eassumption.
Qed.
Print Assumptions C12_close_is_last_call.

Theorem C12_returns_and_stops_reading : forall react w o w' fs lf f rest,
  good react w -> history_ok (open_of (w_sock w)) fs = true ->
  bytes_of (w_in w) = wires fs ++ wire lf f ++ rest ->
  f_opcode f = 8 -> lenN (f_payload f) <= 125 -> lform_ok lf (lenN (f_payload f)) = true ->
  listen react w = (o, w') ->
  o = Ret tt /\ bytes_of (w_in w') = rest /\
  exists new, w_log w' = w_log w ++ new /\
    (forall l, s_listener (w_sock w) = Some l ->
       exists n1 c m, new = n1 ++ [(l, EvClose c m)] /\ close_obs (f_payload f) = OClose c m /\ transcript n1 = frames_shown fs) /\
    (s_listener (w_sock w) = None -> new = []).
Proof.
  intros react w o w' fs lf f rest Hg Hok Hbs Hop Hlen Hlf E.
  destruct (listen_hist react w o w' _ _ Hg Hbs Hok E) as (new & G1 & G2 & G3 & Gsz & G5).
  destruct (reading_whole 1 (open_after (open_of (w_sock w)) fs) (wire lf f ++ rest)) as [R1 R2].
  { rewrite reading_wire; [|lia|exact Hlf|].
    - rewrite Hop. reflexivity.
    - unfold accepts. cbn [finfo_of i_opcode i_len]. rewrite Hop. unfold eff_len. destruct (_ <? _); lia. }
  rewrite reading_wire in R1, R2; [|lia|exact Hlf| |lia|exact Hlf|];
    try (unfold accepts; cbn [finfo_of i_opcode i_len]; rewrite Hop; unfold eff_len; destruct (_ <? _); lia).
  rewrite Hop in R1, R2. cbn [N.eqb Pos.eqb fst snd] in R1, R2. rewrite <- R1, <- R2 in *.
  destruct G5 as [-> G5]. split; [reflexivity|]. split; [exact G5|]. exists new. split; [exact G1|]. split.
  - intros l Hl. rewrite (seen_some _ _ _ Hl) in G3.
    destruct (close_obs_is (f_payload f)) as (c & m & Hcm).
    unfold frame_shown, shown in G3. rewrite Hop, Hcm in G3.
    destruct (transcript_snoc_close (s_buf (w_sock w)) l c m new (frames_shown fs)) as (n1 & -> & Ht);
      [eapply addressed_fst; eassumption|exact Gsz|exact G3|]. exists n1, c, m. auto.
  - intros Hl. rewrite (seen_none _ _ Hl) in G3. eapply transcript_nil_log; eassumption.
Qed.
Print Assumptions C12_returns_and_stops_reading.

Example C12_nonvacuous :
  let w := demo [RData x89 [x01; x2a; x88; x03]; RData x03 [xe8; x41; x81; x00]] in
  good ponger w /\
  bytes_of (w_in w) = wires [(L7, RFrame true false false false 9 None [x2a])] ++
                      wire L7 (RFrame true false false false 8 None [x03; xe8; x41]) ++ [x81; x00] /\
  listen ponger w = (Ret tt, World [RData x81 [x00]] [] [x8a; x01; x2a] (w_rnd w) 0
     [(7%nat, EvPing [x2a]); (7%nat, EvClose 1000 [x41])] (Sock false 1024 (Some 7%nat) (-1) true)).
Proof. cbv zeta. split; [demo_ok|]. split; vm_compute; reflexivity. Qed.

(** * C13: stopListening() from a callback *)
(** [stops react log calls]: one of the reactions to [calls] (made after [log]) calls stopListening. *)
Theorem C13_stop_after_current_frame : forall react w o w' fs tail l,
  clean (w_in w) -> healthy (w_wr w) -> polite_react react -> (0 < s_buf (w_sock w))%Z -> last_ok (w_sock w) ->
  s_listener (w_sock w) = Some l ->
  bytes_of (w_in w) = wires fs ++ tail -> history_ok (open_of (w_sock w)) fs = true ->
  listen react w = (o, w') ->
  exists new, w_log w' = w_log w ++ new /\
   ((* a stop was requested while frame [x] was handled: it is the last one *)
    (exists fs1 x fs2 n1 n2, fs = fs1 ++ x :: fs2 /\ new = n1 ++ n2 /\
       transcript n1 = frames_shown fs1 /\ transcript n2 = frame_shown (snd x) /\
       stops react (w_log w) n1 = false /\ stops react (w_log w ++ n1) n2 = true /\
       o = Ret tt /\ bytes_of (w_in w') = wires fs2 ++ tail) \/
    (* no stop was requested during [fs] *)
    (exists n1 n2, new = n1 ++ n2 /\ transcript n1 = frames_shown fs /\ stops react (w_log w) n1 = false)).
Proof. exact listen_stop_hist. Qed.
Print Assumptions C13_stop_after_current_frame.

Example C13_nonvacuous :
  let stopper : react_t := fun _ log => match snd (last log (0%nat, EvEnd 0)) with EvPing _ => [CStop] | _ => [] end in
  let w := demo [RData x81 [x01; x61; x89; x00; x81; x00]] in
  polite_react stopper /\
  listen stopper w = (Ret tt, World [RData x81 [x00]] [] [] (w_rnd w) 0
     [(7%nat, EvMsg 1 [x61]); (7%nat, EvEnd 1); (7%nat, EvPing [])] (Sock false 1024 (Some 7%nat) (-1) false)).
Proof.
  cbv zeta. split; [|vm_compute; reflexivity]. intros l log. destruct (snd _); repeat constructor.
Qed.

(** * C14: stopListening() from another thread *)
(** Refuted (1): on an idle connection listen() stays blocked after the stop, whatever the listener
    and the socket. *)
Theorem C14_blocked_read_refuted : forall react w,
  w_in w = [RExt XStop] -> exists w', listen react w = (Wait, w') /\ s_listening (w_sock w') = false.
Proof.
  intros react w H. destruct w as [i q o r p lg k]. cbn in H. subst i. eexists. split; reflexivity.
Qed.
Print Assumptions C14_blocked_read_refuted.

(** Refuted (2): a stop requested before listen() is entered has no effect. *)
Theorem C14_early_stop_refuted : forall react w,
  listen react (snd (stopListening w)) = listen react w.
Proof. reflexivity. Qed.
Print Assumptions C14_early_stop_refuted.

(** What holds: a stop made at any time before the last byte of a frame arrives ends listening at the
    end of that frame at the latest. Missing: "without needing further input". *)
Theorem C14_stop_by_frame_end_partial : forall react w o w' fs lf f rest s1 s2,
  calm react w -> last_ok (w_sock w) ->
  w_in w = s1 ++ RExt XStop :: s2 -> bytes_of (w_in w) = wires fs ++ wire lf f ++ rest ->
  history_ok (open_of (w_sock w)) fs = true ->
  f_opcode f < 16 -> lform_ok lf (lenN (f_payload f)) = true ->
  accepts (open_after (open_of (w_sock w)) fs) (finfo_of f) = true ->
  (* the last byte of [f] arrives after the stop *)
  lenN rest < lenN (bytes_of s2) ->
  listen react w = (o, w') ->
  o = Ret tt /\ lenN rest <= lenN (bytes_of (w_in w')).
Proof. exact listen_ext_stop. Qed.
Print Assumptions C14_stop_by_frame_end_partial.

Example C14_nonvacuous :
  let w := demo [RData x81 [x01]; RExt XStop; RData x61 [x81; x00]] in
  calm passive w /\ bytes_of (w_in w) = wires [] ++ wire L7 (RFrame true false false false 1 None [x61]) ++ [x81; x00] /\
  bytes_of (w_in (snd (listen passive w))) = [x81; x00] /\ fst (listen passive w) = Ret tt.
Proof.
  cbv zeta. split; [|split; [vm_compute; reflexivity|split; vm_compute; reflexivity]].
  split; [repeat constructor|]. split; [constructor|]. split; [apply passive_polite|reflexivity].
Qed.

(** * C15: listen() never throws and always terminates *)
(** For every listener and world: it returns, is blocked, or has undefined behaviour (see C25, C26);
    the model's fuel never runs out. *)
Theorem C15_no_exception : forall react w o w',
  listen react w = (o, w') -> o = Ret tt \/ o = Wait \/ exists u, o = Ub u.
Proof. exact listen_total. Qed.
Print Assumptions C15_no_exception.

(** Blocked means blocked in the connection: all input was consumed, or a write does not return. *)
Theorem C15_blocked_in_the_connection : forall react w w',
  listen react w = (Wait, w') -> w_in w' = [] \/ exists q, w_wr w' = WBlock :: q.
Proof. exact wq_listen. Qed.
Print Assumptions C15_blocked_in_the_connection.

(** Without reconfiguration and with messages below 2^31 bytes there is no undefined behaviour. *)
Theorem C15_returns_or_blocks : forall B react w o w',
  buf_react B react -> small_react react -> buf_script B (w_in w) -> s_buf (w_sock w) = B ->
  listen react w = (o, w') -> o = Ret tt \/ o = Wait.
Proof.
  intros B react w o w' Hr Hsm Hs Hb E.
  destruct (binv_listen react B Hr w o w' (conj Hs Hb) E) as (_ & _ & Hu).
  destruct (listen_total _ _ _ _ E) as [->|[->|[u ->]]]; auto. destruct (Hu u eq_refl). contradiction.
Qed.
Print Assumptions C15_returns_or_blocks.

Example C15_nonvacuous :
  let r : react_t := fun _ log => [CSend false (SoPing None); CThrow] in
  let w := World [RData x81 [x01; x61]; RIo IoZero] [WAccept 1; WIo IoBroken] [] (fun _ => x00) 0 []
                 (set_listener (sock_new false) (Some 1%nat)) in
  buf_react 1024 r /\ small_react r /\ buf_script 1024 (w_in w) /\ fst (listen r w) = Ret tt.
Proof. cbv zeta. repeat split; try (intros l log; repeat constructor); repeat constructor. Qed.

(** * C16: oversized control frames *)
Theorem C16_oversized_control_partial : forall react w o w' fs lf fin r1 r2 r3 op k n rest,
  good react w -> history_ok (open_of (w_sock w)) fs = true ->
  op = 8 \/ op = 9 \/ op = 10 -> 125 < n < 2 ^ 63 -> lform_ok lf n = true ->
  bytes_of (w_in w) = wires fs ++ rfc_header lf fin r1 r2 r3 op k n ++ rest ->
  listen react w = (o, w') ->
  o = Ret tt /\ bytes_of (w_in w') = rest /\
  exists new, w_log w' = w_log w ++ new /\ transcript new = seen (w_sock w) (frames_shown fs).
Proof.
  intros react w o w' fs lf fin r1 r2 r3 op k n rest Hg Hok Hop Hn Hlf Hbs E.
  eapply rejects; try eassumption; [lia|now apply lform_ok_fits|].
  unfold accepts. cbn [i_opcode i_len]. unfold eff_len. destruct (N.ltb_spec n (2 ^ 63)); [|lia].
  destruct Hop as [->|[->| ->]]; lia.
Qed.
Print Assumptions C16_oversized_control_partial.

(** Under any failure no call is made for it. *)
Theorem C16_never_called : forall react w o w' fs lf fin r1 r2 r3 op k n rest,
  stop_only (w_in w) -> last_ok (w_sock w) -> tame_react react -> history_ok (open_of (w_sock w)) fs = true ->
  op = 8 \/ op = 9 \/ op = 10 -> 125 < n < 2 ^ 63 -> lform_ok lf n = true ->
  bytes_of (w_in w) = wires fs ++ rfc_header lf fin r1 r2 r3 op k n ++ rest ->
  listen react w = (o, w') ->
  exists new, w_log w' = w_log w ++ new /\ prefix (transcript new) (frames_shown fs).
Proof.
  intros react w o w' fs lf fin r1 r2 r3 op k n rest Hs Hl Ht Hok Hop Hn Hlf Hbs E.
  eapply rejects_safe; try eassumption; [lia|now apply lform_ok_fits|].
  unfold accepts. cbn [i_opcode i_len]. unfold eff_len. destruct (N.ltb_spec n (2 ^ 63)); [|lia].
  destruct Hop as [->|[->| ->]]; lia.
Qed.
Print Assumptions C16_never_called.

(** Refuted for lengths with the top bit set: the frame counts as empty and is delivered. *)
Theorem C16_top_bit_control_refuted : forall react w o w' fs fin r1 r2 r3 op k n rest,
  good react w -> history_ok (open_of (w_sock w)) fs = true ->
  op = 9 \/ op = 10 -> 2 ^ 63 <= n < 2 ^ 64 ->
  bytes_of (w_in w) = wires fs ++ rfc_header L64 fin r1 r2 r3 op k n ++ rest ->
  listen react w = (o, w') ->
  exists new, w_log w' = w_log w ++ new /\
    transcript new = seen (w_sock w) (frames_shown fs ++ [if op =? 9 then OPing [] else OPong []] ++
                                      stream_reading (open_after (open_of (w_sock w)) fs) rest).
Proof.
  intros react w o w' fs fin r1 r2 r3 op k n rest Hg Hok Hop Hn Hbs E.
  destruct (listen_hist react w o w' _ _ Hg Hbs Hok E) as (new & G1 & _ & G3 & _).
  exists new. split; [exact G1|]. rewrite G3. do 2 f_equal.
  rewrite (stream_empty_frame _ _ (FInfo fin (rsv_of r1 r2 r3) op k n) rest).
  - destruct Hop as [-> | ->]; reflexivity.
  - apply rd_header_rfc; [lia|cbn; lia].
  - cbn [i_len]. unfold eff_len. destruct (N.ltb_spec n (2 ^ 63)); [lia|reflexivity].
  - unfold accepts, eff_len. cbn [i_len i_opcode]. destruct (N.ltb_spec n (2 ^ 63)); [lia|].
    destruct Hop as [-> | ->]; reflexivity.
  - cbn [i_opcode]. lia.
Qed.
Print Assumptions C16_top_bit_control_refuted.

Example C16_nonvacuous :
  let w := demo [RData x89 [x00; x89; x7e; x00]; RData x7e [x61; x62]] in
  good ponger w /\ bytes_of (w_in w) = wires [(L7, RFrame true false false false 9 None [])] ++
                     rfc_header L16 true false false false 9 None 126 ++ [x61; x62] /\
  w_log (snd (listen ponger w)) = [(7%nat, EvPing [])].
Proof. cbv zeta. split; [demo_ok|]. split; vm_compute; reflexivity. Qed.

(** * C17: unknown opcodes *)
Theorem C17_unknown_opcode : forall react w o w' fs lf fin r1 r2 r3 op k n rest,
  good react w -> history_ok (open_of (w_sock w)) fs = true ->
  3 <= op <= 7 \/ 11 <= op <= 15 -> lform_fits lf n ->
  bytes_of (w_in w) = wires fs ++ rfc_header lf fin r1 r2 r3 op k n ++ rest ->
  listen react w = (o, w') ->
  o = Ret tt /\ bytes_of (w_in w') = rest /\
  exists new, w_log w' = w_log w ++ new /\ transcript new = seen (w_sock w) (frames_shown fs).
Proof.
  intros react w o w' fs lf fin r1 r2 r3 op k n rest Hg Hok Hop Hlf Hbs E.
  eapply rejects; try eassumption; [lia|].
  unfold accepts. cbn [i_opcode].
  assert (op = 3 \/ op = 4 \/ op = 5 \/ op = 6 \/ op = 7 \/ op = 11 \/ op = 12 \/ op = 13 \/ op = 14 \/ op = 15) as H by lia.
  repeat (destruct H as [->|H]; [reflexivity|]). now rewrite H.
Qed.
Print Assumptions C17_unknown_opcode.

Theorem C17_never_called : forall react w o w' fs lf fin r1 r2 r3 op k n rest,
  stop_only (w_in w) -> last_ok (w_sock w) -> tame_react react -> history_ok (open_of (w_sock w)) fs = true ->
  3 <= op <= 7 \/ 11 <= op <= 15 -> lform_fits lf n ->
  bytes_of (w_in w) = wires fs ++ rfc_header lf fin r1 r2 r3 op k n ++ rest ->
  listen react w = (o, w') ->
  exists new, w_log w' = w_log w ++ new /\ prefix (transcript new) (frames_shown fs).
Proof.
  intros react w o w' fs lf fin r1 r2 r3 op k n rest Hs Hl Ht Hok Hop Hlf Hbs E.
  eapply rejects_safe; try eassumption; [lia|].
  unfold accepts. cbn [i_opcode].
  assert (op = 3 \/ op = 4 \/ op = 5 \/ op = 6 \/ op = 7 \/ op = 11 \/ op = 12 \/ op = 13 \/ op = 14 \/ op = 15) as H by lia.
  repeat (destruct H as [->|H]; [reflexivity|]). now rewrite H.
Qed.
Print Assumptions C17_never_called.

Example C17_nonvacuous :
  let w := demo [RData x81 [x00; x83; x02; x61; x62; x81; x00]] in
  good passive w /\ bytes_of (w_in w) = wires [(L7, RFrame true false false false 1 None [])] ++
                      rfc_header L7 true false false false 3 None 2 ++ [x61; x62; x81; x00] /\
  w_log (snd (listen passive w)) = [(7%nat, EvEnd 1)].
Proof. cbv zeta. split; [demo_ok|]. split; vm_compute; reflexivity. Qed.

(** * C18: fragmentation protocol errors *)
(** A continuation frame when no fragmented message was ever started. *)
Theorem C18_stray_continuation : forall react w o w' fs lf fin r1 r2 r3 k n rest,
  good react w -> open_of (w_sock w) = false -> history_ok false fs = true -> started fs = false ->
  lform_fits lf n ->
  bytes_of (w_in w) = wires fs ++ rfc_header lf fin r1 r2 r3 0 k n ++ rest ->
  listen react w = (o, w') ->
  o = Ret tt /\ bytes_of (w_in w') = rest /\
  exists new, w_log w' = w_log w ++ new /\ transcript new = seen (w_sock w) (frames_shown fs).
Proof.
  intros react w o w' fs lf fin r1 r2 r3 k n rest Hg Ho Hok Hst Hlf Hbs E.
  eapply rejects; try eassumption; rewrite ?Ho; [exact Hok|lia|].
  rewrite open_started, Hst by exact Hok. reflexivity.
Qed.
Print Assumptions C18_stray_continuation.

(** A text or binary frame while a fragmented message is open. *)
Theorem C18_interrupted_message : forall react w o w' fs lf fin r1 r2 r3 op k n rest,
  good react w -> open_of (w_sock w) = false -> history_ok false fs = true -> msg_open false fs = true ->
  op = 1 \/ op = 2 -> lform_fits lf n ->
  bytes_of (w_in w) = wires fs ++ rfc_header lf fin r1 r2 r3 op k n ++ rest ->
  listen react w = (o, w') ->
  o = Ret tt /\ bytes_of (w_in w') = rest /\
  exists new, w_log w' = w_log w ++ new /\ transcript new = seen (w_sock w) (frames_shown fs).
Proof.
  intros react w o w' fs lf fin r1 r2 r3 op k n rest Hg Ho Hok Hst Hop Hlf Hbs E.
  eapply rejects; try eassumption; rewrite ?Ho; [exact Hok|lia|].
  apply msg_open_started in Hst. destruct Hst as [?|Hst]; [discriminate|].
  rewrite open_started, Hst by exact Hok. destruct Hop as [-> | ->]; reflexivity.
Qed.
Print Assumptions C18_interrupted_message.

(** Control frames between fragments are delivered and do not disturb the message. *)
Theorem C18_control_between_fragments : forall react w o w' fs1 fs2 rest lf f l,
  good react w -> open_of (w_sock w) = false -> s_listener (w_sock w) = Some l ->
  history_ok false (fs1 ++ fs2) = true -> f_opcode f = 9 \/ f_opcode f = 10 -> lenN (f_payload f) <= 125 ->
  lform_ok lf (lenN (f_payload f)) = true ->
  bytes_of (w_in w) = wires (fs1 ++ (lf, f) :: fs2) ++ rest ->
  listen react w = (o, w') ->
  exists new more, w_log w' = w_log w ++ new /\
    transcript new = frames_shown fs1 ++ [if f_opcode f =? 9 then OPing (f_payload f) else OPong (f_payload f)]
                     ++ frames_shown fs2 ++ more /\
    more = stream_reading (open_after false (fs1 ++ fs2)) rest.
Proof.
  intros react w o w' fs1 fs2 rest lf f l Hg Ho Hl Hok Hop Hlen Hlf Hbs E.
  rewrite history_ok_app in Hok. apply andb_true_iff in Hok. destruct Hok as [Hok1 Hok2].
  assert (next_open (open_after false fs1) (finfo_of f) = open_after false fs1) as Hno.
  { unfold next_open. cbn. destruct Hop as [-> | ->]; reflexivity. }
  assert (history_ok false (fs1 ++ (lf, f) :: fs2) = true) as Hok.
  { rewrite history_ok_app, Hok1. cbn [andb history_ok]. rewrite Hno, Hok2, Hlf.
    replace (accepts (open_after false fs1) (finfo_of f)) with true.
    - destruct Hop as [-> | ->]; reflexivity.
    - unfold accepts, eff_len. cbn [finfo_of i_opcode i_len]. destruct Hop as [-> | ->]; destruct (_ <? _); lia. }
  rewrite <- Ho in Hok. destruct (listen_hist react w o w' _ _ Hg Hbs Hok E) as (new & G1 & _ & G3 & _).
  rewrite (seen_some _ _ _ Hl), Ho in G3. rewrite open_after_app in G3. cbn [open_after] in G3. rewrite Hno in G3.
  exists new. eexists. split; [exact G1|]. split; [|reflexivity]. rewrite open_after_app, G3, frames_shown_app, <- app_assoc. f_equal.
  change ((lf, f) :: fs2) with ([(lf, f)] ++ fs2). rewrite frames_shown_app, <- app_assoc. f_equal.
  unfold frames_shown, frame_shown, shown. cbn. destruct Hop as [-> | ->]; reflexivity.
Qed.
Print Assumptions C18_control_between_fragments.

Example C18_nonvacuous :
  let first := (L7, RFrame false false false false 1 None [x61]) in
  let ping := (L7, RFrame true false false false 9 None [x2a]) in
  let w1 := demo [RData x01 [x01; x61; x89; x01; x2a; x81; x01; x62]] in
  let w2 := demo [RData x81 [x00; x80; x01; x62]] in
  good passive w1 /\ good passive w2 /\ history_ok false [first; ping] = true /\ msg_open false [first; ping] = true /\
  w_log (snd (listen passive w1)) = [(7%nat, EvMsg 1 [x61]); (7%nat, EvPing [x2a])] /\
  w_log (snd (listen passive w2)) = [(7%nat, EvEnd 1)].
Proof. cbv zeta. split; [demo_ok|]. split; [demo_ok|]. repeat split; vm_compute; reflexivity. Qed.

(** * C19: a connection survives a fragmented message - refuted *)
(** Whatever history contains a fragmented message, complete or not, the next text or binary frame is
    rejected and ends listening. *)
Theorem C19_next_message_rejected_refuted : forall react w o w' fs lf f rest,
  good react w -> open_of (w_sock w) = false -> history_ok false fs = true -> started fs = true ->
  f_opcode f = 1 \/ f_opcode f = 2 -> lform_ok lf (lenN (f_payload f)) = true ->
  bytes_of (w_in w) = wires fs ++ wire lf f ++ rest ->
  listen react w = (o, w') ->
  o = Ret tt /\ bytes_of (w_in w') = masked_opt (f_key f) (f_payload f) ++ rest /\
  exists new, w_log w' = w_log w ++ new /\ transcript new = seen (w_sock w) (frames_shown fs).
Proof.
  intros react w o w' fs lf f rest Hg Ho Hok Hst Hop Hlf Hbs E.
  unfold wire in Hbs. rewrite <- app_assoc in Hbs.
  eapply rejects; try eassumption; rewrite ?Ho; [exact Hok|lia|now apply lform_ok_fits|].
  rewrite open_started, Hst by exact Hok. unfold accepts. cbn [i_opcode]. destruct Hop as [-> | ->]; reflexivity.
Qed.
Print Assumptions C19_next_message_rejected_refuted.

(** What survives: pings and pongs after the fragmented message are still delivered, and so are text and
    binary messages as long as no fragmented message was received. *)
Theorem C19_survives_partial : forall react w o w' fs lf f rest l,
  good react w -> open_of (w_sock w) = false -> history_ok false fs = true -> s_listener (w_sock w) = Some l ->
  ((f_opcode f = 1 \/ f_opcode f = 2) /\ started fs = false) \/
  ((f_opcode f = 9 \/ f_opcode f = 10) /\ lenN (f_payload f) <= 125) ->
  lform_ok lf (lenN (f_payload f)) = true ->
  bytes_of (w_in w) = wires fs ++ wire lf f ++ rest ->
  listen react w = (o, w') ->
  exists new, w_log w' = w_log w ++ new /\ prefix (frames_shown fs ++ frame_shown f) (transcript new).
Proof.
  intros react w o w' fs lf f rest l Hg Ho Hok Hl Hf Hlf Hbs E.
  assert (history_ok (open_of (w_sock w)) (fs ++ [(lf, f)]) = true) as Hok'.
  { rewrite Ho, history_ok_app, Hok, open_started by exact Hok. cbn [andb orb history_ok]. rewrite Hlf.
    replace (accepts (started fs) (finfo_of f)) with true; [destruct Hf as [[[-> | ->] _]|[[-> | ->] _]]; reflexivity|].
    unfold accepts, eff_len. cbn [finfo_of i_opcode i_len].
    destruct Hf as [[[-> | ->] ->]|[[-> | ->] Hlen]]; try reflexivity; destruct (_ <? _); lia. }
  destruct (listens_frame react w o w' fs lf f rest Hg Hok' Hbs E) as (new & G1 & _ & G3).
  exists new. split; [exact G1|]. rewrite (seen_some _ _ _ Hl), app_assoc in G3. rewrite G3. apply prefix_app_r.
Qed.
Print Assumptions C19_survives_partial.

Example C19_nonvacuous :
  let fs := [(L7, RFrame false false false false 1 None [x61]); (L7, RFrame true false false false 0 None [x62])] in
  let w := demo [RData x01 [x01; x61; x80; x01; x62; x81; x01; x63]] in
  good passive w /\ history_ok false fs = true /\ started fs = true /\ msg_open false fs = false /\
  bytes_of (w_in w) = wires fs ++ wire L7 (RFrame true false false false 1 None [x63]) ++ [] /\
  w_log (snd (listen passive w)) = [(7%nat, EvMsg 1 [x61]); (7%nat, EvMsg 0 [x62]); (7%nat, EvEnd 0)] /\
  w_in (snd (listen passive w)) = [RData x63 []].
Proof. cbv zeta. split; [demo_ok|]. repeat split; vm_compute; reflexivity. Qed.

(** * C20: opcode of fragments - refuted *)
(** Every byte of a continuation frame, and the end of the message, is reported under opcode 0. *)
Theorem C20_continuation_opcode_refuted : forall react w o w' fs lf f rest l,
  good react w -> open_of (w_sock w) = false -> s_listener (w_sock w) = Some l ->
  history_ok false fs = true -> msg_open false fs = true ->
  f_opcode f = 0 -> lform_ok lf (lenN (f_payload f)) = true ->
  bytes_of (w_in w) = wires fs ++ wire lf f ++ rest ->
  listen react w = (o, w') ->
  exists new, w_log w' = w_log w ++ new /\
    prefix (frames_shown fs ++ map (OByte 0) (f_payload f) ++ (if f_fin f then [OEnd 0] else [])) (transcript new).
Proof.
  intros react w o w' fs lf f rest l Hg Ho Hl Hok Hst Hop Hlf Hbs E.
  apply msg_open_started in Hst. destruct Hst as [?|Hst]; [discriminate|].
  assert (history_ok (open_of (w_sock w)) (fs ++ [(lf, f)]) = true) as Hok'.
  { rewrite Ho, history_ok_app, Hok, open_started, Hst by exact Hok. cbn [andb orb history_ok]. rewrite Hlf.
    unfold accepts. cbn [finfo_of i_opcode]. rewrite Hop. reflexivity. }
  destruct (listens_frame react w o w' fs lf f rest Hg Hok' Hbs E) as (new & G1 & _ & G3).
  exists new. split; [exact G1|]. rewrite (seen_some _ _ _ Hl), app_assoc in G3. rewrite G3.
  unfold frame_shown at 1, shown. rewrite Hop. apply prefix_app_r.
Qed.
Print Assumptions C20_continuation_opcode_refuted.

(** True while no continuation frame arrives, under any failure: opcodes are TEXT or BINARY, those of the frames. *)
Theorem C20_unfragmented_partial : forall react w o w' fs,
  stop_only (w_in w) -> last_ok (w_sock w) -> tame_react react -> open_of (w_sock w) = false ->
  history_ok false fs = true -> Forall (fun x => f_opcode (snd x) <> 0) fs -> prefix (bytes_of (w_in w)) (wires fs) ->
  listen react w = (o, w') ->
  exists new, w_log w' = w_log w ++ new /\ prefix (transcript new) (frames_shown fs) /\
    Forall (fun e => match snd e with EvMsg op _ | EvEnd op => op = 1 \/ op = 2 | _ => True end) new.
Proof.
  intros react w o w' fs Hs Hl Ht Ho Hok Hnc [t Hpre] E.
  destruct (listen_safe react w o w' Hs Hl Ht E) as (_ & new & G1 & _ & G3 & _).
  pose proof (binv_listen react (s_buf (w_sock w)) (tame_buf _ _ Ht) w o w') as Hb.
  destruct Hb as (_ & (new' & Hn' & Hsz) & _); [split; [now apply stop_only_buf|reflexivity]|exact E|].
  assert (new' = new) as -> by (rewrite G1 in Hn'; now apply app_inv_head in Hn').
  exists new. split; [exact G1|].
  assert (prefix (transcript new) (frames_shown fs)) as Hpx.
  { rewrite Ho in G3. eapply prefix_trans; [exact G3|]. eapply prefix_trans; [apply (stream_trunc _ _ t)|]. rewrite <- Hpre.
    destruct (stream_wires fs false [] Hok) as [S1 _]. rewrite app_nil_r in S1. rewrite S1.
    replace (stream_reading (open_after false fs) []) with (@nil obs) by reflexivity. rewrite app_nil_r. apply prefix_refl. }
  split; [exact Hpx|]. clear G3 E G1 Hn'.
  assert (forall o, In o (frames_shown fs) -> match o with OByte op _ | OEnd op => op = 1 \/ op = 2 | _ => True end) as Hfs.
  { clear -Hok Hnc. revert Hok. generalize false as opn. induction Hnc as [|[lf f] r Hf _ IH]; intros opn Hok ob Hin; [contradiction|].
    cbn [history_ok] in Hok. rewrite !andb_true_iff in Hok. destruct Hok as ((((H1 & H2) & H3) & H4) & H5).
    unfold frames_shown in Hin. cbn [flat_map snd] in Hin. apply in_app_or in Hin. destruct Hin as [Hin|Hin]; [|eapply IH; eassumption].
    unfold frame_shown, shown in Hin. cbn [fst snd] in Hf. unfold accepts in H3. cbn [finfo_of i_opcode] in H3.
    assert (forall x, x = 1 \/ x = 2 -> In ob (map (OByte x) (f_payload f) ++ (if true && f_fin f then [OEnd x] else [])) ->
              match ob with OByte op _ | OEnd op => op = 1 \/ op = 2 | _ => True end) as Hd.
    { intros x Hx Hi. apply in_app_or in Hi. destruct Hi as [Hi|Hi].
      - apply in_map_iff in Hi. destruct Hi as (b & <- & _). exact Hx.
      - destruct (true && f_fin f)%bool; [|contradiction]. destruct Hi as [<-|[]]. exact Hx. }
    destruct (f_opcode f) as [|[[[[p|p|]|[p|p|]|]|[[p|p|]|[p|p|]|]|]|[[[p|p|]|[p|p|]|]|[[p|p|]|[p|p|]|]|]|]];
      try discriminate H3; try congruence;
      first [ destruct Hin as [<-|[]]; try exact I; destruct (close_obs_is (f_payload f)) as (c & m & ->); exact I
            | apply Hd in Hin; [exact Hin|lia] ]. }
  assert (Forall (fun o => match o with OByte op _ | OEnd op => op = 1 \/ op = 2 | _ => True end) (transcript new)) as Htn.
  { apply Forall_forall. intros x Hx. apply Hfs. destruct Hpx as [t' ->]. apply in_or_app. now left. }
  clear -Htn Hsz. induction new as [|[l ev] r IH]; [constructor|].
  change (transcript ((l, ev) :: r)) with (observe ev ++ transcript r) in Htn.
  apply Forall_app in Htn. destruct Htn as [T1 T2]. inversion Hsz as [|? ? S1 S2]; subst. constructor; [|now apply IH].
  cbn [snd]. destruct ev as [op d|op|x|x|y x]; try exact I; cbn in T1.
  - destruct d as [|b d]; [cbn in S1; unfold lenN in S1; cbn in S1; lia|]. inversion T1; subst. assumption.
  - inversion T1; subst. assumption.
Qed.
Print Assumptions C20_unfragmented_partial.

Example C20_nonvacuous :
  let fs := [(L7, RFrame true false false false 2 None [x61]); (L7, RFrame true false false false 10 None [])] in
  let w := demo [RData x82 [x01; x61; x8a]; RIo IoBroken] in
  stop_only (w_in w) /\ history_ok false fs = true /\ prefix (bytes_of (w_in w)) (wires fs) /\
  w_log (snd (listen passive w)) = [(7%nat, EvMsg 2 [x61]); (7%nat, EvEnd 2)].
Proof.
  cbv zeta. split; [repeat constructor|]. split; [vm_compute; reflexivity|]. split; [|vm_compute; reflexivity].
  exists [x00]. vm_compute. reflexivity.
Qed.

(** * C21: payload lengths with the top bit set - refuted *)
(** The frame is taken for an empty one: its end is reported and what follows the header is read as frames. *)
Theorem C21_top_bit_accepted_refuted : forall react w o w' fs fin r1 r2 r3 op k n rest,
  good react w -> open_of (w_sock w) = false -> history_ok false fs = true -> started fs = false ->
  op = 1 \/ op = 2 -> 2 ^ 63 <= n < 2 ^ 64 ->
  bytes_of (w_in w) = wires fs ++ rfc_header L64 fin r1 r2 r3 op k n ++ rest ->
  listen react w = (o, w') ->
  exists new, w_log w' = w_log w ++ new /\
    transcript new = seen (w_sock w) (frames_shown fs ++ (if fin then [OEnd op] else []) ++ stream_reading (negb fin) rest).
Proof.
  intros react w o w' fs fin r1 r2 r3 op k n rest Hg Ho Hok Hst Hop Hn Hbs E.
  rewrite <- Ho in Hok.
  destruct (listen_hist react w o w' _ _ Hg Hbs Hok E) as (new & G1 & _ & G3 & _).
  exists new. split; [exact G1|]. rewrite G3, open_started, Ho, Hst by exact Hok. do 2 f_equal. cbn [orb].
  rewrite (stream_empty_frame _ _ (FInfo fin (rsv_of r1 r2 r3) op k n) rest).
  - destruct Hop as [-> | ->]; unfold next_open, shown; cbn [i_opcode i_fin andb]; reflexivity.
  - apply rd_header_rfc; [lia|cbn; lia].
  - cbn [i_len]. unfold eff_len. destruct (N.ltb_spec n (2 ^ 63)); [lia|reflexivity].
  - destruct Hop as [-> | ->]; reflexivity.
  - cbn [i_opcode]. lia.
Qed.
Print Assumptions C21_top_bit_accepted_refuted.

(** Lengths below 2^63 are the only ones honoured; what does hold of the forbidden ones is that no byte is
    delivered under the frame's own header: the payload bytes are read as frames. (A control frame with such a
    length: C16_top_bit_control_refuted.) *)
Example C21_nonvacuous :
  let w := demo [RData x81 [x7f; x80; x00; x00; x00; x00; x00; x00; x00; x82; x01; x61]] in
  good passive w /\
  bytes_of (w_in w) = wires [] ++ rfc_header L64 true false false false 1 None (2 ^ 63) ++ [x82; x01; x61] /\
  w_log (snd (listen passive w)) = [(7%nat, EvEnd 1); (7%nat, EvMsg 2 [x61]); (7%nat, EvEnd 2)].
Proof. cbv zeta. split; [demo_ok|]. split; vm_compute; reflexivity. Qed.

(** * C22: receive-side validation - refuted *)
(** RSV bits, FIN of control frames and masking make no difference: listening to a history is the same as
    listening to the history with RSV cleared, masking removed and FIN set on control frames. *)
Theorem C22_not_validated_refuted : forall react1 react2 w1 w2 o1 o2 w1' w2' fs rest l,
  good react1 w1 -> good react2 w2 -> open_of (w_sock w1) = false -> open_of (w_sock w2) = false ->
  s_listener (w_sock w1) = Some l -> s_listener (w_sock w2) = Some l ->
  history_ok false fs = true ->
  bytes_of (w_in w1) = wires fs ++ rest ->
  bytes_of (w_in w2) = wires (map (fun x => (fst x, cleaned (snd x))) fs) ++ rest ->
  listen react1 w1 = (o1, w1') -> listen react2 w2 = (o2, w2') ->
  exists new1 new2, w_log w1' = w_log w1 ++ new1 /\ w_log w2' = w_log w2 ++ new2 /\
    transcript new1 = transcript new2 /\ o1 = o2 /\ bytes_of (w_in w1') = bytes_of (w_in w2').
Proof.
  intros react1 react2 w1 w2 o1 o2 w1' w2' fs rest l Hg1 Hg2 Ho1 Ho2 Hl1 Hl2 Hok Hb1 Hb2 E1 E2.
  fold (clean_all fs) in Hb2. destruct (cleaned_history fs false) as (H1 & H2 & H3).
  destruct (listen_hist react1 w1 o1 w1' fs rest Hg1 Hb1) as (n1 & A1 & _ & A3 & _ & A5); [now rewrite Ho1|exact E1|].
  destruct (listen_hist react2 w2 o2 w2' (clean_all fs) rest Hg2 Hb2) as (n2 & B1 & _ & B3 & _ & B5);
    [rewrite Ho2, H1; exact Hok|exact E2|].
  rewrite Ho1 in *. rewrite Ho2, H2, H3 in *. rewrite (seen_some _ _ _ Hl1) in A3. rewrite (seen_some _ _ _ Hl2) in B3.
  exists n1, n2. split; [exact A1|]. split; [exact B1|]. split; [congruence|].
  destruct (stream_ending _ rest); [| | |contradiction]; destruct A5 as [-> A5], B5 as [-> B5]; split; congruence.
Qed.
Print Assumptions C22_not_validated_refuted.

Example C22_nonvacuous :
  let fs := [(L7, RFrame true true false true 1 None [x61]);                            (* RSV1, RSV3 *)
             (L7, RFrame false false false false 9 (Some (Mask4 x01 x01 x01 x01)) [x62]); (* ping without FIN *)
             (L7, RFrame true false false false 2 None [])] in                           (* unmasked to a server *)
  let w := demo [RData xd1 [x01; x61; x09; x81; x01; x01]; RData x01 [x01; x63; x82; x00]] in
  good passive w /\ history_ok false fs = true /\ bytes_of (w_in w) = wires fs ++ [] /\
  w_log (snd (listen passive w)) = [(7%nat, EvMsg 1 [x61]); (7%nat, EvEnd 1); (7%nat, EvPing [x62]); (7%nat, EvEnd 2)].
Proof. cbv zeta. split; [demo_ok|]. repeat split; vm_compute; reflexivity. Qed.

(** * C46: stray continuation frames - refuted *)
(** After any history with a fragmented message - also one completed by its FIN frame - a continuation frame
    is accepted and reported. (The case without such a history: C18_stray_continuation.) *)
Theorem C46_stray_continuation_accepted_refuted : forall react w o w' fs lf f rest l,
  good react w -> open_of (w_sock w) = false -> s_listener (w_sock w) = Some l ->
  history_ok false fs = true -> started fs = true -> msg_open false fs = false ->
  f_opcode f = 0 -> lform_ok lf (lenN (f_payload f)) = true ->
  bytes_of (w_in w) = wires fs ++ wire lf f ++ rest ->
  listen react w = (o, w') ->
  exists new, w_log w' = w_log w ++ new /\
    prefix (frames_shown fs ++ map (OByte 0) (f_payload f) ++ (if f_fin f then [OEnd 0] else [])) (transcript new).
Proof.
  intros react w o w' fs lf f rest l Hg Ho Hl Hok Hst _ Hop Hlf Hbs E.
  assert (history_ok (open_of (w_sock w)) (fs ++ [(lf, f)]) = true) as Hok'.
  { rewrite Ho, history_ok_app, Hok, open_started, Hst by exact Hok. cbn [andb orb history_ok]. rewrite Hlf.
    unfold accepts. cbn [finfo_of i_opcode]. rewrite Hop. reflexivity. }
  destruct (listens_frame react w o w' fs lf f rest Hg Hok' Hbs E) as (new & G1 & _ & G3).
  exists new. split; [exact G1|]. rewrite (seen_some _ _ _ Hl), app_assoc in G3. rewrite G3.
  unfold frame_shown at 1, shown. rewrite Hop. apply prefix_app_r.
Qed.
Print Assumptions C46_stray_continuation_accepted_refuted.

Example C46_nonvacuous :
  let fs := [(L7, RFrame false false false false 1 None [x61]); (L7, RFrame true false false false 0 None [x62])] in
  let w := demo [RData x01 [x01; x61; x80; x01; x62; x80; x01; x63]] in
  good passive w /\ history_ok false fs = true /\ started fs = true /\ msg_open false fs = false /\
  bytes_of (w_in w) = wires fs ++ wire L7 (RFrame true false false false 0 None [x63]) ++ [] /\
  w_log (snd (listen passive w)) = [(7%nat, EvMsg 1 [x61]); (7%nat, EvMsg 0 [x62]); (7%nat, EvEnd 0);
                                    (7%nat, EvMsg 0 [x63]); (7%nat, EvEnd 0)].
Proof. cbv zeta. split; [demo_ok|]. repeat split; vm_compute; reflexivity. Qed.

(** * C47: conforming unfragmented streams are read as RFC 6455 prescribes *)
Theorem C47_conforming_stream : forall react w o w' msk k l,
  good react w -> open_of (w_sock w) = false -> s_listener (w_sock w) = Some l ->
  (length (bytes_of (w_in w)) < k)%nat ->
  unfragmented k (bytes_of (w_in w)) = true ->
  not_rejected (snd (rfc_reading k msk None (bytes_of (w_in w)))) = true ->
  listen react w = (o, w') ->
  exists new, w_log w' = w_log w ++ new /\
    transcript new = fst (rfc_reading k msk None (bytes_of (w_in w))) /\
    match snd (rfc_reading k msk None (bytes_of (w_in w))) with
    | Blocked => o = Wait /\ w_in w' = []
    | Closed rest => o = Ret tt /\ bytes_of (w_in w') = rest
    | _ => False
    end.
Proof.
  intros react w o w' msk k l Hg Ho Hl Hk Hu Hn E.
  destruct Hg as (A1 & A2 & A3 & A4 & A5 & A6).
  destruct (listen_exact react w o w') as (new & C1 & _ & C3 & C4 & _); try assumption.
  pose proof (stream_enough k false _ Hk) as HS. rewrite (rfc_same k msk) in HS by assumption.
  rewrite HS in *. cbn [fst snd] in *. rewrite Ho in *. exists new. split; [exact C1|].
  rewrite (seen_some _ _ _ Hl) in C3. split; [exact C3|].
  destruct (stream_ending _ _); try exact C4. discriminate.
Qed.
Print Assumptions C47_conforming_stream.

(** In any unfragmented stream, everything the RFC prescribes to deliver before the first violation is delivered. *)
Theorem C47_until_first_violation : forall react w o w' msk k l,
  good react w -> open_of (w_sock w) = false -> s_listener (w_sock w) = Some l ->
  (length (bytes_of (w_in w)) < k)%nat -> unfragmented k (bytes_of (w_in w)) = true ->
  listen react w = (o, w') ->
  exists new, w_log w' = w_log w ++ new /\ prefix (fst (rfc_reading k msk None (bytes_of (w_in w)))) (transcript new).
Proof.
  intros react w o w' msk k l Hg Ho Hl Hk Hu E.
  destruct Hg as (A1 & A2 & A3 & A4 & A5 & A6).
  destruct (listen_exact react w o w') as (new & C1 & _ & C3 & C4 & _); try assumption.
  exists new. split; [exact C1|]. rewrite C3, (seen_some _ _ _ Hl), Ho.
  pose proof (stream_enough k false _ Hk) as HS. pose proof (rfc_prefix k msk _ Hu) as HP. rewrite HS in HP. exact HP.
Qed.
Print Assumptions C47_until_first_violation.

Example C47_nonvacuous :
  let w := demo demo_seg in
  good ponger w /\ unfragmented 60 (bytes_of (w_in w)) = true /\
  snd (rfc_reading 60 true None (bytes_of (w_in w))) = Blocked /\
  fst (rfc_reading 60 true None (bytes_of (w_in w))) = flat_map received demo_ops.
Proof. cbv zeta. split; [demo_ok|]. repeat split; vm_compute; reflexivity. Qed.
