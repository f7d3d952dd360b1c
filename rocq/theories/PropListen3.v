(** Property theorems about the blocking socket, part 3 (C24, C25, C27, C44, C45). *)
From Verif Require Import Bytes Frame World WebSocket SpecFrame SpecSend SpecListen SpecApi
  ProofFrame ProofStream ProofSend ProofHeader ProofListen ProofReading ProofApi ProofInv ProofRel ProofSilent ProofProps
  ProofHistory PropListen.
From Coq Require Import ZifyBool ZifyNat ZifyN.
Local Open Scope N_scope.
Local Arguments takeN : simpl never.
Local Arguments dropN : simpl never.
Local Arguments lenN : simpl never.
Local Arguments be_enc : simpl never.
Local Arguments be_dec : simpl never.

(** * C24: role-correct masking *)
(** For every program using a socket configured with masking [m], every listener that does not change it, and
    whatever the connection does: the bytes written are a sequence of frames (of which, after a failure, only a
    part may have been written), each masked iff [m] and with zero RSV bits. *)
Theorem C24_masking_of_everything_sent : forall m react cs w o w',
  s_mask (w_sock w) = m -> mask_react m react -> script_ok (mask_ext m) any_err (w_in w) -> Forall (fit_call m) cs ->
  run_calls react cs w = (o, w') ->
  exists fs, w_out w' = w_out w ++ concat (map snd fs) /\ Forall (frame_piece m) fs /\
             (healthy (w_wr w) -> Forall frame_whole fs).
Proof.
  intros m react cs w o w' Hm Hr Hs Hc E.
  cut (sends_rel m true w w').
  { intros H. destruct (H Hm) as (_ & fs & H1 & H2 & H3). exists fs. split; [exact H1|]. split; [exact H2|].
    intros Hh. apply H3, Hh. }
  clear Hm. revert w o w' Hs E. induction Hc as [|c cs Hc _ IH]; intros w o w' Hs E; cbn [run_calls] in E.
  - injection E as <- <-. apply sends_refl.
  - unfold bind in E. destruct (run_call react c w) as [o1 w1] eqn:E1.
    assert (script_ok (mask_ext m) any_err (w_in w1) /\ sends_rel m true w w1) as [Hs1 H1].
    { unfold run_call, try_ in E1. set (mm := match c with KSend _ => _ | _ => _ end) in E1.
      destruct (mm w) as [o2 w2] eqn:E2.
      assert (w2 = w1) as -> by (destruct o2; congruence). clear E1. unfold mm in E2. destruct c as [op| | | |l].
      - split; [|eapply sends_send; eassumption]. assert (keeps (send op)) as K by auto with keeps. apply K in E2.
        destruct E2 as [(Hin & _) _]. congruence.
      - eapply sends_listen; eassumption.
      - unfold bind in E2. destruct (iterateFrame react header_init w) as [o3 w3] eqn:E3.
        assert (w3 = w1) as -> by (destruct o3; injection E2; congruence). eapply sends_iterate; eassumption.
      - injection E2 as <- <-. split; [exact Hs|]. intros Hm; split; [exact Hm|]. exists []. cbn. rewrite app_nil_r. auto.
      - injection E2 as <- <-. split; [exact Hs|]. intros Hm; split; [exact Hm|]. exists []. cbn. rewrite app_nil_r. auto. }
    destruct o1; try (injection E as <- <-; exact H1).
    eapply sends_trans; [exact H1|]. eapply IH; eassumption.
Qed.
Print Assumptions C24_masking_of_everything_sent.

(** From the constructor on: a socket constructed with maskOutgoingMessages = [m], with either constructor, sends only frames masked as [m] says. *)
Theorem C24_constructed : forall m buf k l react cs w o w',
  k = sock_new m \/ k = sock_new_config m buf -> w_sock w = set_listener k l ->
  mask_react m react -> script_ok (mask_ext m) any_err (w_in w) -> Forall (fit_call m) cs ->
  run_calls react cs w = (o, w') ->
  exists fs, w_out w' = w_out w ++ concat (map snd fs) /\ Forall (frame_piece m) fs /\
             (healthy (w_wr w) -> Forall frame_whole fs).
Proof.
  intros m buf k l react cs w o w' Hk Hw. apply C24_masking_of_everything_sent. rewrite Hw. destruct Hk as [-> | ->]; reflexivity.
Qed.
Print Assumptions C24_constructed.

Lemma ponger_mask m : mask_react m ponger.
Proof.
  intros l log. unfold ponger. destruct (snd (last log (l, EvEnd 0))); repeat constructor.
  destruct (N.leb_spec (lenN m0) 125); repeat constructor; cbn; unfold req_payload; cbn; intros; lia.
Qed.

(** A program: a text message, then listening (a ping is answered), then a close. *)
Example C24_nonvacuous :
  let w := World [RData x89 [x01; x2a]; RIo IoZero] [WAccept 3] [] (fun i => n2b (N.of_nat i)) 0 []
                 (set_listener (sock_new true) (Some 7%nat)) in
  let cs := [KSend (SoText (Some [x61])); KListen; KSend SoClose0] in
  mask_react true ponger /\ script_ok (mask_ext true) any_err (w_in w) /\ Forall (fit_call true) cs /\ healthy (w_wr w) /\
  w_out (snd (run_calls ponger cs w)) =
    [x81; x81; x00; x01; x02; x03; x61] ++ [x8a; x81; x04; x05; x06; x07; x2e] ++ [x88; x80; x08; x09; x0a; x0b].
Proof.
  cbv zeta. split; [apply ponger_mask|]. split; [repeat constructor|].
  split; [repeat constructor; cbn; unfold req_payload; cbn; intros; lia|].
  split; [repeat constructor|]. vm_compute. reflexivity.
Qed.

(** * C25: memory safety of payload reading *)
(** With an unchanged read buffer size no write outside the buffer and no negative read count occurs, for
    every input, listener behaviour and external call; the only undefined behaviour possible is that of
    masking a message of 2^31 bytes or more inside a callback (C26). *)
Theorem C25_safe_partial : forall B react w,
  buf_react B react -> buf_script B (w_in w) -> s_buf (w_sock w) = B ->
  (forall o w', listen react w = (o, w') -> forall u, o = Ub u -> u = UbSigned /\ ~ small_react react) /\
  (forall h o w', iterateFrame react h w = (o, w') -> forall u, o = Ub u -> u = UbSigned /\ ~ small_react react).
Proof.
  intros B react w Hr Hs Hb. split.
  - intros o w' E. exact (proj2 (proj2 (binv_listen react B Hr w o w' (conj Hs Hb) E))).
  - intros h o w' E. exact (proj2 (proj2 (binv_iterate react B Hr h w o w' (conj Hs Hb) E))).
Qed.
Print Assumptions C25_safe_partial.

(** What happens if it changes: PropSafe. *)
Definition raiser (B : Z) : react_t := fun _ _ => [CSetConfig false B].

Example C25_nonvacuous :
  let w := World [RData x82 [x08; x01]; RExt (XSetConfig true 2); RData x02 [x03; x04; x05; x06; x07; x08]] [] [] (fun _ => x00) 0 []
                 (set_listener (sock_new_config false 2) (Some 7%nat)) in
  buf_react 2 (raiser 2) /\ buf_script 2 (w_in w) /\ s_buf (w_sock w) = 2%Z /\ fst (listen (raiser 2) w) = Wait /\
  length (w_log (snd (listen (raiser 2) w))) = 6%nat.
Proof. cbv zeta. split; [intros l log; repeat constructor|]. split; [repeat constructor|]. repeat split; vm_compute; reflexivity. Qed.

(** * C27: a socket without a listener *)
(** Against a world that differs only in having a listener that does nothing. *)
Theorem C27_silent : forall react l w1 w2 o w1',
  (forall log, react l log = []) -> script_ok no_install any_err (w_in w1) ->
  same_but l w1 w2 -> listen react w1 = (o, w1') ->
  exists w2', listen react w2 = (o, w2') /\ w_in w1' = w_in w2' /\ w_wr w1' = w_wr w2' /\ w_out w1' = w_out w2' /\
              s_listening (w_sock w1') = s_listening (w_sock w2') /\ s_last (w_sock w1') = s_last (w_sock w2') /\
              w_log w1' = w_log w1.
Proof.
  intros react l w1 w2 o w1' Hp Hs Hsb E.
  destruct (msim_listen react l Hp w1 w2 o w1' Hs Hsb E) as (w2' & E2 & (A1 & A2 & A3 & A4 & A5 & A6) & Hlog & _).
  exists w2'. repeat (split; [assumption || (destruct A6 as [-> _]; reflexivity)|]). exact Hlog.
Qed.
Print Assumptions C27_silent.

(** Also: without a listener nothing is sent and no call is made, whatever other listeners would do. *)
Example C27_nonvacuous :
  let s := [RData x81 [x02; x61]; RIo IoRetry; RData x62 [x89; x00; x83; x00]] in
  let w2 := demo s in
  let w1 := set_sock w2 (sock_new false) in
  same_but 7 w1 w2 /\ script_ok no_install any_err (w_in w1) /\
  fst (listen passive w1) = Ret tt /\ w_log (snd (listen passive w1)) = [] /\
  w_log (snd (listen passive w2)) = [(7%nat, EvMsg 1 [x61]); (7%nat, EvMsg 1 [x62]); (7%nat, EvEnd 1); (7%nat, EvPing [])].
Proof. cbv zeta. split; [repeat constructor|]. split; [repeat constructor|]. repeat split; vm_compute; reflexivity. Qed.

(** * C44: frames sent by the library are accepted by the library - refuted *)
(** A ping or pong above 125 bytes is sent without complaint and ends the peer's listening. *)
Theorem C44_long_ping_refuted : forall op ws os ws' react wr or wr' m,
  op = SoPing (Some m) \/ op = SoPong (Some m) -> 125 < lenN m < 2 ^ 31 -> healthy (w_wr ws) ->
  send op ws = (os, ws') ->
  good react wr -> w_out ws' = w_out ws ++ bytes_of (w_in wr) ->
  listen react wr = (or, wr') ->
  os = Ret tt /\ or = Ret tt /\ w_log wr' = w_log wr.
Proof.
  intros op ws os ws' react wr or wr' m Hop Hm Hh Es Hg Hw El.
  assert (req_payload op = m) as Hpl by (destruct Hop as [-> | ->]; reflexivity).
  pose proof (send_all_healthy [op] ws os ws' Hh) as HH. cbn [send_all] in HH. unfold bind in HH. rewrite Es in HH.
  destruct HH as (Hos & _ & _ & kops & Hk & _ & Hout).
  { repeat constructor; rewrite Hpl; intros; lia. }
  { destruct os as [[]| | | |]; reflexivity. }
  split; [exact Hos|]. rewrite Hout in Hw. apply app_inv_head in Hw. clear Hos.
  destruct kops as [|[k op'] [|]]; try discriminate. cbn in Hk. injection Hk as ->.
  cbn [wires sent_frames map flat_map fst snd] in Hw. rewrite app_nil_r in Hw. cbn [frame_for] in Hw. unfold wire in Hw.
  unfold frame_for in Hw. cbn [f_fin f_rsv1 f_rsv2 f_rsv3 f_opcode f_key f_payload] in Hw. rewrite Hpl in Hw.
  symmetry in Hw.
  destruct (rejects react wr or wr' [] (lform_min (lenN m)) (req_fin op) false false false (req_opcode op mod 16) k (lenN m)
              (masked_opt k m)) as (-> & _ & new & Hn & Ht); try assumption; try reflexivity.
  - apply N.mod_lt. lia.
  - apply lform_ok_fits, lform_min_ok. lia.
  - unfold accepts, eff_len. cbn [i_opcode i_len]. destruct (N.ltb_spec (lenN m) (2 ^ 63)); [|lia].
    destruct Hop as [-> | ->]; cbn; lia.
  - split; [reflexivity|].
    assert (transcript new = []) as Ht0 by (rewrite Ht; unfold seen; destruct (s_listener _); reflexivity).
    destruct Hg as (A1 & A2 & A3 & A4 & A5 & A6).
    destruct (listen_exact react wr _ wr' A1 A2 A3 A4 A5 A6 El) as (new2 & C1 & _).
    assert (buf_react (s_buf (w_sock wr)) react) as Hbr.
    { intros l log. eapply Forall_impl; [|apply A3]. intros [] H; cbn in *; try exact I; contradiction. }
    assert (buf_script (s_buf (w_sock wr)) (w_in wr)) as Hbs.
    { eapply Forall_impl; [|exact A1]. intros [] H; cbn in *; try exact I; try contradiction. }
    destruct (binv_listen react _ Hbr wr _ wr' (conj Hbs eq_refl) El) as (_ & (new3 & Hn3 & Hsz) & _).
    assert (new3 = new) as -> by (rewrite Hn in Hn3; now apply app_inv_head in Hn3).
    rewrite (transcript_nil_log _ _ Hsz Ht0) in Hn. now rewrite app_nil_r in Hn.
Qed.
Print Assumptions C44_long_ping_refuted.

Example C44_nonvacuous :
  let m := repeat x2a 126 in
  w_out (snd (send (SoPing (Some m)) (demo_client []))) = [x89; xfe; x00; x7e; x14; x15; x16; x17] ++ skipn 8 (w_out (snd (send (SoPing (Some m)) (demo_client [])))) /\
  fst (listen ponger (demo [RData x89 ([x7e; x00; x7e] ++ m)])) = Ret tt.
Proof. cbv zeta. split; vm_compute; reflexivity. Qed.

(** * C45: setListener *)
(** Every call goes to the listener installed at that moment by the callbacks made so far (external
    installations excluded). [well_addressed] replays the installations. *)
Theorem C45_next_call : forall react w o w',
  script_ok no_install any_err (w_in w) -> listen react w = (o, w') ->
  exists new, w_log w' = w_log w ++ new /\ well_addressed react (s_listener (w_sock w)) (w_log w) new.
Proof. intros react w o w' Hs E. destruct (addr_listen react w o w' Hs E) as (new & H1 & H2 & _). eauto. Qed.
Print Assumptions C45_next_call.

(** Listener 7 installs listener 8 on the first call; 8 removes all listeners at the first message end. *)
Example C45_nonvacuous :
  let r : react_t := fun l log => match l, snd (last log (0%nat, EvEnd 0)) with
                                  | 7%nat, _ => [CSetListener (Some 8%nat)]
                                  | 8%nat, EvEnd _ => [CSetListener None]
                                  | _, _ => [] end in
  let w := demo [RData x81 [x02; x61]; RData x62 []; RData x89 [x00; x81; x00]] in
  script_ok no_install any_err (w_in w) /\
  w_log (snd (listen r w)) = [(7%nat, EvMsg 1 [x61]); (8%nat, EvMsg 1 [x62]); (8%nat, EvEnd 1)].
Proof. cbv zeta. split; [repeat constructor|]. vm_compute. reflexivity. Qed.
