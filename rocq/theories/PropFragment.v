(** C61, C62: fragmented messages and streamed payloads. *)
From Verif Require Import Bytes Frame World WebSocket SpecFrame SpecSend SpecListen SpecApi SpecReply SpecFragment SpecAsync SpecNet SpecDuplex AsyncWebSocket
  ProofFrame ProofStream ProofSend ProofHeader ProofListen ProofReading ProofApi ProofInv ProofRel ProofSilent ProofProps PropListen PropReply PropAsync PropNet PropDuplex.
From Coq Require Import ZifyBool ZifyNat ZifyN.
Local Open Scope N_scope.
Local Arguments takeN : simpl never.
Local Arguments dropN : simpl never.
Local Arguments lenN : simpl never.
Local Arguments be_enc : simpl never.
Local Arguments be_dec : simpl never.

(** One frame of such a sequence. *)
Definition fr_ok (opn : bool) (op : sendop) (opn' : bool) : Prop := forall k, lenN (req_payload op) < 2 ^ 63 ->
  f_opcode (frame_for k op) < 16 /\ lform_ok (lform_min (lenN (req_payload op))) (lenN (req_payload op)) = true /\
  accepts opn (finfo_of (frame_for k op)) = true /\ f_opcode (frame_for k op) <> 8 /\
  next_open opn (finfo_of (frame_for k op)) = opn' /\ frame_shown (frame_for k op) = arrived op.

Lemma plain_fr op : plain_send op -> fr_ok false op false.
Proof.
  intros Hp k Hl. destruct (plain_opcode op k Hp Hl) as (H1 & H2 & H3 & H4 & H5 & H6).
  repeat (split; [assumption|]). rewrite H6. destruct op; try contradiction; reflexivity.
Qed.
Lemma control_fr opn op : control_send op -> fr_ok opn op opn.
Proof.
  intros Hp k Hl. assert (forall m, lenN (msg_of m) <= 125 -> (eff_len (lenN (msg_of m)) <=? 125) = true) as He.
  { intros m Hm. unfold eff_len. destruct (_ <? _); lia. }
  split; [cbn; apply N.mod_lt; lia|]. split; [now apply lform_min_ok|].
  destruct op as [fin o m|c m| |m|m|m|m]; try contradiction; cbn in Hp; unfold req_payload in *; cbn [request snd] in *;
    (split; [cbn; try apply He; auto|]; split; [cbn; lia|]; split; reflexivity).
Qed.
Lemma data_fr fin o m : o = 1 \/ o = 2 -> fr_ok false (SoFrame fin o m) (negb fin).
Proof.
  intros Ho k Hl. split; [cbn; apply N.mod_lt; lia|]. split; [now apply lform_min_ok|].
  destruct Ho as [-> | ->]; (split; [reflexivity|]; split; [cbn; lia|]; split; reflexivity).
Qed.
Lemma cont_fr fin m : fr_ok true (SoFrame fin 0 m) true.
Proof.
  intros k Hl. split; [reflexivity|]. split; [now apply lform_min_ok|].
  split; [reflexivity|]; split; [cbn; lia|]; split; reflexivity.
Qed.

(** A sequence of frames read from state [opn]. *)
Definition frs_ok (opn : bool) (ops : list sendop) (opn' : bool) : Prop := forall kops, map snd kops = ops ->
  Forall (fun op => lenN (req_payload op) < 2 ^ 63) ops ->
  history_ok opn (sent_frames kops) = true /\ open_after opn (sent_frames kops) = opn' /\
  frames_shown (sent_frames kops) = flat_map arrived ops.
Lemma frs_nil opn : frs_ok opn [] opn.
Proof. intros kops Hk _. apply map_eq_nil in Hk. subst. auto. Qed.
Lemma frs_cons a b c op r : fr_ok a op b -> frs_ok b r c -> frs_ok a (op :: r) c.
Proof.
  intros H1 H2 kops Hk Hf. destruct kops as [|[k op'] kr]; [discriminate|]. injection Hk as -> Hk.
  inversion Hf as [|? ? F1 F2]; subst. destruct (H2 kr eq_refl F2) as (I1 & I2 & I3).
  destruct (H1 k F1) as (A1 & A2 & A3 & A4 & A5 & A6).
  unfold sent_frames in *. cbn [map history_ok open_after fst snd frames_shown flat_map].
  split; [|split].
  - rewrite !andb_true_iff. repeat split; try assumption; [lia|lia|]. now rewrite A5.
  - now rewrite A5.
  - rewrite A6. f_equal. exact I3.
Qed.
Lemma controls_frs opn r : Forall control_send r -> frs_ok opn r opn.
Proof. induction 1; [apply frs_nil|]. eapply frs_cons; [now apply control_fr|assumption]. Qed.
Lemma fragments_frs r : fragments r -> frs_ok true r true.
Proof.
  induction 1; [apply frs_nil| | |].
  - eapply frs_cons; [now apply control_fr|assumption].
  - eapply frs_cons; [apply cont_fr|assumption].
  - eapply frs_cons; [apply cont_fr|now apply controls_frs].
Qed.
Lemma sendable_frs ops : sendable ops -> exists opn, frs_ok false ops opn.
Proof.
  induction 1 as [|op r Hp _ [o IH]|o' m r Ho _ [o IH]|o' m r Ho Hr]; [exists false; apply frs_nil| | |].
  - exists o. eapply frs_cons; [now apply plain_fr|exact IH].
  - exists o. eapply frs_cons; [apply (data_fr true _ _ Ho)|exact IH].
  - exists true. eapply frs_cons; [apply (data_fr false _ _ Ho)|now apply fragments_frs].
Qed.

(** * C61 *)
(** Blocking sender and receiver: a fragmented message, with control frames between its fragments and whole messages before
    it, arrives; so does one of which only some fragments were sent. *)
Theorem C61_round_trip : forall ops ws os ws' react wr or wr' l,
  healthy (w_wr ws) -> sendable ops -> Forall (fits (s_mask (w_sock ws))) ops ->
  send_all ops ws = (os, ws') ->
  good react wr -> open_of (w_sock wr) = false -> s_listener (w_sock wr) = Some l ->
  w_out ws' = w_out ws ++ bytes_of (w_in wr) ->
  listen react wr = (or, wr') ->
  os = Ret tt /\ or = Wait /\ w_in wr' = [] /\
  exists new, w_log wr' = w_log wr ++ new /\ Forall (fun e => fst e = l) new /\
    transcript new = flat_map arrived ops /\ content (transcript new) = flat_map sent_content ops.
Proof.
  intros ops ws os ws' react wr or wr' l Hh Hp Hf Es Hg Ho Hl Hw El.
  destruct (send_all_healthy ops ws os ws' Hh Hf Es) as (-> & _ & _ & kops & Hk & _ & Hout).
  rewrite Hout in Hw. apply app_inv_head in Hw.
  destruct (sendable_frs ops Hp) as [opn H]. destruct (H kops Hk (fits_63 _ _ Hf)) as (H1 & H2 & H3).
  rewrite <- Ho in H1, H2. rewrite <- (app_nil_r (wires _)) in Hw. symmetry in Hw.
  destruct (listen_hist react wr or wr' _ _ Hg Hw H1 El) as (new & G1 & G2 & G3 & _ & G5).
  rewrite H2 in *. destruct (stream_reading_nil opn) as [N1 N2]. rewrite N1 in G3. rewrite N2 in G5. destruct G5 as [-> G5].
  split; [reflexivity|]. split; [reflexivity|]. split; [exact G5|].
  exists new. split; [exact G1|]. split; [eapply addressed_fst; eassumption|].
  rewrite G3, (seen_some _ _ _ Hl), app_nil_r, H3. split; [reflexivity|].
  assert (forall o m, content (map (OByte o) m) = m) as Hc.
  { intros o m. induction m as [|c m IH]; cbn; [reflexivity|]. f_equal. exact IH. }
  clear - Hp Hc. assert (Forall (fun op => content (arrived op) = sent_content op) ops) as HF.
  { assert (forall fin o m, content (arrived (SoFrame fin o m)) = sent_content (SoFrame fin o m)) as Hfr.
    { intros fin o m. cbn. unfold content. rewrite flat_map_app. fold (content (map (OByte o) (msg_of m))). rewrite Hc.
      destruct fin; cbn; apply app_nil_r. }
    assert (forall op, plain_send op -> content (arrived op) = sent_content op) as Hpl.
    { intros op H. destruct op; try contradiction; try reflexivity; cbn; unfold content; rewrite flat_map_app; fold (content (map (OByte 1) (msg_of m)));
       fold (content (map (OByte 2) (msg_of m))); rewrite Hc; apply app_nil_r. }
    assert (forall op, control_send op -> content (arrived op) = sent_content op) as Hct by (intros [] H; try contradiction; reflexivity).
    assert (forall r, fragments r -> Forall (fun op => content (arrived op) = sent_content op) r) as Hfs.
    { induction 1; constructor; auto. eapply Forall_impl; [|eassumption]. exact Hct. }
    induction Hp; constructor; auto. }
  clear Hp. induction HF as [|op r H _ IH]; [reflexivity|]. cbn [flat_map]. unfold content in *. rewrite flat_map_app, H, IH. reflexivity.
Qed.
Print Assumptions C61_round_trip.

Lemma sendable_legible ops m : sendable ops -> Forall (fits m) ops -> legible ops (flat_map arrived ops).
Proof.
  intros Hs Hf m' rnd pos. destruct (sendable_frs ops Hs) as [opn H].
  destruct (H (keyed m' rnd pos ops) (keyed_snd _ _ _ _) (fits_63 _ _ Hf)) as (A & B & C).
  destruct (stream_wires _ false [] A) as [S1 S2]. rewrite app_nil_r, <- frames_of_keyed in S1, S2. rewrite B, C in *.
  destruct (stream_reading_nil opn) as [N1 N2]. rewrite N1, app_nil_r in S1. rewrite N2 in S2.
  split; [|exact S1]. intros p [q Hq]. rewrite Hq in S1, S2. split; [rewrite <- S1; apply stream_trunc|].
  eapply stream_trunc_blocked. exact S2.
Qed.

(** The asynchronous sockets of two endpoints over one connection, both sending and listening, at any time ... *)
Theorem C61_any_time : forall opsa opsb wa wb evs s,
  sendable opsa -> sendable opsb ->
  Forall (fits (s_mask (w_sock wa))) opsa -> Forall (fits (s_mask (w_sock wb))) opsb ->
  idle wa -> idle wb -> drun opsa opsb evs wa wb = s ->
  Forall (fun st => st = ARun \/ st = AWait \/ st = ADone) [fst (p_tx (d_a s)); fst (p_tx (d_b s))] /\
  Forall (fun st => st = ARun \/ st = AWait) [fst (p_rx (d_a s)); fst (p_rx (d_b s))] /\
  prefix (transcript (w_log (p_world (d_b s)))) (flat_map arrived opsa) /\
  prefix (transcript (w_log (p_world (d_a s)))) (flat_map arrived opsb).
Proof.
  intros opsa opsb wa wb evs s Pa Pb Fa Fb Ia Ib E.
  exact (duplex_any_time opsa opsb _ _ wa wb evs s (sendable_legible _ _ Pa Fa) (sendable_legible _ _ Pb Fb) Fa Fb Ia Ib E).
Qed.
Print Assumptions C61_any_time.

(** ... and in the end, under any fair schedule. *)
Theorem C61_fair : forall opsa opsb wa wb f,
  sendable opsa -> sendable opsb ->
  Forall (fits (s_mask (w_sock wa))) opsa -> Forall (fits (s_mask (w_sock wb))) opsb ->
  idle wa -> idle wb -> (exists l, s_listener (w_sock wa) = Some l) -> (exists l, s_listener (w_sock wb) = Some l) -> dfair f ->
  exists N, forall n, (N <= n)%nat -> forall s, drun opsa opsb (dupto f n) wa wb = s ->
  fst (p_tx (d_a s)) = ADone /\ fst (p_tx (d_b s)) = ADone /\ fst (p_rx (d_a s)) = AWait /\ fst (p_rx (d_b s)) = AWait /\
  transcript (w_log (p_world (d_b s))) = flat_map arrived opsa /\
  transcript (w_log (p_world (d_a s))) = flat_map arrived opsb.
Proof.
  intros opsa opsb wa wb f Pa Pb Fa Fb Ia Ib La Lb Hf.
  exact (duplex_fair opsa opsb _ _ wa wb f (sendable_legible _ _ Pa Fa) (sendable_legible _ _ Pb Fb) Fa Fb Ia Ib La Lb Hf).
Qed.
Print Assumptions C61_fair.

Definition frag_ops : list sendop :=
  [SoText (Some [x61]); SoFrame false 2 (Some [x62; x63]); SoPing (Some [x01]); SoFrame false 0 None; SoFrame false 0 (Some [x64]); SoPong None;
   SoFrame true 0 (Some [x65; x66]); SoPing None].
Lemma frag_sendable : sendable frag_ops.
Proof.
  apply sd_plain; [exact I|]. apply sd_first; [now right|]. apply fr_control; [vm_compute; discriminate|]. apply fr_more. apply fr_more.
  apply fr_control; [vm_compute; discriminate|]. apply fr_last. constructor; [vm_compute; discriminate|constructor].
Qed.
Example C61_nonvacuous :
  let ws := demo_client [WAccept 3; WIo IoRetry; WAccept 1] in
  let sent := w_out (snd (send_all frag_ops ws)) in
  let wr := demo [RData x81 (tl (firstn 11 sent)); RIo IoRetry; RData (nth 11 sent x00) (skipn 12 sent)] in
  sendable frag_ops /\ Forall (fits true) frag_ops /\ good passive wr /\ bytes_of (w_in wr) = sent /\
  w_log (snd (listen passive wr)) =
    [(7%nat, EvMsg 1 [x61]); (7%nat, EvEnd 1); (7%nat, EvMsg 2 [x62; x63]); (7%nat, EvPing [x01]); (7%nat, EvMsg 0 [x64]); (7%nat, EvPong []);
     (7%nat, EvMsg 0 [x65; x66]); (7%nat, EvEnd 0); (7%nat, EvPing [])] /\
  (let wa := World [] [WAccept 3; WIo IoRetry] [] (fun i => n2b (N.of_nat i)) 4 [] (set_listener (sock_new true) (Some 3%nat)) in
   let s := drun frag_ops [SoFrame false 1 (Some [x41])] (dupto all_in_turn 800) wa (aworld [] [WIo IoRetry; WAccept 1]) in
   idle wa /\ transcript (w_log (p_world (d_b s))) = flat_map arrived frag_ops /\ transcript (w_log (p_world (d_a s))) = [OByte 1 x41]).
Proof.
  cbv zeta. split; [apply frag_sendable|]. split; [repeat constructor|].
  split. { split; [repeat constructor|]. split; [constructor|]. split; [apply passive_polite|]. split; [apply passive_never|].
    split; [reflexivity|left; reflexivity]. }
  split; [vm_compute; reflexivity|]. split; [vm_compute; reflexivity|]. split; [repeat constructor|].
  split; vm_compute; reflexivity.
Qed.

(** * C62: a frame whose payload the caller streams *)
Lemma prefix_back (p r t : bytes) : p = (p ++ r) ++ t -> p ++ r = p.
Proof.
  intros H. assert (length p = length p + length r + length t)%nat as HL by (rewrite H at 1; rewrite !app_length; lia).
  assert (length r = 0)%nat as H0 by lia. destruct r; [apply app_nil_r|discriminate].
Qed.
Lemma pieces_spec h ps : forall off w o w', write_pieces h off ps w = (o, w') ->
  let d := concat ps in let d' := if h_hasMask h then xor_from (h_mask h) (N.of_nat off) d else d in
  emits (fun b => b) w d' o w' /\ w_sock w' = w_sock w /\
  (forall u, o <> Ub u) /\ (forall e, o <> Throw e) /\
  (healthy (w_wr w) -> o = Ret true /\ w_out w' = w_out w ++ d' /\ healthy (w_wr w')).
Proof.
  induction ps as [|p r IH]; intros off w o w' E; cbv zeta; cbn [write_pieces concat] in *.
  - injection E as <- <-. assert ((if h_hasMask h then xor_from (h_mask h) (N.of_nat off) [] else []) = []) as -> by (destruct (h_hasMask h); reflexivity).
    split; [exists []; rewrite app_nil_r; split; [apply prefix_refl|]; split; [reflexivity|tauto]|].
    split; [reflexivity|]. split; [discriminate|]. split; [discriminate|]. intros Hh. rewrite app_nil_r. auto.
  - unfold masked_from in E. rewrite <- xor_from_rfc_gen in E. set (p' := if h_hasMask h then xor_from (h_mask h) (N.of_nat off) p else p) in *.
    assert (lenN p' = lenN p) as Hl by (unfold p'; destruct (h_hasMask h); [apply lenN_xor_from|reflexivity]).
    assert ((if h_hasMask h then xor_from (h_mask h) (N.of_nat off) (p ++ concat r) else p ++ concat r) =
            p' ++ (if h_hasMask h then xor_from (h_mask h) (N.of_nat (off + length p)) (concat r) else concat r)) as ->.
    { unfold p'. destruct (h_hasMask h); [rewrite xor_from_app; do 2 f_equal; unfold lenN; lia|reflexivity]. }
    set (r' := if h_hasMask h then xor_from (h_mask h) (N.of_nat (off + length p)) (concat r) else concat r) in *.
    unfold bind in E. destruct (writeExactSizeDataSimple p' w) as [o1 w1] eqn:E1.
    assert ((forall u, o1 <> Ub u) /\ (forall e, o1 <> Throw e)) as [U1 U2].
    { unfold writeExactSizeDataSimple in E1. destruct (writeExact_raw p' (w_wr w)) as [[r1 a] q]. destruct r1; injection E1 as <- _; split; discriminate. }
    apply write_emits in E1. destruct E1 as ((q & Hp & Ho & Hm) & _ & Hh & Hs). rewrite Hl in *.
    assert (forall oo : outcome bool, (forall b, oo <> Ret b) -> (forall e, oo <> Throw e) -> (forall u, oo <> Ub u) -> (healthy (w_wr w) -> False) -> 
      emits (fun b => b) w (p' ++ r') oo w1 /\ w_sock w1 = w_sock w /\ (forall u, oo <> Ub u) /\ (forall e, oo <> Throw e) /\
      (healthy (w_wr w) -> oo = Ret true /\ w_out w1 = w_out w ++ p' ++ r' /\ healthy (w_wr w1))) as Hstop.
    { intros oo O1 O2 O3 O4. split; [exists q; split; [eapply prefix_trans; [exact Hp|apply prefix_app_r]|]; split; [exact Ho|destruct oo; auto]|].
      - exfalso. eapply O1. reflexivity.
      - exfalso. eapply O2. reflexivity.
      - split; [exact Hs|]. split; [exact O3|]. split; [exact O2|]. intros H. destruct (O4 H). }
    destruct o1 as [n|e| |u|]; try (injection E as <- <-; apply Hstop; try discriminate; intros H; destruct (Hh H); discriminate).
    + destruct (N.eqb_spec n (lenN p)) as [Hn|Hn].
      * assert (q = p') as -> by (apply Hm; lia).
        apply IH in E. cbv zeta in E. fold r' in E. destruct E as ((q2 & P2 & O2 & M2) & S2 & B1 & B2 & H2).
        split; [exists (p' ++ q2)|].
        { split; [destruct P2 as [t Ht]; exists t; rewrite <- app_assoc; f_equal; exact Ht|]. split; [rewrite O2, Ho; now rewrite app_assoc|].
          destruct o as [b|e| |u|]; auto.
          - rewrite <- M2. split; [apply app_inv_head|now intros ->].
          - intros H. apply app_inv_head in H. contradiction. }
        split; [congruence|]. split; [exact B1|]. split; [exact B2|]. intros H. destruct (Hh H) as (_ & Ho' & Hh1).
        destruct (H2 Hh1) as (-> & O3 & Hh2). split; [reflexivity|]. split; [rewrite O3, Ho'; now rewrite app_assoc|exact Hh2].
      * injection E as <- <-.
        assert (q <> p') as Hq by (intros H; apply Hn; apply Hm in H; lia).
        split; [exists q; split; [eapply prefix_trans; [exact Hp|apply prefix_app_r]|]; split; [exact Ho|]|].
        { split; [|discriminate]. intros Hqe. exfalso. destruct Hp as [t Ht]. rewrite Hqe in Ht, Hq. exact (Hq (prefix_back _ _ _ Ht)). }
        split; [exact Hs|]. split; [discriminate|]. split; [discriminate|]. intros H. destruct (Hh H) as (H0 & _). injection H0. contradiction.
    + exfalso. eapply U2. reflexivity.
    + exfalso. eapply U1. reflexivity.
Qed.

(** Whatever pieces the caller cuts the payload into and whatever the connection does: what is on the wire is a beginning of
    the frame sendOneFrame would have sent for the whole payload, all of it if all writes succeed. *)
Theorem C62_streamed_frame : forall h0 fin opcode ps w o w',
  lenN (concat ps) < 2 ^ 63 ->
  stream_frame h0 fin opcode (Z.of_N (lenN (concat ps))) ps w = (o, w') ->
  (exists p, prefix p (raw_wire (next_key_opt w) fin opcode (concat ps)) /\ w_out w' = w_out w ++ p /\
     (o = Ret true -> p = raw_wire (next_key_opt w) fin opcode (concat ps))) /\
  (healthy (w_wr w) -> o = Ret true) /\ (forall u, o <> Ub u) /\ w_sock w' = w_sock w.
Proof.
  intros h0 fin opcode ps w o w' Hn E. unfold stream_frame, bind in E.
  destruct (sendFrameHeader h0 fin opcode (Z.of_N (lenN (concat ps))) w) as [o1 w1] eqn:E1.
  apply sendFrameHeader_spec in E1; [|lia]. cbv zeta in E1. rewrite N2Z.id in E1.
  destruct E1 as ((p & P1 & P2 & P3) & _ & S1 & K & U & Hh).
  set (d := concat ps) in *.
  unfold raw_wire, wire. cbn [raw_frame f_fin f_rsv1 f_rsv2 f_rsv3 f_opcode f_key f_payload].
  set (hd := rfc_header (lform_min (lenN d)) fin false false false (opcode mod 16) (next_key_opt w) (lenN d)) in *.
  assert (forall oo : outcome bool, (forall b, oo <> Ret b) -> (forall u, oo <> Ub u) -> (healthy (w_wr w) -> False) ->
     (exists p, prefix p (hd ++ masked_opt (next_key_opt w) d) /\ w_out w1 = w_out w ++ p /\ (oo = Ret true -> p = hd ++ masked_opt (next_key_opt w) d)) /\
     (healthy (w_wr w) -> oo = Ret true) /\ (forall u, oo <> Ub u) /\ w_sock w1 = w_sock w) as Hstop.
  { intros oo O1 O2 O3. split; [exists p; split; [eapply prefix_trans; [exact P1|apply prefix_app_r]|]; split; [exact P2|]|].
    - intros ->. exfalso. eapply O1. reflexivity.
    - split; [intros H; destruct (O3 H)|]. auto. }
  destruct o1 as [h|e| |u|]; try (injection E as <- <-; apply Hstop; try discriminate; intros H; destruct (Hh H) as ((? & H0) & _); discriminate).
  - assert (p = hd) as -> by (apply P3; reflexivity).
    apply pieces_spec in E. cbv zeta in E. fold d in E. change (N.of_nat 0) with 0 in E. destruct (K h eq_refl) as [K1 K2].
    assert ((if h_hasMask h then xor_from (h_mask h) 0 d else d) = masked_opt (next_key_opt w) d) as Hx.
    { unfold next_key_opt. rewrite <- K1. destruct (h_hasMask h); [|reflexivity]. cbn [masked_opt]. rewrite (K2 eq_refl). apply xor_from_rfc. }
    rewrite Hx in E. destruct E as ((q & Q1 & Q2 & Q3) & S2 & B1 & B2 & H2).
    split; [exists (hd ++ q)|].
    { split; [destruct Q1 as [t Ht]; exists t; rewrite <- app_assoc; f_equal; exact Ht|]. split; [rewrite Q2, P2; now rewrite app_assoc|].
      intros ->. f_equal. now apply Q3. }
    split; [intros H; destruct (Hh H) as (_ & _ & H1); apply (H2 H1)|]. split; [exact B1|congruence].
  - exfalso. eapply U. reflexivity.
Qed.
Print Assumptions C62_streamed_frame.

(** The peer is shown the message. *)
Theorem C62_round_trip : forall h0 opcode ps w o w' react wr or wr' l,
  opcode = 1 \/ opcode = 2 -> lenN (concat ps) < 2 ^ 63 -> healthy (w_wr w) ->
  stream_frame h0 true opcode (Z.of_N (lenN (concat ps))) ps w = (o, w') ->
  good react wr -> open_of (w_sock wr) = false -> s_listener (w_sock wr) = Some l ->
  w_out w' = w_out w ++ bytes_of (w_in wr) ->
  listen react wr = (or, wr') ->
  o = Ret true /\ or = Wait /\ w_in wr' = [] /\
  exists new, w_log wr' = w_log wr ++ new /\ Forall (fun e => fst e = l) new /\
    transcript new = map (OByte opcode) (concat ps) ++ [OEnd opcode].
Proof.
  intros h0 opcode ps w o w' react wr or wr' l Hop Hn Hh E Hg Ho Hl Hw El.
  destruct (C62_streamed_frame _ _ _ _ _ _ _ Hn E) as ((p & _ & P2 & P3) & H0 & _ & _).
  specialize (H0 Hh). specialize (P3 H0). subst o p. split; [reflexivity|].
  rewrite P2 in Hw. apply app_inv_head in Hw.
  set (ops := [SoFrame true opcode (Some (concat ps))]).
  assert (sendable ops) as Hs by (apply sd_whole; [exact Hop|constructor]).
  destruct (sendable_frs ops Hs) as [opn H].
  destruct (H [(next_key_opt w, SoFrame true opcode (Some (concat ps)))] eq_refl) as (H1 & H2 & H3); [constructor; [exact Hn|constructor]|].
  assert (wires (sent_frames [(next_key_opt w, SoFrame true opcode (Some (concat ps)))]) = bytes_of (w_in wr)) as HW.
  { rewrite <- Hw. cbn [sent_frames map wires flat_map fst snd]. rewrite app_nil_r. reflexivity. }
  rewrite <- Ho in H1, H2. rewrite <- (app_nil_r (wires _)) in HW. symmetry in HW.
  destruct (listen_hist react wr or wr' _ _ Hg HW H1 El) as (new & G1 & G2 & G3 & _ & G5).
  rewrite H2 in *. destruct (stream_reading_nil opn) as [N1 N2]. rewrite N1 in G3. rewrite N2 in G5. destruct G5 as [-> G5].
  split; [reflexivity|]. split; [exact G5|].
  exists new. split; [exact G1|]. split; [eapply addressed_fst; eassumption|].
  rewrite G3, (seen_some _ _ _ Hl), app_nil_r, H3. cbn. now rewrite app_nil_r.
Qed.
Print Assumptions C62_round_trip.

Example C62_nonvacuous :
  let ps := [[x61; x62]; []; [x63; x64; x65]; [x66]] in
  let ws := demo_client [WAccept 3; WIo IoRetry; WAccept 1] in
  let r := stream_frame header_init true 1 6 ps ws in
  let sent := w_out (snd r) in
  let wr := demo [RData x81 (tl (firstn 7 sent)); RIo IoRetry; RData (nth 7 sent x00) (skipn 8 sent)] in
  healthy (w_wr ws) /\ s_mask (w_sock ws) = true /\ Z.of_N (lenN (concat ps)) = 6%Z /\ fst r = Ret true /\ good passive wr /\ bytes_of (w_in wr) = sent /\
  transcript (w_log (snd (listen passive wr))) = map (OByte 1) [x61; x62; x63; x64; x65; x66] ++ [OEnd 1] /\
  fst (stream_frame header_init true 1 6 ps (demo_client [WAccept 2; WAccept 4; WAccept 1; WIo IoBroken])) = Ret false.
Proof.
  cbv zeta. split; [repeat constructor|]. split; [reflexivity|]. split; [vm_compute; reflexivity|]. split; [vm_compute; reflexivity|].
  split. { split; [repeat constructor|]. split; [constructor|]. split; [apply passive_polite|]. split; [apply passive_never|].
    split; [reflexivity|left; reflexivity]. }
  split; [vm_compute; reflexivity|]. split; vm_compute; reflexivity.
Qed.
