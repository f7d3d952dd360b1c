(** Property theorems about receiving on the blocking socket, part 1 (C04-C13). *)
From Verif Require Import Bytes Frame World WebSocket SpecFrame SpecSend SpecListen SpecApi
  ProofFrame ProofStream ProofSend ProofHeader ProofListen ProofReading ProofApi ProofInv ProofRel ProofSilent ProofProps.
From Coq Require Import ZifyBool ZifyNat ZifyN.
Local Open Scope N_scope.
Local Arguments takeN : simpl never.
Local Arguments dropN : simpl never.
Local Arguments lenN : simpl never.
Local Arguments be_enc : simpl never.
Local Arguments be_dec : simpl never.

(** A fresh server-side socket with listener 7 on a connection with the given script. *)
Definition demo (s : list rev) : world :=
  World s [] [] (fun i => n2b (N.of_nat i)) 0 [] (set_listener (sock_new false) (Some 7%nat)).
(** A client-side socket. *)
Definition demo_client (q : list wev) : world :=
  World [] q [] (fun i => n2b (N.of_nat i + 17)) 3 [] (sock_new true).
(** A listener that answers every ping with a pong and uses its data. *)
Definition ponger : react_t := fun l log =>
  match snd (last log (l, EvEnd 0)) with
  | EvPing m => if lenN m <=? 125 then [CSend true (SoPong (Some m))] else []
  | EvMsg _ _ => [CUseData]
  | _ => []
  end.
Lemma ponger_polite : polite_react ponger.
Proof.
  intros l log. unfold ponger. destruct (snd (last log (l, EvEnd 0))); repeat constructor.
  destruct (N.leb_spec (lenN m) 125); repeat constructor. cbn. unfold req_payload. cbn. lia.
Qed.
Lemma ponger_never : never_stops ponger.
Proof. intros l log. unfold ponger. destruct (snd _); try reflexivity. destruct (_ <=? _); reflexivity. Qed.
(** A listener that does nothing. *)
Definition passive : react_t := fun _ _ => [].
Lemma passive_polite : polite_react passive. Proof. intros l log. constructor. Qed.
Lemma passive_never : never_stops passive. Proof. intros l log. reflexivity. Qed.

(** * C04: message round trip between two endpoints *)
Theorem C04_round_trip : forall ops ws os ws' react wr or wr' l,
  healthy (w_wr ws) -> Forall plain_send ops -> Forall (fits (s_mask (w_sock ws))) ops ->
  send_all ops ws = (os, ws') ->
  good react wr -> open_of (w_sock wr) = false -> s_listener (w_sock wr) = Some l ->
  w_out ws' = w_out ws ++ bytes_of (w_in wr) ->
  listen react wr = (or, wr') ->
  os = Ret tt /\ or = Wait /\ w_in wr' = [] /\
  exists new, w_log wr' = w_log wr ++ new /\ Forall (fun e => fst e = l) new /\
    transcript new = flat_map received ops.
Proof.
  intros ops ws os ws' react wr or wr' l Hh Hp Hf Es Hg Ho Hl Hw El.
  destruct (send_all_healthy ops ws os ws' Hh Hf Es) as (-> & _ & _ & kops & Hk & _ & Hout).
  rewrite Hout in Hw. apply app_inv_head in Hw.
  destruct (sent_history kops) as (H1 & H2 & H3).
  { rewrite <- Hk in Hp, Hf. rewrite Forall_map in Hp, Hf. rewrite Forall_forall in *.
    intros x Hx. split; [now apply Hp|]. apply (Hf _ Hx). }
  rewrite <- Ho in H1, H2. rewrite <- (app_nil_r (wires _)) in Hw. symmetry in Hw.
  destruct (listen_hist react wr or wr' _ _ Hg Hw H1 El) as (new & G1 & G2 & G3 & _ & G5).
  rewrite H2, Ho in *. cbn in G5, G3. destruct G5 as [-> G5].
  split; [reflexivity|]. split; [reflexivity|]. split; [exact G5|].
  exists new. split; [exact G1|]. split; [eapply addressed_fst; eassumption|].
  rewrite G3, (seen_some _ _ _ Hl), app_nil_r, H3, flat_map_snd, Hk. reflexivity.
Qed.
Print Assumptions C04_round_trip.

(** At any moment, with any failure on either side: nothing but a prefix of what was sent is seen. *)
Theorem C04_prefix_always : forall ops ws os ws' react wr or wr' sent,
  Forall plain_send ops -> Forall (fun op => lenN (req_payload op) < 2 ^ 63) ops ->
  send_all ops ws = (os, ws') -> w_out ws' = w_out ws ++ sent ->
  stop_only (w_in wr) -> tame_react react -> last_ok (w_sock wr) -> open_of (w_sock wr) = false ->
  prefix (bytes_of (w_in wr)) sent ->
  listen react wr = (or, wr') ->
  exists new, w_log wr' = w_log wr ++ new /\ prefix (transcript new) (flat_map received ops).
Proof.
  intros ops ws os ws' react wr or wr' sent Hp Hf Es Hsent Hs Ht Hlo Ho Hpre El.
  destruct (send_all_prefix ops ws os ws' Hf) as (kops & p & Hk & Hout & Hpp); [|exact Es|].
  { eapply Forall_impl; [|exact Hp]. intros [] H; cbn in H; congruence. }
  rewrite Hout in Hsent. apply app_inv_head in Hsent. subst sent.
  destruct (prefix_trans _ _ _ Hpre Hpp) as [t Ht'].
  destruct (sent_history kops) as (H1 & H2 & H3).
  { rewrite <- Hk in Hp, Hf. rewrite Forall_map in Hp, Hf. rewrite Forall_forall in *.
    intros x Hx. split; [now apply Hp|]. apply (Hf _ Hx). }
  destruct (listen_safe react wr or wr' Hs Hlo Ht El) as (_ & new & G1 & _ & G3 & _).
  exists new. split; [exact G1|]. rewrite Ho in G3.
  eapply prefix_trans; [exact G3|]. eapply prefix_trans; [apply (stream_trunc _ _ t)|].
  rewrite <- Ht'. destruct (stream_wires (sent_frames kops) false [] H1) as [S1 _]. rewrite app_nil_r in S1.
  rewrite S1, H2, H3, flat_map_snd, Hk. cbn. rewrite app_nil_r. apply prefix_refl.
Qed.
Print Assumptions C04_prefix_always.

Definition demo_ops : list sendop := [SoText (Some [x61; x62; x63]); SoPing (Some [x01]); SoBinary None; SoPong None].
Definition demo_seg : list rev :=
  [RData x81 [x83; x14]; RIo IoRetry; RData x15 [x16; x17; x75; x77; x75; x89; x81; x18]; RData x19 [x1a; x1b; x19; x82; x80; x1c];
   RData x1d [x1e; x1f; x8a; x80; x20; x21; x22]; RIo IoRetry; RData x23 []].
Example C04_nonvacuous :
  let ws := demo_client [WAccept 3; WIo IoRetry; WAccept 1] in
  let wr := demo demo_seg in
  healthy (w_wr ws) /\ Forall plain_send demo_ops /\ Forall (fits true) demo_ops /\ good passive wr /\
  w_out (snd (send_all demo_ops ws)) = bytes_of (w_in wr) /\
  w_log (snd (listen passive wr)) =
    [(7%nat, EvMsg 1 [x61; x62; x63]); (7%nat, EvEnd 1); (7%nat, EvPing [x01]); (7%nat, EvEnd 2); (7%nat, EvPong [])].
Proof.
  cbv zeta. split; [repeat constructor|]. split; [repeat constructor; vm_compute; discriminate|].
  split; [repeat constructor|]. split; [|split; vm_compute; reflexivity].
  split; [repeat constructor|]. split; [constructor|]. split; [apply passive_polite|]. split; [apply passive_never|].
  split; [reflexivity|left; reflexivity].
Qed.

(** * C05: network segmentation is invisible *)
Theorem C05_segmentation : forall react1 react2 w1 w2 o1 o2 w1' w2' l1 l2,
  good react1 w1 -> good react2 w2 ->
  bytes_of (w_in w1) = bytes_of (w_in w2) -> open_of (w_sock w1) = open_of (w_sock w2) ->
  s_listener (w_sock w1) = Some l1 -> s_listener (w_sock w2) = Some l2 ->
  listen react1 w1 = (o1, w1') -> listen react2 w2 = (o2, w2') ->
  exists new1 new2, w_log w1' = w_log w1 ++ new1 /\ w_log w2' = w_log w2 ++ new2 /\
    transcript new1 = transcript new2 /\ o1 = o2 /\ bytes_of (w_in w1') = bytes_of (w_in w2').
Proof.
  intros react1 react2 w1 w2 o1 o2 w1' w2' l1 l2 G1 G2 Hb Ho L1 L2 E1 E2.
  destruct G1 as (A1 & A2 & A3 & A4 & A5 & A6). destruct G2 as (B1 & B2 & B3 & B4 & B5 & B6).
  destruct (listen_exact react1 w1 o1 w1') as (n1 & C1 & _ & C3 & C4 & _); try assumption.
  destruct (listen_exact react2 w2 o2 w2') as (n2 & D1 & _ & D3 & D4 & _); try assumption.
  rewrite Hb, Ho in *. exists n1, n2. split; [exact C1|]. split; [exact D1|].
  rewrite (seen_some _ _ _ L1) in C3. rewrite (seen_some _ _ _ L2) in D3. split; [congruence|].
  destruct (stream_ending _ _); [| | |contradiction]; destruct C4 as [-> C4], D4 as [-> D4]; split; congruence.
Qed.
Print Assumptions C05_segmentation.

Example C05_nonvacuous :
  let w1 := demo demo_seg in
  let w2 := set_sock (demo [RData x81 (tl (bytes_of demo_seg))])
              (set_config (set_listener (sock_new false) (Some 7%nat)) false 2) in
  good passive w1 /\ good passive w2 /\ bytes_of (w_in w1) = bytes_of (w_in w2) /\
  w_log (snd (listen passive w1)) <> w_log (snd (listen passive w2)).
Proof.
  cbv zeta. split; [|split; [|split; [reflexivity|vm_compute; discriminate]]];
  (split; [repeat constructor|]; split; [constructor|]; split; [apply passive_polite|]; split; [apply passive_never|];
   split; [reflexivity|left; reflexivity]).
Qed.

(** * C06: the listener never sees anything the peer did not send *)
(** [n] ranges over the prefixes of the calls made: "at any moment". *)
Theorem C06_only_a_prefix : forall react w o w',
  stop_only (w_in w) -> tame_react react -> last_ok (w_sock w) ->
  listen react w = (o, w') ->
  exists new, w_log w' = w_log w ++ new /\
    forall n, prefix n new ->
      prefix (transcript n) (stream_reading (open_of (w_sock w)) (bytes_of (w_in w))).
Proof.
  intros react w o w' Hs Ht Hl E. destruct (listen_safe react w o w' Hs Hl Ht E) as (_ & new & G1 & _ & G3 & _).
  exists new. split; [exact G1|]. intros n [r ->]. rewrite transcript_app in G3. destruct G3 as [t Et].
  exists (transcript r ++ t). rewrite Et. now rewrite app_assoc.
Qed.
Print Assumptions C06_only_a_prefix.

Theorem C06_iterateFrame : forall react h0 w o w',
  stop_only (w_in w) -> tame_react react -> last_ok (w_sock w) ->
  iterateFrame react h0 w = (o, w') ->
  exists new, w_log w' = w_log w ++ new /\
    prefix (transcript new) (fst (reading 1 (open_of (w_sock w)) (bytes_of (w_in w)))).
Proof.
  intros react h0 w o w' Hs Ht Hl E.
  destruct (iterateFrame_any react h0 w o w' Hs Hl Ht E) as (new & os & Hf & Htr & Hp & _).
  exists new. split; [apply Hf|]. rewrite Htr. unfold seen. destruct (s_listener (w_sock w)); [exact Hp|apply prefix_nil].
Qed.
Print Assumptions C06_iterateFrame.

(** A connection that breaks in the middle of a message, a listener that throws. *)
Example C06_nonvacuous :
  let w := demo [RData x01 [x04; x61]; RData x62 []; RExt XStop; RIo IoBroken] in
  stop_only (w_in w) /\
  listen (fun _ log => if (length log =? 2)%nat then [CThrow] else []) w =
    (Ret tt, World [RExt XStop; RIo IoBroken] [] [] (w_rnd w) 0 [(7%nat, EvMsg 1 [x61]); (7%nat, EvMsg 1 [x62])]
                   (Sock false 1024 (Some 7%nat) 1 true)).
Proof. split; [repeat constructor|reflexivity]. Qed.

(** * C07: chunk sizes *)
Theorem C07_chunk_sizes : forall B react w o w',
  buf_react B react -> buf_script B (w_in w) -> s_buf (w_sock w) = B ->
  listen react w = (o, w') ->
  exists new, w_log w' = w_log w ++ new /\
    Forall (fun e => match snd e with
                     | EvMsg _ d => 1 <= lenN d /\ (Z.of_N (lenN d) <= B)%Z
                     | _ => True end) new.
Proof.
  intros B react w o w' Hr Hs Hb E. destruct (binv_listen react B Hr w o w' (conj Hs Hb) E) as (_ & H & _). exact H.
Qed.
Print Assumptions C07_chunk_sizes.

Theorem C07_iterateFrame : forall B react h w o w',
  buf_react B react -> buf_script B (w_in w) -> s_buf (w_sock w) = B ->
  iterateFrame react h w = (o, w') ->
  exists new, w_log w' = w_log w ++ new /\ Forall (ev_size B) new.
Proof.
  intros B react h w o w' Hr Hs Hb E. destruct (binv_iterate react B Hr h w o w' (conj Hs Hb) E) as (_ & H & _). exact H.
Qed.
Print Assumptions C07_iterateFrame.

Example C07_nonvacuous :
  let w := set_sock (demo [RData x81 [x05; x61; x62]; RData x63 [x64; x65]])
              (set_config (set_listener (sock_new false) (Some 7%nat)) false 2) in
  w_log (snd (listen (fun _ _ => [CThrow; CSetConfig true 2]) w)) = [(7%nat, EvMsg 1 [x61; x62])] /\
  w_log (snd (listen passive w)) =
    [(7%nat, EvMsg 1 [x61; x62]); (7%nat, EvMsg 1 [x63; x64]); (7%nat, EvMsg 1 [x65]); (7%nat, EvEnd 1)].
Proof. split; reflexivity. Qed.

(** * C08: end-of-message marker *)

(** A data frame handled on a good connection: all payload bytes, then one end marker iff FIN. *)
Theorem C08_complete_frame : forall react h0 w lf f rest o w' l,
  calm react w -> last_ok (w_sock w) -> s_listener (w_sock w) = Some l ->
  bytes_of (w_in w) = wire lf f ++ rest -> lform_ok lf (lenN (f_payload f)) = true ->
  f_opcode f <= 2 -> accepts (open_of (w_sock w)) (finfo_of f) = true ->
  iterateFrame react h0 w = (o, w') ->
  exists new, w_log w' = w_log w ++ new /\
    transcript new = map (OByte (f_opcode f)) (f_payload f) ++ (if f_fin f then [OEnd (f_opcode f)] else []).
Proof.
  intros react h0 w lf f rest o w' l Hc Hlo Hl Hbs Hlf Hop Ha E.
  destruct (iterateFrame_frame react h0 w lf f rest o w') as (h & new & _ & _ & G1 & _ & G2 & _); try assumption; [lia|].
  exists new. split; [exact G1|]. rewrite G2, (seen_some _ _ _ Hl). unfold frame_shown, shown.
  assert (f_opcode f = 0 \/ f_opcode f = 1 \/ f_opcode f = 2) as [->| [->| ->]] by lia; reflexivity.
Qed.
Print Assumptions C08_complete_frame.

(** Whatever fails, a frame's calls are a prefix of its bytes and end marker; complete iff handled. *)
Theorem C08_any_failure : forall react h0 w lf f rest o w' l,
  stop_only (w_in w) -> tame_react react -> last_ok (w_sock w) -> s_listener (w_sock w) = Some l ->
  bytes_of (w_in w) = wire lf f ++ rest -> lform_ok lf (lenN (f_payload f)) = true -> f_opcode f <= 2 ->
  iterateFrame react h0 w = (o, w') ->
  exists new, w_log w' = w_log w ++ new /\
    prefix (transcript new) (map (OByte (f_opcode f)) (f_payload f) ++ (if f_fin f then [OEnd (f_opcode f)] else [])) /\
    (forall h, o = Ret h ->
       transcript new = map (OByte (f_opcode f)) (f_payload f) ++ (if f_fin f then [OEnd (f_opcode f)] else [])).
Proof.
  intros react h0 w lf f rest o w' l Hs Ht Hlo Hl Hbs Hlf Hop E.
  destruct (iterateFrame_any react h0 w o w' Hs Hlo Ht E) as (new & os & Hf & Htr & Hp & _ & Hm).
  exists new. split; [apply Hf|]. rewrite (seen_some _ _ _ Hl) in Htr.
  assert (frame_shown f = map (OByte (f_opcode f)) (f_payload f) ++ (if f_fin f then [OEnd (f_opcode f)] else [])) as Hsh.
  { unfold frame_shown, shown.
    assert (f_opcode f = 0 \/ f_opcode f = 1 \/ f_opcode f = 2) as [->| [->| ->]] by lia; reflexivity. }
  rewrite <- Hsh. rewrite Hbs in *. split.
  - rewrite Htr. destruct (accepts (open_of (w_sock w)) (finfo_of f)) eqn:Ha.
    + rewrite reading_wire in Hp by (assumption || lia).
      destruct (N.eqb_spec (f_opcode f) 8); [lia|]. cbn in Hp. now rewrite app_nil_r in Hp.
    + cbn [reading] in Hp. rewrite rd_header_wire, Ha in Hp by (assumption || lia). cbn in Hp.
      destruct Hp as [t Hp]. destruct os; [apply prefix_nil|discriminate].
  - intros h ->. destruct Hm as (i & r & Hrd & _ & _ & _ & Hos & _).
    rewrite rd_header_wire in Hrd by (assumption || lia).
    assert (finfo_of f = i) as <- by congruence.
    assert (masked_opt (f_key f) (f_payload f) ++ rest = r) as <- by congruence.
    cbn [finfo_of i_len i_opcode i_fin i_key] in Hos.
    assert (eff_len (lenN (f_payload f)) = lenN (f_payload f)) as He.
    { pose proof (lform_ok_63 _ _ Hlf). unfold eff_len. destruct (_ <? _) eqn:?; [reflexivity|lia]. }
    rewrite He, takeN_app_exact, masked_opt_invol in Hos by apply lenN_masked_opt.
    rewrite Htr, Hos. reflexivity.
Qed.
Print Assumptions C08_any_failure.

(** A frame cut short: no end marker, whatever happens. *)
Theorem C08_truncated : forall react h0 w lf f miss o w',
  stop_only (w_in w) -> tame_react react -> last_ok (w_sock w) ->
  wire lf f = bytes_of (w_in w) ++ miss -> miss <> [] ->
  lform_ok lf (lenN (f_payload f)) = true -> f_opcode f <= 2 ->
  iterateFrame react h0 w = (o, w') ->
  exists new, w_log w' = w_log w ++ new /\ prefix (transcript new) (map (OByte (f_opcode f)) (f_payload f)).
Proof.
  intros react h0 w lf f miss o w' Hs Ht Hlo Hbs Hmiss Hlf Hop E.
  destruct (iterateFrame_any react h0 w o w' Hs Hlo Ht E) as (new & os & Hf & Htr & Hp & _ & _).
  exists new. split; [apply Hf|].
  assert (prefix (fst (reading 1 (open_of (w_sock w)) (bytes_of (w_in w)))) (map (OByte (f_opcode f)) (f_payload f))) as HR.
  2:{ rewrite Htr. unfold seen. destruct (s_listener (w_sock w)); [|apply prefix_nil]. eapply prefix_trans; eassumption. }
  cbn [reading]. destruct (rd_header (bytes_of (w_in w))) as [[i r]|] eqn:Er; [|apply prefix_nil].
  pose proof (rd_header_app _ miss _ _ Er) as Er'. rewrite <- Hbs in Er'.
  pose proof (rd_header_wire lf f [] ltac:(lia) Hlf) as Ew. rewrite !app_nil_r, Er' in Ew.
  assert (i = finfo_of f) as -> by congruence.
  assert (r ++ miss = masked_opt (f_key f) (f_payload f)) as Hr by congruence. clear Ew Er'.
  cbn [finfo_of i_len i_opcode i_fin i_key].
  assert (eff_len (lenN (f_payload f)) = lenN (f_payload f)) as He.
  { pose proof (lform_ok_63 _ _ Hlf). unfold eff_len. destruct (_ <? _) eqn:?; [reflexivity|lia]. }
  rewrite He. destruct (negb (accepts _ _)); [apply prefix_nil|].
  assert (lenN r < lenN (f_payload f)) as Hlt.
  { rewrite <- (lenN_masked_opt (f_key f) (f_payload f)), <- Hr, lenN_app.
    destruct miss; [congruence|]. rewrite lenN_cons. lia. }
  destruct (N.leb_spec (lenN (f_payload f)) (lenN r)); [lia|]. cbn [negb fst].
  rewrite takeN_all by lia.
  assert (prefix (masked_opt (f_key f) r) (f_payload f)) as Hpp.
  { rewrite <- (masked_opt_invol (f_key f) (f_payload f)), <- Hr. apply rfc_masked_app_prefix. }
  unfold shown. cbn [andb].
  assert (f_opcode f = 0 \/ f_opcode f = 1 \/ f_opcode f = 2) as [->| [->| ->]] by lia;
    rewrite app_nil_r; now apply prefix_map.
Qed.
Print Assumptions C08_truncated.

Example C08_nonvacuous :
  let f := RFrame true false false false 1 (Some (Mask4 x01 x02 x03 x04)) [x61; x62; x63] in
  let w b := demo [RData x81 [x83; x01; x02]; RData x03 [x04; x60]; RData x60 b] in
  wire L7 f = bytes_of (w_in (w [x60])) /\ wire L7 f = bytes_of (w_in (w [])) ++ [x60] /\
  calm passive (w [x60]) /\
  w_log (snd (iterateFrame passive header_init (w [x60]))) =
    [(7%nat, EvMsg 1 [x61]); (7%nat, EvMsg 1 [x62; x63]); (7%nat, EvEnd 1)] /\
  w_log (snd (iterateFrame passive header_init (w []))) = [(7%nat, EvMsg 1 [x61]); (7%nat, EvMsg 1 [x62])].
Proof.
  cbv zeta. do 2 (split; [vm_compute; reflexivity|]). split; [|split; reflexivity].
  split; [repeat constructor|]. split; [constructor|]. split; [apply passive_polite|reflexivity].
Qed.

(** * C09: frame boundaries *)
(** Every accepted frame, with or without a listener. *)
Theorem C09_consumes_the_frame : forall react h0 w lf f rest o w',
  calm react w -> last_ok (w_sock w) ->
  bytes_of (w_in w) = wire lf f ++ rest -> f_opcode f < 16 -> lform_ok lf (lenN (f_payload f)) = true ->
  accepts (open_of (w_sock w)) (finfo_of f) = true ->
  iterateFrame react h0 w = (o, w') ->
  (exists h, o = Ret h) /\ bytes_of (w_in w') = rest.
Proof.
  intros react h0 w lf f rest o w' Hc Hlo Hbs Hop Hlf Ha E.
  destruct (iterateFrame_frame react h0 w lf f rest o w') as (h & new & -> & H & _); try assumption. eauto.
Qed.
Print Assumptions C09_consumes_the_frame.

(** Under any failure: if the frame was handled, it was consumed exactly. *)
Theorem C09_any_failure : forall react h0 w lf f rest h w',
  stop_only (w_in w) -> tame_react react -> last_ok (w_sock w) ->
  bytes_of (w_in w) = wire lf f ++ rest -> f_opcode f < 16 -> lform_ok lf (lenN (f_payload f)) = true ->
  iterateFrame react h0 w = (Ret h, w') -> bytes_of (w_in w') = rest.
Proof.
  intros react h0 w lf f rest h w' Hs Ht Hlo Hbs Hop Hlf E.
  destruct (iterateFrame_any react h0 w (Ret h) w' Hs Hlo Ht E) as (new & os & _ & _ & _ & _ & i & r & Hrd & _ & _ & _ & _ & Hb & _).
  rewrite Hbs, rd_header_wire in Hrd by assumption.
  assert (finfo_of f = i) as <- by congruence.
  assert (masked_opt (f_key f) (f_payload f) ++ rest = r) as <- by congruence.
  cbn [finfo_of i_len] in Hb.
  assert (eff_len (lenN (f_payload f)) = lenN (f_payload f)) as He.
  { pose proof (lform_ok_63 _ _ Hlf). unfold eff_len. destruct (_ <? _) eqn:?; [reflexivity|lia]. }
  rewrite He in Hb. rewrite Hb. apply dropN_app_exact, lenN_masked_opt.
Qed.
Print Assumptions C09_any_failure.

Example C09_nonvacuous :
  let f := RFrame true false false false 9 (Some (Mask4 x01 x02 x03 x04)) [x61; x62; x63] in
  let w := set_sock (demo [RData x89 [xfe; x00]; RData x03 [x01; x02; x03; x04; x60]; RData x60 [x60; x8a; x00]]) (sock_new true) in
  bytes_of (w_in w) = wire L16 f ++ [x8a; x00] /\ bytes_of (w_in (snd (iterateFrame passive header_init w))) = [x8a; x00].
Proof. cbv zeta. split; vm_compute; reflexivity. Qed.

(** * C10: unmasking across chunks *)
(** [q] is what was received; the listener gets its XOR with the key, cut anyhow. *)
Theorem C10_unmasked : forall react h0 w lf fin r1 r2 r3 op k q rest o w' l,
  calm react w -> last_ok (w_sock w) -> s_listener (w_sock w) = Some l -> (op = 1 \/ op = 2) ->
  open_of (w_sock w) = false -> lform_ok lf (lenN q) = true ->
  bytes_of (w_in w) = rfc_header lf fin r1 r2 r3 op (Some k) (lenN q) ++ q ++ rest ->
  iterateFrame react h0 w = (o, w') ->
  exists new, w_log w' = w_log w ++ new /\
    transcript new = map (OByte op) (rfc_masked k q) ++ (if fin then [OEnd op] else []).
Proof.
  intros react h0 w lf fin r1 r2 r3 op k q rest o w' l Hc Hlo Hl Hop Hopn Hlf Hbs E.
  pose (f := RFrame fin r1 r2 r3 op (Some k) (rfc_masked k q)).
  assert (lenN (rfc_masked k q) = lenN q) as Hq by apply lenN_rfc_masked.
  destruct (C08_complete_frame react h0 w lf f rest o w' l) as (new & H1 & H2); try assumption; subst f; cbn [f_payload f_opcode f_fin] in *.
  - unfold wire. cbn [f_fin f_rsv1 f_rsv2 f_rsv3 f_opcode f_key f_payload masked_opt].
    rewrite Hq, rfc_masked_invol, <- app_assoc. exact Hbs.
  - now rewrite Hq.
  - lia.
  - rewrite Hopn. destruct Hop as [-> | ->]; reflexivity.
  - eauto.
Qed.
Print Assumptions C10_unmasked.

Theorem C10_pointwise : forall k q i, (i < length q)%nat ->
  nth i (rfc_masked k q) x00 = bxor (nth i q x00) (nth (i mod 4) (octets k) x00).
Proof.
  intros k q i Hi. unfold rfc_masked.
  set (g := fun ib : nat * byte => bxor (snd ib) (nth (fst ib mod 4)%nat (octets k) x00)).
  rewrite (nth_indep _ x00 (g (0%nat, x00))) by (rewrite map_length, combine_length, seq_length; lia).
  rewrite map_nth, combine_nth by apply seq_length. unfold g. cbn [fst snd].
  rewrite seq_nth by exact Hi. reflexivity.
Qed.
Print Assumptions C10_pointwise.

Theorem C10_involution : forall k p, rfc_masked k (rfc_masked k p) = p.
Proof. exact rfc_masked_invol. Qed.
Print Assumptions C10_involution.

Example C10_nonvacuous :
  let w := demo [RData x02 [x85; x10; x20; x30; x40; x11]; RData x22 [x33]; RData x44 [x15]] in
  calm passive w /\
  w_log (snd (iterateFrame passive header_init w)) =
    [(7%nat, EvMsg 2 [x01]); (7%nat, EvMsg 2 [x02; x03]); (7%nat, EvMsg 2 [x04; x05])].
Proof.
  cbv zeta. split; [|reflexivity].
  split; [repeat constructor|]. split; [constructor|]. split; [apply passive_polite|reflexivity].
Qed.

(** * C11: close round trip *)
Definition close_request (op : sendop) (code : N) (reason : bytes) : Prop :=
  match op with
  | SoClose c m => c = code /\ msg_of m = reason /\ c < 65536 /\ lenN reason <= 123
  | SoClose0 => code = 0 /\ reason = []
  | _ => False
  end.

Lemma close_frame op code reason k : close_request op code reason ->
  lenN (req_payload op) <= 125 /\ frame_for k op = RFrame true false false false 8 k (req_payload op) /\
  close_obs (req_payload op) = OClose code reason.
Proof.
  destruct op as [fin o m|c m| |m|m|m|m]; cbn [close_request]; try (intros H; contradiction).
  - intros (-> & <- & Hc & Hl). unfold req_payload. cbn [request snd]. rewrite lenN_app, lenN_be_enc.
    split; [lia|]. split; [reflexivity|].
    unfold be_enc. cbn [app close_obs]. rewrite !b2n_n2b. f_equal.
    change (256 ^ N.of_nat 1) with 256. change (256 ^ N.of_nat 0) with 1. rewrite N.div_1_r.
    rewrite (N.mod_small (code / 256)) by (apply N.div_lt_upper_bound; lia).
    rewrite (N.div_mod code 256) at 3 by lia. lia.
  - intros (-> & ->). unfold req_payload. cbn [request snd]. rewrite lenN_nil. split; [lia|]. split; reflexivity.
Qed.

Theorem C11_close_round_trip : forall ops opc code reason ws os ws' react wr or wr' l rest,
  healthy (w_wr ws) -> Forall plain_send ops -> Forall (fits (s_mask (w_sock ws))) ops ->
  close_request opc code reason ->
  send_all (ops ++ [opc]) ws = (os, ws') ->
  good react wr -> open_of (w_sock wr) = false -> s_listener (w_sock wr) = Some l ->
  w_out ws' ++ rest = w_out ws ++ bytes_of (w_in wr) ->
  listen react wr = (or, wr') ->
  os = Ret tt /\ or = Ret tt /\ bytes_of (w_in wr') = rest /\
  exists msgs, w_log wr' = w_log wr ++ msgs ++ [(l, EvClose code reason)] /\ transcript msgs = flat_map received ops.
Proof.
  intros ops opc code reason ws os ws' react wr or wr' l rest Hh Hp Hf Hcl Es Hg Ho Hl Hw El.
  destruct (close_frame opc code reason None Hcl) as (Hlen & _ & Hobs).
  assert (Forall (fits (s_mask (w_sock ws))) (ops ++ [opc])) as Hf'.
  { apply Forall_app. split; [exact Hf|]. repeat constructor; cbn; lia. }
  destruct (send_all_healthy (ops ++ [opc]) ws os ws' Hh Hf' Es) as (-> & _ & _ & kall & Hk & _ & Hout).
  destruct (exists_last (l := kall)) as (kops & [k opc'] & ->).
  { intros ->. destruct ops; discriminate. }
  rewrite map_app in Hk. cbn [map snd] in Hk. apply app_inj_tail in Hk. destruct Hk as [Hk ->].
  rewrite Hout, <- app_assoc in Hw. apply app_inv_head in Hw. symmetry in Hw.
  destruct (sent_history kops) as (H1 & H2 & H3).
  { rewrite <- Hk in Hp, Hf. rewrite Forall_map in Hp, Hf. rewrite Forall_forall in *.
    intros x Hx. split; [now apply Hp|]. apply (Hf _ Hx). }
  destruct (close_frame opc code reason k Hcl) as (_ & Hfr & _).
  unfold sent_frames in Hw. rewrite map_app in Hw. fold (sent_frames kops) in Hw. cbn [map fst snd] in Hw.
  unfold wires in Hw. rewrite flat_map_app in Hw. fold (wires (sent_frames kops)) in Hw. cbn [flat_map fst snd] in Hw.
  rewrite app_nil_r, <- app_assoc, Hfr in Hw.
  set (fc := RFrame true false false false 8 k (req_payload opc)) in *.
  rewrite <- Ho in H1, H2.
  destruct (listen_hist react wr or wr' _ _ Hg Hw H1 El) as (new & G1 & G2 & G3 & Gsz & G5).
  rewrite H2, Ho in *.
  assert (reading 1 false (wire (lform_min (lenN (req_payload opc))) fc ++ rest) = ([OClose code reason], Closed rest)) as HR.
  { change (req_payload opc) with (f_payload fc). rewrite reading_wire.
    - cbn [f_opcode fc N.eqb Pos.eqb]. unfold frame_shown, shown. cbn [f_opcode f_payload fc]. now rewrite Hobs.
    - cbn. lia.
    - apply lform_min_ok. cbn [f_payload fc]. lia.
    - cbn. unfold eff_len. destruct (_ <? _); lia. }
  destruct (reading_whole 1 false (wire (lform_min (lenN (req_payload opc))) fc ++ rest)) as [R1 R2];
    [now rewrite HR|]. rewrite HR in R1, R2. cbn [fst snd] in R1, R2. rewrite <- R1, <- R2 in *.
  destruct G5 as [-> G5]. split; [reflexivity|]. split; [reflexivity|]. split; [exact G5|].
  rewrite (seen_some _ _ _ Hl) in G3.
  destruct (transcript_snoc_close (s_buf (w_sock wr)) l code reason new (frames_shown (sent_frames kops))) as (n1 & -> & Ht);
    [eapply addressed_fst; eassumption|exact Gsz|exact G3|].
  exists n1. split; [exact G1|]. now rewrite Ht, H3, flat_map_snd, Hk.
Qed.
Print Assumptions C11_close_round_trip.

Example C11_nonvacuous :
  let ws := demo_client [] in
  let sent := w_out (snd (send_all ([SoText (Some [x61])] ++ [SoClose 1000 (Some [x62; x79])]) ws)) in
  let wr := demo [RData x81 (tl sent ++ [x77])] in
  good passive wr /\ bytes_of (w_in wr) = sent ++ [x77] /\ close_request (SoClose 1000 (Some [x62; x79])) 1000 [x62; x79] /\
  w_log (snd (listen passive wr)) = [(7%nat, EvMsg 1 [x61]); (7%nat, EvEnd 1); (7%nat, EvClose 1000 [x62; x79])] /\
  w_in (snd (listen passive wr)) = [RData x77 []].
Proof.
  cbv zeta. split.
  { split; [repeat constructor|]. split; [constructor|]. split; [apply passive_polite|]. split; [apply passive_never|].
    split; [reflexivity|left; reflexivity]. }
  split; [vm_compute; reflexivity|]. split; [vm_compute; repeat split; discriminate|]. split; vm_compute; reflexivity.
Qed.
