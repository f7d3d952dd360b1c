(** Lemmas behind PropCodec. *)
From Verif Require Import Bytes Frame World WebSocket SpecFrame SpecSend SpecListen
  ProofFrame ProofStream ProofSend ProofHeader ProofReading.
From Coq Require Import ZifyBool ZifyNat ZifyN.
Local Open Scope N_scope.
Local Open Scope m_scope.
Local Arguments takeN : simpl never.
Local Arguments dropN : simpl never.
Local Arguments lenN : simpl never.
Local Arguments be_enc : simpl never.
Local Arguments be_dec : simpl never.

Lemma pack_unpack h h0 bits scenario h' l7 :
  (0 <= h_len h < 2 ^ 63)%Z -> h_opcode h < 256 ->
  packHeaderBits h = (bits, scenario) -> unpackHeaderBits bits h0 = (h', l7) ->
  bits < 65536 /\
  h_fin h' = h_fin h /\ h_rsv1 h' = h_rsv1 h /\ h_rsv2 h' = h_rsv2 h /\ h_rsv3 h' = h_rsv3 h /\
  h_opcode h' = h_opcode h mod 16 /\ h_hasMask h' = h_hasMask h /\
  l7 = (if (h_len h <? 126)%Z then Z.to_N (h_len h) else if (h_len h <? 65536)%Z then 126 else 127).
Proof.
  intros Hl Ho E1 E2. pose proof (packHeaderBits_lt h ltac:(lia)) as Hlt. rewrite E1 in Hlt. cbn in Hlt.
  split; [exact Hlt|].
  rewrite packHeaderBits_arith in E1 by lia. injection E1 as <- <-.
  rewrite unpack_sumbits in E2; [|apply N.mod_lt; lia|apply l7_of_lt; lia].
  injection E2 as <- <-. cbn. auto 8.
Qed.

Lemma field7_onto bits (h0 : header) : bits < 65536 ->
  exists n, (0 <= n)%Z /\
    (if (n <? 126)%Z then Z.to_N n else if (n <? 65536)%Z then 126 else 127) = snd (unpackHeaderBits bits h0).
Proof.
  intros _. cbn [unpackHeaderBits snd].
  assert (N.land bits 127 < 128) as H.
  { change 127 with (N.ones 7). rewrite N.land_ones. apply N.mod_lt. discriminate. }
  destruct (N.ltb_spec (N.land bits 127) 126) as [L|L].
  - exists (Z.of_N (N.land bits 127)). split; [lia|]. destruct (Z.ltb_spec (Z.of_N (N.land bits 127)) 126); lia.
  - destruct (N.eqb_spec (N.land bits 127) 126) as [E|E].
    + exists 126%Z. split; [lia|]. rewrite E. reflexivity.
    + exists 65536%Z. split; [lia|]. cbn. lia.
Qed.

Lemma bits_bytes bits : bits < 65536 -> exists b0 b1, bits = b2n b0 * 256 + b2n b1.
Proof.
  intros H. exists (n2b (bits / 256)), (n2b (bits mod 256)). rewrite !b2n_n2b.
  assert (bits / 256 < 256) by (apply N.div_lt_upper_bound; lia).
  rewrite (N.mod_small (bits / 256)) by assumption. rewrite N.mod_mod by lia.
  rewrite N.mul_comm. apply N.div_mod. lia.
Qed.

Lemma byte0_sweep : forallb (fun b => bitv (128 <=? b2n b) 128 + bitv (b2n b / 64 mod 2 =? 1) 64 +
   bitv (b2n b / 32 mod 2 =? 1) 32 + bitv (b2n b / 16 mod 2 =? 1) 16 + b2n b mod 16 mod 16 =? b2n b) all_bytes = true.
Proof. vm_compute. reflexivity. Qed.

Lemma unpack_pack bits h0 h l7 n :
  bits < 65536 -> unpackHeaderBits bits h0 = (h, l7) -> (0 <= n)%Z ->
  (if (n <? 126)%Z then Z.to_N n else if (n <? 65536)%Z then 126 else 127) = l7 ->
  fst (packHeaderBits (set_len h n)) = bits.
Proof.
  intros Hb E Hn Hf. destruct (bits_bytes bits Hb) as (b0 & b1 & ->).
  rewrite unpackHeaderBits_arith in E. injection E as <- <-.
  rewrite packHeaderBits_arith by exact Hn. cbn [fst set_len h_fin h_rsv1 h_rsv2 h_rsv3 h_hasMask h_opcode h_len].
  unfold l7_of. rewrite Hf. unfold sumbits.
  pose proof byte0_sweep as H. rewrite forallb_forall in H. specialize (H b0 (all_bytes_In b0)).
  apply N.eqb_eq in H. rewrite H. rewrite N.mul_comm. f_equal.
  pose proof (b2n_lt b1). unfold bitv. destruct (N.leb_spec 128 (b2n b1)).
  - pose proof (N.div_mod (b2n b1) 128 ltac:(lia)).
    assert (b2n b1 / 128 = 1); [|lia]. 
    assert (b2n b1 / 128 < 2) by (apply N.div_lt_upper_bound; lia).
    assert (1 <= b2n b1 / 128) by (apply N.div_le_lower_bound; lia). lia.
  - rewrite N.mod_small; lia.
Qed.

Lemma key_of_eq h : (if h_hasMask h then Some (h_mask h) else None) = key_of h.
Proof. reflexivity. Qed.

Lemma header_written h w o w' :
  (0 <= h_len h < 2 ^ 63)%Z -> h_opcode h < 16 -> healthy (w_wr w) ->
  writeFrameHeader h w = (o, w') ->
  o = Ret tt /\
  w_out w' = w_out w ++ rfc_header (lform_min (Z.to_N (h_len h))) (h_fin h) (h_rsv1 h) (h_rsv2 h) (h_rsv3 h) (h_opcode h)
             (if h_hasMask h then Some (h_mask h) else None) (Z.to_N (h_len h)) /\ w_sock w' = w_sock w.
Proof.
  intros Hl Ho Hh E. apply (writeFrameHeader_bytes h Hl) in E.
  destruct E as (_ & _ & Hs & H). destruct (H Hh) as (-> & -> & _).
  rewrite N.mod_small by exact Ho. auto.
Qed.

Lemma bitv3_inj a b c a' b' c' :
  bitv a 4 + bitv b 2 + bitv c 1 = bitv a' 4 + bitv b' 2 + bitv c' 1 -> a = a' /\ b = b' /\ c = c'.
Proof. destruct a, b, c, a', b', c'; cbn; intros H; try discriminate; auto. Qed.

Lemma header_read h h0 rest w o w' :
  (0 <= h_len h < 2 ^ 63)%Z -> h_opcode h < 16 -> clean (w_in w) ->
  bytes_of (w_in w) = rfc_header (lform_min (Z.to_N (h_len h))) (h_fin h) (h_rsv1 h) (h_rsv2 h) (h_rsv3 h) (h_opcode h)
             (if h_hasMask h then Some (h_mask h) else None) (Z.to_N (h_len h)) ++ rest ->
  readFrameHeader h0 w = (o, w') ->
  exists h', o = Ret h' /\ bytes_of (w_in w') = rest /\
    h_fin h' = h_fin h /\ h_rsv1 h' = h_rsv1 h /\ h_rsv2 h' = h_rsv2 h /\ h_rsv3 h' = h_rsv3 h /\
    h_opcode h' = h_opcode h /\ h_hasMask h' = h_hasMask h /\ h_len h' = h_len h /\
    (h_hasMask h = true -> h_mask h' = h_mask h) /\
    w_sock w' = w_sock w /\ w_log w' = w_log w /\ w_out w' = w_out w.
Proof.
  intros Hl Ho Hc Hb E. apply readFrameHeader_spec in E. destruct E as [Hr E].
  assert (Hn : Z.to_N (h_len h) < 2 ^ 63) by lia.
  rewrite Hb in E.
  rewrite rd_header_rfc in E;
    [|exact Ho|apply lform_ok_fits, lform_min_ok; exact Hn].
  destruct o as [h'| | | |]; try contradiction.
  - destruct E as (i & Hi & Hm & _). exists h'. split; [reflexivity|].
    assert (i = FInfo (h_fin h) (rsv_of (h_rsv1 h) (h_rsv2 h) (h_rsv3 h)) (h_opcode h)
              (if h_hasMask h then Some (h_mask h) else None) (Z.to_N (h_len h))) as -> by congruence.
    assert (rest = bytes_of (w_in w')) as -> by congruence.
    destruct Hm as (M1 & M2 & M3 & M4 & M5 & _). cbn [i_fin i_rsv i_opcode i_key i_len] in *.
    unfold rsv_of in M2. apply bitv3_inj in M2. destruct M2 as (R1 & R2 & R3).
    assert (h_hasMask h' = h_hasMask h) as Hhm by (destruct (h_hasMask h), (h_hasMask h'); congruence).
    pose proof (ronly_clean _ _ Hr Hc) as [_ Hs]. destruct Hr as (_ & Hout & _ & _ & Hlog & _).
    repeat (split; [first [reflexivity|assumption]|]).
    split; [rewrite M5, to_i64_small; lia|]. split; [|auto].
    intros E. rewrite E in Hhm, M4. rewrite Hhm in M4. congruence.
  - exfalso. apply E. now apply clean_steady.
  - destruct E as [_ E]. discriminate.
Qed.

Lemma header_round_trip h h0 rest ws os ws' wr or wr' :
  (0 <= h_len h < 2 ^ 63)%Z -> h_opcode h < 16 ->
  healthy (w_wr ws) -> writeFrameHeader h ws = (os, ws') ->
  clean (w_in wr) -> w_out ws ++ bytes_of (w_in wr) = w_out ws' ++ rest ->
  readFrameHeader h0 wr = (or, wr') ->
  exists h', or = Ret h' /\ bytes_of (w_in wr') = rest /\
    h_fin h' = h_fin h /\ h_rsv1 h' = h_rsv1 h /\ h_rsv2 h' = h_rsv2 h /\ h_rsv3 h' = h_rsv3 h /\
    h_opcode h' = h_opcode h /\ h_hasMask h' = h_hasMask h /\ h_len h' = h_len h /\
    (h_hasMask h = true -> h_mask h' = h_mask h).
Proof.
  intros Hl Ho Hh E1 Hc Hb E2. destruct (header_written _ _ _ _ Hl Ho Hh E1) as (_ & Hout & _).
  rewrite Hout, <- app_assoc in Hb. apply app_inv_head in Hb.
  destruct (header_read _ _ _ _ _ _ Hl Ho Hc Hb E2) as (h' & H). exists h'. tauto.
Qed.

Lemma sent_frame op w o w' :
  healthy (w_wr w) -> lenN (req_payload op) < 2 ^ 63 -> size_ok w (req_payload op) ->
  send op w = (o, w') ->
  o = Ret tt /\
  w_out w' = w_out w ++
    wire (lform_min (lenN (req_payload op)))
         (RFrame (req_fin op) false false false (req_opcode op mod 16)
                 (if s_mask (w_sock w) then Some (next_key w) else None) (req_payload op)) /\
  w_rpos w' = (w_rpos w + (if s_mask (w_sock w) then 4 else 0))%nat /\ w_sock w' = w_sock w.
Proof.
  intros Hh Hl Hz E. apply send_spec in E; [|exact Hl].
  destruct E as (p & _ & Ho & Hr & _ & _ & _ & _ & _ & H). destruct (H Hh Hz) as (-> & -> & _ & Hs).
  split; [reflexivity|]. split; [exact Ho|]. split; [exact Hr|exact Hs].
Qed.

Lemma sendOneFrame_true fin opcode m w o w' :
  healthy (w_wr w) -> lenN (msg_of m) < 2 ^ 63 -> size_ok w (msg_of m) ->
  sendOneFrame fin opcode m w = (o, w') ->
  o = Ret true /\
  w_out w' = w_out w ++
    wire (lform_min (lenN (msg_of m)))
         (RFrame fin false false false (opcode mod 16)
                 (if s_mask (w_sock w) then Some (next_key w) else None) (msg_of m)).
Proof.
  intros Hh Hl Hz E. apply sendOneFrame_spec in E; [|exact Hl].
  destruct E as (_ & _ & _ & _ & H). destruct (H Hh Hz) as (-> & -> & _). auto.
Qed.

Lemma send_reported op w o w' :
  lenN (req_payload op) < 2 ^ 63 -> send op w = (o, w') ->
  exists p, w_out w' = w_out w ++ p /\ prefix p (sent_wire (next_key_opt w) op) /\
    (forall e, o = Throw e -> p <> sent_wire (next_key_opt w) op) /\
    (o = Ret tt -> (forall fin c m, op <> SoFrame fin c m) -> p = sent_wire (next_key_opt w) op).
Proof.
  intros Hl E. apply send_spec in E; [|exact Hl].
  destruct E as (p & H1 & H2 & _ & _ & _ & H3 & H4 & _). exists p. auto.
Qed.

Lemma sendOneFrame_reported fin c m w o w' :
  lenN (msg_of m) < 2 ^ 63 -> sendOneFrame fin c m w = (o, w') ->
  exists p, w_out w' = w_out w ++ p /\ prefix p (raw_wire (next_key_opt w) fin c (msg_of m)) /\
    match o with
    | Ret true => p = raw_wire (next_key_opt w) fin c (msg_of m)
    | Ret false | Throw _ => p <> raw_wire (next_key_opt w) fin c (msg_of m)
    | _ => True
    end.
Proof.
  intros Hl E. apply sendOneFrame_spec in E; [|exact Hl]. destruct E as ((p & H1 & H2 & H3) & _).
  exists p. split; [exact H2|]. split; [exact H1|]. destruct o as [[]| | | |]; auto.
  - now apply H3.
  - intros H. apply H3 in H. discriminate.
Qed.

Lemma send_stops op w w' :
  lenN (req_payload op) < 2 ^ 63 -> send op w = (Throw ExSend, w') -> s_listening (w_sock w') = false.
Proof.
  intros Hl E. apply send_spec in E; [|exact Hl]. destruct E as (p & _ & _ & _ & _ & _ & _ & _ & H & _). auto.
Qed.

Lemma send_no_ub op w o w' u :
  lenN (req_payload op) < 2 ^ 63 -> (s_mask (w_sock w) = true -> lenN (req_payload op) < 2 ^ 31) ->
  send op w = (o, w') -> o <> Ub u.
Proof.
  intros Hl Hz E -> . apply send_spec in E; [|exact Hl]. destruct E as (p & _ & _ & _ & _ & H & _).
  destruct (H u eq_refl) as (_ & H1 & H2). specialize (Hz H1). lia.
Qed.

Lemma sendOneFrame_ub fin c m w :
  healthy (w_wr w) -> s_mask (w_sock w) = true -> 2 ^ 31 <= lenN (msg_of m) < 2 ^ 63 ->
  exists w', sendOneFrame fin c m w = (Ub UbSigned, w').
Proof.
  intros Hh Hm Hl. unfold sendOneFrame.
  destruct m as [[|b bs]|]; [cbn [msg_of] in Hl; rewrite lenN_nil in Hl; lia| |cbn [msg_of] in Hl; rewrite lenN_nil in Hl; lia].
  cbn [msg_of] in Hl.
  cbv zeta. unfold bind at 1.
  destruct (sendFrameHeader header_init fin c (Z.of_N (lenN (b :: bs))) w) as [o1 w1] eqn:E1.
  pose proof E1 as E1'. apply sendFrameHeader_spec in E1'; [|lia]. cbv zeta in E1'.
  destruct E1' as (_ & _ & _ & Hk & _ & H). destruct (H Hh) as ((h & ->) & _).
  destruct (Hk _ eq_refl) as [Hk1 _]. rewrite Hm in Hk1. rewrite Hk1.
  unfold bind. destruct (N.leb_spec (2 ^ 31) (lenN (b :: bs))); [|lia].
  eexists. reflexivity.
Qed.

Lemma send_ub op w :
  healthy (w_wr w) -> s_mask (w_sock w) = true -> 2 ^ 31 <= lenN (req_payload op) < 2 ^ 63 ->
  exists w', send op w = (Ub UbSigned, w').
Proof.
  intros Hh Hm Hl.
  assert (exists fin c m, msg_of m = req_payload op /\
    (send op = (sendOneFrame fin c m ;;; ret tt) \/ send op = sendChecked fin c m)) as (fin & c & m & Hp & Hs).
  { destruct op; do 3 eexists; (split; [|first [left; reflexivity|right; reflexivity]]); reflexivity. }
  rewrite <- Hp in Hl. destruct (sendOneFrame_ub fin c m w Hh Hm Hl) as [w' E].
  destruct Hs as [-> | ->]; [unfold bind|unfold sendChecked, bind]; rewrite E; eexists; reflexivity.
Qed.

Lemma big_message : lenN (req_payload (SoText (Some (repeat x00 (N.to_nat (2 ^ 31)))))) = 2 ^ 31.
Proof.
  change (lenN (repeat x00 (N.to_nat (2 ^ 31))) = 2 ^ 31). unfold lenN. rewrite repeat_length. apply N2Nat.id.
Qed.
