(** C97: what a strict RFC 6455 peer makes of what this library sends. *)
From Verif Require Import Bytes Frame World WebSocket AsyncWebSocket SpecFrame SpecSend SpecListen SpecApi SpecAsync SpecReply SpecAccept SpecInterop
  ProofFrame ProofStream ProofSend ProofReading ProofApi ProofProps ProofAsync ProofAsync2 PropListen PropReply PropAsync PropAsync2 PropAsync3 PropAccept.
From Coq Require Import Lia ZifyBool ZifyN.
Local Open Scope N_scope.
Local Arguments takeN : simpl never.
Local Arguments dropN : simpl never.
Local Arguments lenN : simpl never.
Local Arguments be_enc : simpl never.
Local Arguments be_dec : simpl never.

(** * The reading of a strict peer *)
Lemma rfc_more k : forall msk opn bs j, is_stopped (snd (rfc_reading k msk opn bs)) = false -> (k <= j)%nat ->
  rfc_reading j msk opn bs = rfc_reading k msk opn bs.
Proof.
  induction k as [|k IH]; intros msk opn bs j Hs Hj; [discriminate|].
  destruct j as [|j]; [lia|]. cbn [rfc_reading] in *.
  destruct (rd_header bs) as [[i rest]|]; [|reflexivity].
  destruct (negb (rfc_accepts msk opn i)); [reflexivity|].
  destruct (negb (i_len i <=? lenN rest)); [reflexivity|].
  destruct (i_opcode i =? 8); [reflexivity|].
  destruct (rfc_reading k msk (rfc_next opn i) (dropN (i_len i) rest)) as [m e] eqn:E.
  rewrite (IH _ _ _ j), E; [reflexivity|now rewrite E|lia].
Qed.
Lemma rfc_stops k : forall msk opn bs, (length bs < k)%nat -> is_stopped (snd (rfc_reading k msk opn bs)) = false.
Proof.
  induction k as [|k IH]; intros msk opn bs Hk; [lia|]. cbn [rfc_reading].
  destruct (rd_header bs) as [[i rest]|] eqn:E; [|reflexivity].
  destruct (negb (rfc_accepts msk opn i)); [reflexivity|].
  destruct (negb (i_len i <=? lenN rest)); [reflexivity|].
  destruct (i_opcode i =? 8); [reflexivity|].
  apply rd_header_len in E. pose proof (length_dropN (i_len i) rest).
  assert (length (dropN (i_len i) rest) < k)%nat as Hd by lia.
  specialize (IH msk (rfc_next opn i) _ Hd). destruct (rfc_reading k _ _ _). exact IH.
Qed.
(** The reading of the whole stream from a state. *)
Definition rfc_from (msk : bool) (opn : option N) (bs : bytes) : list obs * rend := rfc_reading (S (length bs)) msk opn bs.
Lemma rfc_enough k msk opn bs : (length bs < k)%nat -> rfc_reading k msk opn bs = rfc_from msk opn bs.
Proof. intros H. unfold rfc_from. apply rfc_more; [|lia]. apply rfc_stops. lia. Qed.

Lemma rd_sent k op b : lenN (req_payload op) < 2 ^ 63 ->
  rd_header (sent_wire k op ++ b) = Some (finfo_of (frame_for k op), masked_opt k (req_payload op) ++ b).
Proof. intros Hl. apply (rd_header_wire _ (frame_for k op) b); [apply N.mod_lt; lia|apply lform_min_ok; exact Hl]. Qed.
Lemma rfc_frame msk opn k op b : lenN (req_payload op) < 2 ^ 63 -> rfc_accepts msk opn (finfo_of (frame_for k op)) = true ->
  rfc_from msk opn (sent_wire k op ++ b) =
    if req_opcode op mod 16 =? 8
    then (shown (rfc_op opn (finfo_of (frame_for k op))) (req_fin op) (req_payload op) true, Closed b)
    else (shown (rfc_op opn (finfo_of (frame_for k op))) (req_fin op) (req_payload op) true ++ fst (rfc_from msk (rfc_next opn (finfo_of (frame_for k op))) b),
          snd (rfc_from msk (rfc_next opn (finfo_of (frame_for k op))) b)).
Proof.
  intros Hl Ha. unfold rfc_from at 1. cbn [rfc_reading].
  rewrite (rd_sent _ _ _ Hl), Ha.
  cbn [negb i_len i_key i_opcode i_fin finfo_of frame_for f_opcode f_fin f_payload f_key f_rsv1 f_rsv2 f_rsv3].
  pose proof (lenN_masked_opt k (req_payload op)) as Hm.
  rewrite takeN_app_exact, dropN_app_exact by exact Hm. rewrite lenN_app, Hm.
  replace (lenN (req_payload op) <=? lenN (req_payload op) + lenN b) with true by lia. cbn [negb].
  rewrite masked_opt_invol.
  destruct (req_opcode op mod 16 =? 8); [reflexivity|].
  rewrite rfc_enough.
  - destruct (rfc_from msk _ b); reflexivity.
  - unfold sent_wire. rewrite app_length. pose proof (length_wire_pos (lform_min (lenN (req_payload op))) (frame_for k op)). lia.
Qed.
Lemma rfc_refuses msk opn k op b : lenN (req_payload op) < 2 ^ 63 -> rfc_accepts msk opn (finfo_of (frame_for k op)) = false ->
  rfc_from msk opn (sent_wire k op ++ b) = ([], Rejected (masked_opt k (req_payload op) ++ b)).
Proof.
  intros Hl Ha. unfold rfc_from. cbn [rfc_reading]. now rewrite (rd_sent _ _ _ Hl), Ha.
Qed.

Lemma rfc_understood_reading msk ops : forall opn b, Forall (fun op => lenN (req_payload op) < 2 ^ 63) ops -> frames_with msk ops b ->
  (opn = None \/ opn = Some 1 \/ opn = Some 2) ->
  fst (rfc_from msk opn b) = fst (rfc_understood opn ops) /\ rfc_ends msk (snd (rfc_from msk opn b)) (snd (rfc_understood opn ops)).
Proof.
  induction ops as [|op r IH]; intros opn b Hl Hb Ho; inversion Hb as [|? ? k b' Hk Hb' ]; subst.
  - split; reflexivity.
  - inversion Hl as [|? ? L1 L2]; subst. set (msk := has_key k) in *.
    assert (forall opn' now, rfc_accepts msk opn (finfo_of (frame_for k op)) = true -> rfc_next opn (finfo_of (frame_for k op)) = opn' -> req_opcode op mod 16 <> 8 ->
              (opn' = None \/ opn' = Some 1 \/ opn' = Some 2) ->
              shown (rfc_op opn (finfo_of (frame_for k op))) (req_fin op) (req_payload op) true = now ->
              let x := (let (later, f) := rfc_understood opn' r in (now ++ later, f)) in
              fst (rfc_from msk opn (sent_wire k op ++ b')) = fst x /\ rfc_ends msk (snd (rfc_from msk opn (sent_wire k op ++ b'))) (snd x)) as Hgo.
    { intros opn' now Ha Hn H8 Ho' Hs. rewrite (rfc_frame msk opn k op b' L1 Ha), Hn, Hs.
      apply N.eqb_neq in H8. rewrite H8. destruct (IH opn' b' L2 Hb' Ho') as [I1 I2].
      cbn [fst snd]. rewrite I1. destruct (rfc_understood opn' r). cbn [fst snd] in *. auto. }
    assert (rfc_accepts msk opn (finfo_of (frame_for k op)) = false ->
              fst (rfc_from msk opn (sent_wire k op ++ b')) = [] /\ rfc_ends msk (snd (rfc_from msk opn (sent_wire k op ++ b'))) (RefusedAt op r)) as Hno.
    { intros Ha. rewrite (rfc_refuses msk opn k op b' L1 Ha). split; [reflexivity|]. exists k, b'. auto. }
    assert (rfc_accepts msk opn (finfo_of (frame_for k op)) =
      match req_opcode op mod 16 with
      | 0 => match opn with Some _ => true | None => false end
      | 1 | 2 => match opn with Some _ => false | None => true end
      | 8 | 9 | 10 => req_fin op && (lenN (req_payload op) <=? 125)
      | _ => false
      end) as Hacc.
    { unfold rfc_accepts, finfo_of. cbn [i_rsv i_key i_len i_opcode i_fin frame_for f_key f_fin f_opcode f_payload f_rsv1 f_rsv2 f_rsv3].
      unfold rsv_of. cbn [bitv N.add N.eqb andb]. unfold msk. rewrite Bool.eqb_reflx. cbn [andb].
      replace (lenN (req_payload op) <? 2 ^ 63) with true by lia. reflexivity. }
    pose proof (rfc_frame msk opn k op b' L1) as Hfr. rewrite Hacc in Hgo, Hno, Hfr. clear Hacc.
    unfold rfc_next, rfc_op in Hgo, Hfr. cbn [i_opcode i_fin finfo_of frame_for f_opcode f_fin] in Hgo, Hfr.
    cbn [rfc_understood].
    remember (req_opcode op mod 16) as t eqn:Et.
    assert (t < 16) as Ht by (rewrite Et; apply N.mod_lt; lia). clear Et.
    assert (t = 0 \/ t = 1 \/ t = 2 \/ t = 8 \/ t = 9 \/ t = 10 \/
            t = 3 \/ t = 4 \/ t = 5 \/ t = 6 \/ t = 7 \/ t = 11 \/ t = 12 \/ t = 13 \/ t = 14 \/ t = 15) as Hc by lia.
    assert (forall u : N, (if req_fin op then None else Some u) = None \/ (if req_fin op then None else Some u) = Some u) as Hu by (intros; destruct (req_fin op); auto).
    destruct Hc as [E|[E|[E|[E|[E|[E|Hc]]]]]]; [| | | | | |].
    + subst t. destruct opn as [u|]; [|exact (Hno eq_refl)].
      apply Hgo; [reflexivity|reflexivity|discriminate| |].
      * destruct Ho as [[=]|[[= ->]|[= ->]]]; destruct (Hu 1), (Hu 2); auto.
      * destruct Ho as [[=]|[[= ->]|[= ->]]]; reflexivity.
    + subst t. destruct opn as [u|]; [exact (Hno eq_refl)|].
      apply Hgo; [reflexivity|reflexivity|discriminate|destruct (Hu 1); auto|reflexivity].
    + subst t. destruct opn as [u|]; [exact (Hno eq_refl)|].
      apply Hgo; [reflexivity|reflexivity|discriminate|destruct (Hu 2); auto|reflexivity].
    + subst t.
      destruct (req_fin op && (lenN (req_payload op) <=? 125)).
      * rewrite (Hfr eq_refl). destruct opn; (split; [reflexivity|exists b'; auto]).
      * destruct opn; exact (Hno eq_refl).
    + subst t. destruct (req_fin op && (lenN (req_payload op) <=? 125)).
      * destruct opn; (apply Hgo; [reflexivity|reflexivity|discriminate|exact Ho|reflexivity]).
      * destruct opn; exact (Hno eq_refl).
    + subst t. destruct (req_fin op && (lenN (req_payload op) <=? 125)).
      * destruct opn; (apply Hgo; [reflexivity|reflexivity|discriminate|exact Ho|reflexivity]).
      * destruct opn; exact (Hno eq_refl).
    + destruct Hc as [E|[E|[E|[E|[E|[E|[E|[E|[E|E]]]]]]]]]; subst t; exact (Hno eq_refl).
Qed.

Lemma frames_with_sent msk kops : Forall (fun x => has_key (fst x) = msk) kops -> frames_with msk (map snd kops) (wires (sent_frames kops)).
Proof.
  induction 1 as [|[k op] r Hk _ IH]; [constructor|]. cbn [map snd]. unfold sent_frames, wires in *. cbn [map flat_map fst snd].
  exact (fw_cons msk op (map snd r) k _ Hk IH).
Qed.
Lemma frames_with_of m rnd ops : forall pos, frames_with m ops (frames_of m rnd pos ops).
Proof.
  induction ops as [|op r IH]; intros pos; cbn [frames_of]; [constructor|]. constructor; [|apply IH].
  destruct m; reflexivity.
Qed.

(** Any sequence of sending calls, over a connection that works: every call succeeds, and a strict RFC 6455 peer hears exactly what
    [rfc_understood] says of the calls and goes on, ends or refuses where it says. *)
Theorem C97_exactly : forall ops w o w' b,
  healthy (w_wr w) -> Forall (fits (s_mask (w_sock w))) ops -> send_all ops w = (o, w') -> w_out w' = w_out w ++ b ->
  o = Ret tt /\ fst (rfc_stream_reading (s_mask (w_sock w)) b) = fst (rfc_understood None ops) /\
  rfc_ends (s_mask (w_sock w)) (snd (rfc_stream_reading (s_mask (w_sock w)) b)) (snd (rfc_understood None ops)).
Proof.
  intros ops w o w' b Hh Hf E Hb.
  destruct (send_all_healthy ops w o w' Hh Hf E) as (-> & _ & _ & kops & <- & Hk & Hout). split; [reflexivity|].
  rewrite Hout in Hb. apply app_inv_head in Hb. subst b.
  exact (rfc_understood_reading _ _ None _ (fits_63 _ _ Hf) (frames_with_sent _ _ Hk) (or_introl eq_refl)).
Qed.
Print Assumptions C97_exactly.

(** * Conversations *)
Lemma pair_let {A B} (x : list A * B) (now : list A) : (let (later, f) := x in (now ++ later, f)) = (now ++ fst x, snd x).
Proof. destruct x; reflexivity. Qed.

Lemma ctl_understood opn c r : ctl_ok c -> (opn = None \/ opn = Some 1 \/ opn = Some 2) ->
  rfc_understood opn (ctl_call c :: r) = (ctl_heard c :: fst (rfc_understood opn r), snd (rfc_understood opn r)).
Proof.
  intros Hc Ho. destruct c as [m|m]; cbn [ctl_ok] in Hc; cbn [rfc_understood ctl_call]; unfold req_opcode, req_payload, req_fin; cbn [request fst snd msg_of andb];
  [change (9 mod 16) with 9|change (10 mod 16) with 10]; (replace (lenN m <=? 125) with true by lia); destruct Ho as [->|[->| ->]]; cbn [ctl_heard]; rewrite pair_let; reflexivity.
Qed.
Lemma parts_understood t mid : Forall part_ok mid -> (t = 1 \/ t = 2) -> forall r,
  rfc_understood (Some t) (map part_call mid ++ r) = (flat_map (part_heard t) mid ++ fst (rfc_understood (Some t) r), snd (rfc_understood (Some t) r)).
Proof.
  intros Hm Ht. induction Hm as [|p mid Hp _ IH]; intros r; cbn [map flat_map app]; [apply surjective_pairing|].
  destruct p as [m|c].
  - cbn [part_call part_heard rfc_understood]. unfold req_opcode, req_payload, req_fin. cbn [request fst snd msg_of]. change (0 mod 16) with 0. cbn iota.
    rewrite app_nil_r, pair_let, IH. cbn [fst snd]. now rewrite app_assoc.
  - cbn [part_call part_heard]. rewrite ctl_understood; [|exact Hp|destruct Ht as [->| ->]; auto]. rewrite IH. reflexivity.
Qed.
Lemma item_understood i r : item_ok i ->
  rfc_understood None (item_calls i ++ r) = (item_heard i ++ fst (rfc_understood None r), snd (rfc_understood None r)).
Proof.
  intros Hi. destruct i as [t m|t first mid final|c]; cbn [item_ok item_calls item_heard app] in *.
  - destruct Hi as [->| ->]; cbn [N.eqb Pos.eqb rfc_understood]; unfold req_opcode, req_payload, req_fin; cbn [request fst snd msg_of];
    [change (1 mod 16) with 1|change (2 mod 16) with 2]; cbn iota; rewrite pair_let; reflexivity.
  - destruct Hi as [Ht Hm]. rewrite <- app_assoc. cbn [app].
    assert (forall x, rfc_understood None (SoFrame false t (Some first) :: x) = (map (OByte t) first ++ fst (rfc_understood (Some t) x), snd (rfc_understood (Some t) x))) as H1.
    { intros x. cbn [rfc_understood]. unfold req_opcode, req_payload, req_fin. cbn [request fst snd msg_of].
      destruct Ht as [->| ->]; [change (1 mod 16) with 1|change (2 mod 16) with 2]; cbn iota; rewrite app_nil_r; apply pair_let. }
    rewrite H1, (parts_understood t mid Hm Ht). cbn [fst snd rfc_understood]. unfold req_opcode, req_payload, req_fin. cbn [request fst snd msg_of].
    change (0 mod 16) with 0. cbn iota. rewrite pair_let. cbn [fst snd]. now rewrite <- !app_assoc.
  - rewrite ctl_understood; auto.
Qed.
Lemma items_understood is r : Forall item_ok is ->
  rfc_understood None (flat_map item_calls is ++ r) = (flat_map item_heard is ++ fst (rfc_understood None r), snd (rfc_understood None r)).
Proof.
  induction 1 as [|i is Hi _ IH]; cbn [flat_map app]; [apply surjective_pairing|].
  rewrite <- !app_assoc, item_understood, IH by exact Hi. reflexivity.
Qed.

(** Any number of messages, whole or in parts, with pings and pongs between them and between the parts of a message: the peer hears each
    message with exactly its bytes and its type, ended once, and the pings and pongs where they were sent; and it waits for more. *)
Theorem C97_conversation : forall is w o w' b,
  healthy (w_wr w) -> Forall item_ok is -> Forall (fits (s_mask (w_sock w))) (flat_map item_calls is) ->
  send_all (flat_map item_calls is) w = (o, w') -> w_out w' = w_out w ++ b ->
  o = Ret tt /\ rfc_stream_reading (s_mask (w_sock w)) b = (flat_map item_heard is, Blocked).
Proof.
  intros is w o w' b Hh Hi Hf E Hb. destruct (C97_exactly _ _ _ _ _ Hh Hf E Hb) as (-> & H1 & H2). split; [reflexivity|].
  pose proof (items_understood is [] Hi) as Hu. rewrite app_nil_r in Hu. cbn in Hu. rewrite app_nil_r in Hu.
  rewrite Hu in H1, H2. cbn [fst snd rfc_ends] in H1, H2. rewrite (surjective_pairing (rfc_stream_reading _ b)), H1, H2. reflexivity.
Qed.
Print Assumptions C97_conversation.

(** The same followed by a Close: the peer hears its code and reason last; what is sent after it is not read. *)
Theorem C97_conversation_close : forall is code reason after w o w' b,
  healthy (w_wr w) -> Forall item_ok is -> lenN reason <= 123 -> code < 65536 ->
  Forall (fits (s_mask (w_sock w))) (flat_map item_calls is ++ SoClose code (Some reason) :: after) ->
  send_all (flat_map item_calls is ++ SoClose code (Some reason) :: after) w = (o, w') -> w_out w' = w_out w ++ b ->
  o = Ret tt /\ exists unread, rfc_stream_reading (s_mask (w_sock w)) b = (flat_map item_heard is ++ [OClose code reason], Closed unread) /\
    frames_with (s_mask (w_sock w)) after unread.
Proof.
  intros is code reason after w o w' b Hh Hi Hr Hc Hf E Hb. destruct (C97_exactly _ _ _ _ _ Hh Hf E Hb) as (-> & H1 & H2). split; [reflexivity|].
  rewrite (items_understood is _ Hi) in H1, H2.
  assert (rfc_understood None (SoClose code (Some reason) :: after) = ([OClose code reason], ClosedBy after)) as Hcl.
  { destruct (close_frame (SoClose code (Some reason)) code reason None) as (Hlen & Hcf); [repeat split; assumption|].
    cbn [rfc_understood]. change (req_opcode (SoClose code (Some reason)) mod 16) with 8. change (req_fin (SoClose code (Some reason))) with true.
    cbn iota. cbn [andb]. replace (lenN (req_payload (SoClose code (Some reason))) <=? 125) with true by lia.
    now rewrite (proj2 Hcf). }
  rewrite Hcl in H1, H2. cbn [fst snd rfc_ends] in H1, H2. destruct H2 as (u & E2 & F).
  exists u. split; [|exact F]. rewrite (surjective_pairing (rfc_stream_reading _ b)), H1, E2. reflexivity.
Qed.
Print Assumptions C97_conversation_close.

(** * Listeners' replies *)
Lemma sends_fit m cs : Forall (mask_cmd m) cs -> Forall (fits m) (sends_of cs).
Proof. induction 1 as [|c cs Hc _ IH]; [constructor|]. destruct c; cbn [sends_of mask_cmd] in *; first [exact IH|constructor; assumption|constructor]. Qed.
Lemma replies_fit m react : mask_react m react -> forall new log, Forall (fits m) (replies react log new).
Proof.
  intros Hr. induction new as [|e r IH]; intros log; cbn [replies]; [constructor|]. apply Forall_app. split; [apply sends_fit, Hr|apply IH].
Qed.
Lemma replies_tidy react : tidy_react react -> forall new log, Forall tidy (replies react log new).
Proof.
  intros Hr. induction new as [|e r IH]; intros log; cbn [replies]; [constructor|]. apply Forall_app. split; [apply Hr|apply IH].
Qed.

Lemma tidy_understood ops : Forall tidy ops ->
  fst (rfc_understood None ops) = tidy_heard ops /\
  (if existsb is_close_call ops then exists r, snd (rfc_understood None ops) = ClosedBy r else snd (rfc_understood None ops) = AllRead).
Proof.
  induction 1 as [|op r Hop _ [IH1 IH2]]; [split; reflexivity|].
  cbn [existsb tidy_heard]. destruct op as [fin o m|code m| |m|m|m|m]; cbn [tidy is_close_call orb] in *.
  - contradiction.
  - cbn [rfc_understood]. change (req_opcode (SoClose code m) mod 16) with 8. change (req_fin (SoClose code m)) with true. cbn iota. cbn [andb].
    assert (lenN (req_payload (SoClose code m)) <= 125) as Hl by (unfold req_payload; cbn [request snd]; rewrite lenN_app, lenN_be_enc; lia).
    replace (lenN (req_payload (SoClose code m)) <=? 125) with true by lia. split; [|eexists; reflexivity].
    cbn [fst]. unfold req_payload. cbn [request snd]. unfold be_enc. cbn [app close_obs]. do 2 f_equal.
    rewrite !b2n_n2b. clear. mlia.
  - split; [reflexivity|]. eexists. reflexivity.
  - cbn [rfc_understood]. change (req_opcode (SoPing m) mod 16) with 9. change (req_fin (SoPing m)) with true. change (req_payload (SoPing m)) with (msg_of m). cbn iota. cbn [andb].
    replace (lenN (msg_of m) <=? 125) with true by lia. rewrite pair_let. cbn [fst snd app]. rewrite IH1. auto.
  - cbn [rfc_understood]. change (req_opcode (SoPong m) mod 16) with 10. change (req_fin (SoPong m)) with true. change (req_payload (SoPong m)) with (msg_of m). cbn iota. cbn [andb].
    replace (lenN (msg_of m) <=? 125) with true by lia. rewrite pair_let. cbn [fst snd app]. rewrite IH1. auto.
  - cbn [rfc_understood]. change (req_opcode (SoText m) mod 16) with 1. change (req_fin (SoText m)) with true. change (req_payload (SoText m)) with (msg_of m). cbn iota.
    rewrite pair_let. cbn [fst snd]. rewrite IH1, <- app_assoc. auto.
  - cbn [rfc_understood]. change (req_opcode (SoBinary m) mod 16) with 2. change (req_fin (SoBinary m)) with true. change (req_payload (SoBinary m)) with (msg_of m). cbn iota.
    rewrite pair_let. cbn [fst snd]. rewrite IH1, <- app_assoc. auto.
Qed.

(** Whatever the peer (or an attacker) sends, whatever failures the reading meets and however it ends: what a blocking listener sends while it
    listens is heard by a strict peer as [rfc_understood] says of the sends its callbacks made. *)
Theorem C97_replies : forall react w o w' b,
  mask_react (s_mask (w_sock w)) react -> script_ok (mask_ext (s_mask (w_sock w))) any_err (w_in w) -> healthy (w_wr w) ->
  listen react w = (o, w') -> w_out w' = w_out w ++ b ->
  exists new, w_log w' = w_log w ++ new /\
    fst (rfc_stream_reading (s_mask (w_sock w)) b) = fst (rfc_understood None (replies react (w_log w) new)) /\
    rfc_ends (s_mask (w_sock w)) (snd (rfc_stream_reading (s_mask (w_sock w)) b)) (snd (rfc_understood None (replies react (w_log w) new))).
Proof.
  intros react w o w' b Hr Hs Hh E Hb. destruct (C49_replies _ react w o w' eq_refl Hr Hs Hh E) as (new & N1 & N2 & _).
  exists new. split; [exact N1|]. rewrite N2 in Hb. apply app_inv_head in Hb. subst b.
  apply rfc_understood_reading; [|apply frames_with_of|auto]. exact (fits_63 _ _ (replies_fit _ _ Hr _ _)).
Qed.
Print Assumptions C97_replies.
(** In particular a listener that sends complete messages is never refused: each is heard, up to its first Close. *)
Theorem C97_replies_never_refused : forall react w o w' b,
  tidy_react react -> mask_react (s_mask (w_sock w)) react -> script_ok (mask_ext (s_mask (w_sock w))) any_err (w_in w) -> healthy (w_wr w) ->
  listen react w = (o, w') -> w_out w' = w_out w ++ b ->
  exists new, w_log w' = w_log w ++ new /\
    fst (rfc_stream_reading (s_mask (w_sock w)) b) = tidy_heard (replies react (w_log w) new) /\
    (if existsb is_close_call (replies react (w_log w) new)
     then exists unread, snd (rfc_stream_reading (s_mask (w_sock w)) b) = Closed unread
     else snd (rfc_stream_reading (s_mask (w_sock w)) b) = Blocked).
Proof.
  intros react w o w' b Ht Hr Hs Hh E Hb. destruct (C97_replies react w o w' b Hr Hs Hh E Hb) as (new & N1 & N2 & N3).
  exists new. split; [exact N1|]. destruct (tidy_understood _ (replies_tidy react Ht new (w_log w))) as [T1 T2].
  rewrite N2, T1. split; [reflexivity|]. destruct (existsb _ _).
  - destruct T2 as [r T2]. rewrite T2 in N3. destruct N3 as (u & -> & _). eauto.
  - rewrite T2 in N3. exact N3.
Qed.
Print Assumptions C97_replies_never_refused.

(** A prefix of a stream that a strict peer does not refuse is not refused either, and nothing else is heard of it. *)
Definition refused_end (e : rend) : bool := match e with Rejected _ => true | _ => false end.
Lemma rfc_cut k : forall msk opn p q,
  prefix (fst (rfc_reading k msk opn p)) (fst (rfc_reading k msk opn (p ++ q))) /\
  (refused_end (snd (rfc_reading k msk opn p)) = true -> refused_end (snd (rfc_reading k msk opn (p ++ q))) = true).
Proof.
  induction k as [|k IH]; intros msk opn p q; [split; [apply prefix_refl|discriminate]|]. cbn [rfc_reading].
  destruct (rd_header p) as [[i rest]|] eqn:Eh; [|split; [apply prefix_nil|discriminate]].
  rewrite (rd_header_app _ q _ _ Eh).
  destruct (negb (rfc_accepts msk opn i)); [split; [apply prefix_refl|reflexivity]|].
  rewrite takeN_app, dropN_app, lenN_app.
  destruct (N.leb_spec (i_len i) (lenN rest)) as [Hc|Hc]; cbn [negb].
  - replace (i_len i <=? lenN rest + lenN q) with true by lia. cbn [negb].
    replace (i_len i - lenN rest) with 0 by lia. rewrite takeN_0, dropN_0, app_nil_r.
    destruct (i_opcode i =? 8); [split; [apply prefix_refl|discriminate]|].
    destruct (IH msk (rfc_next opn i) (dropN (i_len i) rest) q) as [I1 I2].
    destruct (rfc_reading k msk (rfc_next opn i) (dropN (i_len i) rest)), (rfc_reading k msk (rfc_next opn i) (dropN (i_len i) rest ++ q)).
    cbn [fst snd] in *. split; [|exact I2]. destruct I1 as [x ->]. exists x. now rewrite app_assoc.
  - split; [|discriminate]. set (c := i_len i <=? lenN rest + lenN q).
    match goal with |- prefix (fst (?a, Blocked)) _ => set (A := a) end.
    assert (prefix A (shown (rfc_op opn i) (i_fin i) (masked_opt (i_key i) (takeN (i_len i) rest ++ takeN (i_len i - lenN rest) q)) c)) as HP
      by (apply shown_prefix, rfc_masked_app_prefix).
    destruct c; cbn [negb]; [|exact HP].
    destruct (i_opcode i =? 8); [exact HP|]. destruct (rfc_reading k _ _ _) as [m2 e2]. cbn [fst] in *.
    destruct HP as [t HP]. rewrite HP. exists (t ++ m2). now rewrite app_assoc.
Qed.
Lemma rfc_from_cut msk opn p q :
  prefix (fst (rfc_from msk opn p)) (fst (rfc_from msk opn (p ++ q))) /\
  (refused_end (snd (rfc_from msk opn p)) = true -> refused_end (snd (rfc_from msk opn (p ++ q))) = true).
Proof.
  pose proof (rfc_cut (S (length (p ++ q))) msk opn p q) as H. rewrite !rfc_enough in H; [exact H|lia|rewrite app_length; lia].
Qed.

(** Under coroutines, at every moment of every schedule: a strict peer has heard a beginning of the complete messages sent, in order, and has
    refused nothing; once the coroutines have run out of work it has heard all of them. *)
Theorem C97_replies_async : forall react w evs st c b,
  s_listening (w_sock w) = false -> io_only (w_in w) -> io_only (arrivals evs) -> user_react react -> healthy (w_wr w) ->
  tidy_react react -> mask_react (s_mask (w_sock w)) react ->
  run react evs (ARun, start_listen w) = (st, c) -> w_out (c_world c) = w_out w ++ b ->
  exists new, w_log (c_world c) = w_log w ++ new /\
    prefix (fst (rfc_stream_reading (s_mask (w_sock w)) b)) (tidy_heard (replies react (w_log w) new)) /\
    (forall unread, snd (rfc_stream_reading (s_mask (w_sock w)) b) <> Rejected unread).
Proof.
  intros react w evs st c b Hl Hio Har Hu Hh Ht Hr E Hb.
  destruct (C56_replies _ react w evs st c Hl Hio Har Hu eq_refl Hr Hh E) as (new & N1 & [q N2] & _).
  exists new. split; [exact N1|]. rewrite Hb, <- app_assoc in N2. apply app_inv_head in N2.
  set (m := s_mask (w_sock w)) in *.
  destruct (rfc_understood_reading m (replies react (w_log w) new) None (b ++ q)) as [R1 R2];
    [exact (fits_63 _ _ (replies_fit _ _ Hr _ _))|rewrite <- N2; apply frames_with_of|auto|].
  destruct (tidy_understood _ (replies_tidy react Ht new (w_log w))) as [T1 T2]. rewrite T1 in R1.
  destruct (rfc_from_cut m None b q) as [C1 C2]. fold (rfc_from m None b) in *. change (rfc_stream_reading m b) with (rfc_from m None b).
  split; [rewrite <- R1; exact C1|]. intros u Hu'. rewrite Hu' in C2. specialize (C2 eq_refl).
  destruct (existsb _ _).
  - destruct T2 as [r T2]. rewrite T2 in R2. destruct R2 as (x & R2 & _). rewrite R2 in C2. discriminate.
  - rewrite T2 in R2. cbn [rfc_ends] in R2. rewrite R2 in C2. discriminate.
Qed.
Print Assumptions C97_replies_async.
Theorem C97_completion_async : forall react w evs,
  s_listening (w_sock w) = false -> io_only (w_in w) -> io_only (arrivals evs) -> user_react react -> no_use react -> healthy (w_wr w) ->
  mask_react (s_mask (w_sock w)) react ->
  exists n, forall k, (n <= k)%nat -> forall st c b, run react (evs ++ ticks k) (ARun, start_listen w) = (st, c) -> w_out (c_world c) = w_out w ++ b ->
  exists new, w_log (c_world c) = w_log w ++ new /\
    fst (rfc_stream_reading (s_mask (w_sock w)) b) = fst (rfc_understood None (replies react (w_log w) new)) /\
    rfc_ends (s_mask (w_sock w)) (snd (rfc_stream_reading (s_mask (w_sock w)) b)) (snd (rfc_understood None (replies react (w_log w) new))).
Proof.
  intros react w evs Hl Hio Har Hu Hn Hh Hr.
  destruct (C56_completion _ react w evs Hl Hio Har Hu Hn eq_refl Hr Hh) as [n Hc]. exists n. intros k Hk st c b E Hb.
  destruct (Hc k Hk st c E) as (new & N1 & N2). exists new. split; [exact N1|]. rewrite N2 in Hb. apply app_inv_head in Hb. subst b.
  apply rfc_understood_reading; [|apply frames_with_of|auto]. exact (fits_63 _ _ (replies_fit _ _ Hr _ _)).
Qed.
Print Assumptions C97_completion_async.

(** * What the library does not prevent *)
Definition progress_of (opn : option N) : bool := match opn with Some _ => true | None => false end.
Lemma rfc_understood_app a : forall opn b, (opn = None \/ opn = Some 1 \/ opn = Some 2) -> snd (rfc_understood opn a) = AllRead ->
  exists opn', (opn' = None \/ opn' = Some 1 \/ opn' = Some 2) /\ progress_of opn' = in_progress (progress_of opn) a /\
  rfc_understood opn (a ++ b) = (fst (rfc_understood opn a) ++ fst (rfc_understood opn' b), snd (rfc_understood opn' b)).
Proof.
  induction a as [|op r IH]; intros opn b Ho H.
  - exists opn. split; [exact Ho|]. split; [reflexivity|]. cbn. apply surjective_pairing.
  - cbn [app rfc_understood in_progress] in *.
    assert (forall opn1 now, (opn1 = None \/ opn1 = Some 1 \/ opn1 = Some 2) ->
      snd (let (later, f) := rfc_understood opn1 r in (now ++ later, f)) = AllRead ->
      exists opn', (opn' = None \/ opn' = Some 1 \/ opn' = Some 2) /\ progress_of opn' = in_progress (progress_of opn1) r /\
      (let (later, f) := rfc_understood opn1 (r ++ b) in (now ++ later, f)) =
      (fst (let (later, f) := rfc_understood opn1 r in (now ++ later, f)) ++ fst (rfc_understood opn' b), snd (rfc_understood opn' b))) as Hgo.
    { intros opn1 now Ho1 H1. rewrite pair_let in H1. cbn [snd] in H1. destruct (IH opn1 b Ho1 H1) as (o' & A1 & A2 & A3).
      exists o'. split; [exact A1|]. split; [exact A2|]. rewrite !pair_let, A3. cbn [fst snd]. now rewrite app_assoc. }
    assert (forall u : N, (u = 1 \/ u = 2) -> (if req_fin op then None else Some u) = None \/ (if req_fin op then None else Some u) = Some 1 \/ (if req_fin op then None else Some u) = Some 2) as Hu
      by (intros u [->| ->]; destruct (req_fin op); auto).
    assert (forall u : N, progress_of (if req_fin op then None else Some u) = negb (req_fin op)) as Hp by (intros; destruct (req_fin op); reflexivity).
    remember (req_opcode op mod 16) as t eqn:Et.
    assert (t < 16) as Ht by (rewrite Et; apply N.mod_lt; lia). clear Et.
    assert (t = 0 \/ t = 1 \/ t = 2 \/ t = 8 \/ t = 9 \/ t = 10 \/
            t = 3 \/ t = 4 \/ t = 5 \/ t = 6 \/ t = 7 \/ t = 11 \/ t = 12 \/ t = 13 \/ t = 14 \/ t = 15) as Hc by lia.
    destruct Hc as [E|[E|[E|[E|[E|[E|Hc]]]]]]; try subst t.
    + destruct opn as [u|]; [|discriminate H]. assert (u = 1 \/ u = 2) as Hu2 by (destruct Ho as [[=]|[[= ->]|[= ->]]]; auto).
      change (0 <? 3) with true. cbn iota. rewrite <- (Hp u). apply Hgo; [exact (Hu u Hu2)|exact H].
    + destruct opn as [u|]; [discriminate H|]. change (1 <? 3) with true. cbn iota. rewrite <- (Hp 1). apply Hgo; [exact (Hu 1 (or_introl eq_refl))|exact H].
    + destruct opn as [u|]; [discriminate H|]. change (2 <? 3) with true. cbn iota. rewrite <- (Hp 2). apply Hgo; [exact (Hu 2 (or_intror eq_refl))|exact H].
    + destruct (req_fin op && _), opn; discriminate H.
    + change (9 <? 3) with false. cbn iota. destruct (req_fin op && _); [|destruct opn; discriminate H].
      destruct opn; exact (Hgo _ [OPing (req_payload op)] Ho H).
    + change (10 <? 3) with false. cbn iota. destruct (req_fin op && _); [|destruct opn; discriminate H].
      destruct opn; exact (Hgo _ [OPong (req_payload op)] Ho H).
    + destruct Hc as [E|[E|[E|[E|[E|[E|[E|[E|[E|E]]]]]]]]]; subst t; discriminate H.
Qed.
(** A call whose frame RFC 6455 forbids is carried out without complaint, whatever came before; the peer refuses its frame and hears nothing of
    what is sent after it. *)
Theorem C97_offence_refuted : forall before op after w o w' b,
  healthy (w_wr w) -> Forall (fits (s_mask (w_sock w))) (before ++ op :: after) -> send_all (before ++ op :: after) w = (o, w') ->
  w_out w' = w_out w ++ b -> snd (rfc_understood None before) = AllRead -> offends before op ->
  o = Ret tt /\ exists k unread, rfc_stream_reading (s_mask (w_sock w)) b =
    (fst (rfc_understood None before), Rejected (masked_opt k (req_payload op) ++ unread)) /\ frames_with (s_mask (w_sock w)) after unread.
Proof.
  intros before op after w o w' b Hh Hf E Hb Ha Hu. destruct (C97_exactly _ _ _ _ _ Hh Hf E Hb) as (-> & H1 & H2). split; [reflexivity|].
  destruct (rfc_understood_app before None (op :: after) (or_introl eq_refl) Ha) as (opn & Ho & Hp & Hx). cbn [progress_of] in Hp.
  assert (rfc_understood opn (op :: after) = ([], RefusedAt op after)) as Hr.
  { cbn [rfc_understood]. unfold offends in Hu. remember (req_opcode op mod 16) as t eqn:Et. clear Et.
    destruct Hu as [[Hi Hl]|[Hi|[[Hi Hq]|[-> Hq]]]].
    - assert (req_fin op && (lenN (req_payload op) <=? 125) = false) as -> by (destruct Hl as [Hl| ->]; [|reflexivity]; destruct (req_fin op); cbn; lia).
      cbn [In] in Hi. destruct Hi as [<-|[<-|[<-|[]]]]; destruct opn; reflexivity.
    - cbn [In] in Hi. repeat (destruct Hi as [<-|Hi]; [destruct opn; reflexivity|]). contradiction.
    - rewrite Hq in Hp. destruct opn; [|discriminate Hp]. cbn [In] in Hi. destruct Hi as [<-|[<-|[]]]; reflexivity.
    - rewrite Hq in Hp. destruct opn; [discriminate Hp|reflexivity]. }
  rewrite Hx, Hr in H1, H2. cbn [fst snd rfc_ends] in H1, H2. rewrite app_nil_r in H1. destruct H2 as (k & u & _ & H2 & F).
  exists k, u. split; [|exact F]. rewrite (surjective_pairing (rfc_stream_reading _ b)), H1, H2. reflexivity.
Qed.
Print Assumptions C97_offence_refuted.
(** Masking is what the socket's configuration says, not what its role demands: a peer that expects the opposite refuses the first frame. *)
Theorem C97_masking_refuted : forall op r w o w' b,
  healthy (w_wr w) -> Forall (fits (s_mask (w_sock w))) (op :: r) -> send_all (op :: r) w = (o, w') -> w_out w' = w_out w ++ b ->
  o = Ret tt /\ exists unread, rfc_stream_reading (negb (s_mask (w_sock w))) b = ([], Rejected unread).
Proof.
  intros op r w o w' b Hh Hf E Hb.
  destruct (send_all_healthy _ w o w' Hh Hf E) as (-> & _ & _ & kops & Hk1 & Hk & Hout). split; [reflexivity|].
  rewrite Hout in Hb. apply app_inv_head in Hb. subst b. destruct kops as [|[k op'] kr]; [discriminate|]. cbn [map snd] in Hk1. injection Hk1 as -> _.
  inversion Hk as [|? ? K1 _]; subst. cbn [fst] in K1. inversion Hf as [|? ? [F1 _] _]; subst.
  cbn [sent_frames map wires flat_map fst snd]. eexists.
  change (rfc_stream_reading ?m ?x) with (rfc_from m None x). fold (sent_wire k op). apply rfc_refuses; [exact F1|].
  unfold rfc_accepts, finfo_of. cbn [i_key frame_for f_key]. rewrite K1. destruct (s_mask (w_sock w)); cbn; now rewrite ?andb_false_r.
Qed.
Print Assumptions C97_masking_refuted.

(** A conversation: a whole message, a message in three parts with a ping inside, a pong, a binary message and a Close. *)
Example C97_nonvacuous :
  let is := [Whole 1 [x68; x69]; InParts 2 [x61] [Part [x62; x63]; Between (Ping [x70])] [x64]; Control (Pong []); Whole 2 []] in
  let w := World [] [] [] (fun n => n2b (N.of_nat n)) 0 [] (Sock true 16 (Some 0%nat) (-1) false) in
  let calls := flat_map item_calls is ++ [SoClose 1000 (Some [x62; x79; x65])] in
  Forall item_ok is /\ Forall (fits true) calls /\ fst (send_all calls w) = Ret tt /\
  rfc_stream_reading true (w_out (snd (send_all calls w))) =
    ([OByte 1 x68; OByte 1 x69; OEnd 1; OByte 2 x61; OByte 2 x62; OByte 2 x63; OPing [x70]; OByte 2 x64; OEnd 2; OPong []; OEnd 2; OClose 1000 [x62; x79; x65]], Closed []).
Proof.
  cbv zeta. split.
  { repeat (apply Forall_cons || apply Forall_nil); cbn; auto; try (split; [auto|]); repeat constructor; vm_compute; discriminate. }
  split; [repeat (apply Forall_cons || apply Forall_nil); split; vm_compute; auto|]. split; vm_compute; reflexivity.
Qed.
(** An echo server answers whatever arrives with complete messages only. *)
Example C97_replies_nonvacuous : tidy_react (SpecReply.echo 50) /\ mask_react true (SpecReply.echo 50) /\
  offends [SoFrame false 1 (Some [x61])] (SoText (Some [x62])) /\ offends [] (SoFrame false 9 None) /\
  snd (rfc_understood None [SoFrame false 1 (Some [x61])]) = AllRead.
Proof.
  split. { intros l log. unfold SpecReply.echo. destruct (snd (last log (0%nat, EvEnd 0))) as [| [|[p|[p|p|]|]] |m|m|code m];
    repeat match goal with |- context[if ?c then _ else _] => destruct c eqn:? end; cbn [sends_of]; repeat constructor; cbn [tidy msg_of]; lia. }
  split; [apply polite_mask, echo_polite; reflexivity|].
  split; [right; right; left; vm_compute; auto|]. split; [left; split; [vm_compute; auto|right; reflexivity]|reflexivity].
Qed.
