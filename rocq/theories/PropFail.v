(** C23: exactly when a failed send stops listening. *)
From Verif Require Import Bytes Frame World WebSocket SpecFrame SpecSend SpecListen ProofFrame ProofSend.
Local Open Scope N_scope.
Local Arguments lenN : simpl never.

(** What has been written, [p], covers the header of the frame [op] asks for. *)
Definition header_out (key : option mask4) (op : sendop) (p : bytes) : bool := lenN (sent_wire key op) <=? lenN p + lenN (req_payload op).
Definition is_raw (op : sendop) : bool := match op with SoFrame _ _ _ => true | _ => false end.

Lemma prefix_lenN {A} (p d : list A) : prefix p d -> lenN p <= lenN d.
Proof. intros [t ->]. rewrite lenN_app. lia. Qed.
Lemma prefix_full {A} (p d : list A) : prefix p d -> lenN p = lenN d -> p = d.
Proof. intros [t ->] H. rewrite lenN_app in H. destruct t; [now rewrite app_nil_r|]. rewrite lenN_cons in H. lia. Qed.

(** sendOneFrame leaves the socket alone; where it fails. *)
Lemma sendOneFrame_where fin c m w o w' : lenN (msg_of m) < 2 ^ 63 -> sendOneFrame fin c m w = (o, w') ->
  w_sock w' = w_sock w /\ exists p, w_out w' = w_out w ++ p /\
    let hd := rfc_header (lform_min (lenN (msg_of m))) fin false false false (c mod 16) (next_key_opt w) (lenN (msg_of m)) in
    match o with Throw _ => lenN p < lenN hd | Ret _ => lenN hd <= lenN p | _ => True end.
Proof.
  intros Hl E. pose proof E as E'. apply sendOneFrame_spec in E'; [|exact Hl]. destruct E' as ((pp & _ & _ & _) & _ & Hs & _).
  split; [exact Hs|]. clear pp Hs.
  assert (forall o1 w1, sendFrameHeader header_init fin c (Z.of_N (lenN (msg_of m))) w = (o1, w1) ->
    exists p, w_out w1 = w_out w ++ p /\
      let hd := rfc_header (lform_min (lenN (msg_of m))) fin false false false (c mod 16) (next_key_opt w) (lenN (msg_of m)) in
      match o1 with Throw _ => lenN p < lenN hd | Ret _ => p = hd | _ => True end) as HH.
  { intros o1 w1 E1. apply sendFrameHeader_spec in E1; [|lia]. rewrite N2Z.id in E1. cbv zeta in E1. destruct E1 as ((p & H1 & H2 & H3) & _).
    exists p. split; [exact H2|]. cbv zeta. destruct o1; try exact I; [now apply H3|].
    pose proof (prefix_lenN _ _ H1). destruct (N.eq_dec (lenN p) (lenN (rfc_header (lform_min (lenN (msg_of m))) fin false false false (c mod 16) (next_key_opt w) (lenN (msg_of m))))) as [Heq|]; [|lia].
    exfalso. apply H3. now apply prefix_full. }
  assert (forall d w1 (o2 : outcome bool) w2, (res <- writeExactSizeDataSimple d ;; ret (res =? lenN (msg_of m)))%m w1 = (o2, w2) ->
    (forall e, o2 <> Throw e) /\ exists p, w_out w2 = w_out w1 ++ p) as HW.
  { intros d w1 o2 w2 E2. unfold bind in E2. destruct (writeExactSizeDataSimple d w1) as [o3 w3] eqn:E3.
    pose proof E3 as E4. apply write_emits in E4. destruct E4 as ((p & _ & H2 & _) & _).
    unfold writeExactSizeDataSimple in E3. destruct (writeExact_raw d (w_wr w1)) as [[[] a] q]; injection E3 as <- <-; cbn in E2; injection E2 as <- <-;
      (split; [discriminate|]); exists p; exact H2. }
  destruct (sendFrameHeader header_init fin c (Z.of_N (lenN (msg_of m))) w) as [o1 w1] eqn:E1.
  destruct (HH _ _ eq_refl) as (p & Hp & Hq). cbv zeta in Hq. cbv zeta. set (hd := rfc_header _ _ _ _ _ _ _ _) in *. clearbody hd. clear HH.
  unfold sendOneFrame in E. destruct m as [[|b bs]|]; cbn [msg_of] in *.
  1,3: change (Z.of_N (lenN [])) with 0%Z in E1; unfold bind in E; rewrite E1 in E; destruct o1; injection E as <- <-; exists p; (split; [exact Hp|]);
    try exact I; [rewrite Hq; lia|exact Hq].
  unfold bind at 1 in E. rewrite E1 in E. destruct o1 as [h|e| |u|]; [|injection E as <- <-; exists p; auto..].
  subst p. assert (lenN (b :: bs) = lenN (msg_of (Some (b :: bs)))) as Hm by reflexivity.
  destruct (h_hasMask h).
  - destruct (2 ^ 31 <=? lenN (b :: bs)); [unfold bind, undef in E; injection E as <- <-; exists hd; auto|].
    apply HW in E. destruct E as (Hn & p2 & H2). exists (hd ++ p2). rewrite H2, Hp, <- app_assoc. split; [reflexivity|].
    destruct o; try exact I; [rewrite lenN_app; lia|exfalso; now apply (Hn e)].
  - apply HW in E. destruct E as (Hn & p2 & H2). exists (hd ++ p2). rewrite H2, Hp, <- app_assoc. split; [reflexivity|].
    destruct o; try exact I; [rewrite lenN_app; lia|exfalso; now apply (Hn e)].
Qed.

Lemma sent_wire_len key op : lenN (sent_wire key op) =
  lenN (rfc_header (lform_min (lenN (req_payload op))) (req_fin op) false false false (req_opcode op mod 16) key (lenN (req_payload op))) + lenN (req_payload op).
Proof. unfold sent_wire, frame_for, wire. cbn [f_fin f_rsv1 f_rsv2 f_rsv3 f_opcode f_key f_payload]. now rewrite lenN_app, lenN_masked_opt. Qed.

(** A call that reports failure stops listening exactly if the header had been written completely; sendOneFrame never does. *)
Theorem C23_stops_listening_exact : forall op w e w',
  lenN (req_payload op) < 2 ^ 63 -> send op w = (Throw e, w') ->
  exists p, w_out w' = w_out w ++ p /\
    s_listening (w_sock w') = (if negb (is_raw op) && header_out (next_key_opt w) op p then false else s_listening (w_sock w))%bool.
Proof.
  intros op w e w' Hl E. unfold header_out. rewrite sent_wire_len.
  assert (exists fin c m, (forall w, send op w = (if is_raw op then (sendOneFrame fin c m ;;; ret tt)%m else sendChecked fin c m) w) /\
            req_fin op = fin /\ req_opcode op = c /\ req_payload op = msg_of m) as (fin & c & m & Hop & Hf & Hc & Hm).
  { destruct op; do 3 eexists; (split; [intros w0; cbn [send is_raw]; reflexivity|repeat split; try reflexivity]). }
  rewrite Hop in E. rewrite Hf, Hc, Hm in *. clear Hop Hf Hc Hm.
  destruct (sendOneFrame fin c m w) as [o1 w1] eqn:E1. pose proof (nosend_sendOneFrame _ _ _ _ _ _ E1) as Hne.
  apply sendOneFrame_where in E1 as H; [|exact Hl]. destruct H as (Hs & p & Hp & H). cbv zeta in H.
  destruct (is_raw op); unfold sendChecked, bind in E; rewrite E1 in E.
  - destruct o1; try discriminate. injection E as <- <-. exists p. split; [exact Hp|]. cbn [negb andb]. now rewrite Hs.
  - destruct o1 as [[]|e1| |u|]; try discriminate.
    + cbn in E. injection E as <- <-. exists p. split; [exact Hp|]. cbn [negb andb].
      replace (_ <=? _) with true by (symmetry; apply N.leb_le; lia). reflexivity.
    + injection E as <- <-. exists p. split; [exact Hp|]. cbn [negb andb].
      replace (_ <=? _) with false by (symmetry; apply N.leb_gt; lia). now rewrite Hs.
Qed.
Print Assumptions C23_stops_listening_exact.

(** So every call during which the connection fails at once leaves a listening socket listening, and so does every sendOneFrame. *)
Theorem C23_stops_listening_refuted :
  (forall op w q, s_listening (w_sock w) = true -> w_wr w = WIo IoBroken :: q -> lenN (req_payload op) < 2 ^ 63 ->
     exists e w', send op w = (Throw e, w') /\ s_listening (w_sock w') = true) /\
  (forall fin c m w o w', lenN (msg_of m) < 2 ^ 63 -> sendOneFrame fin c m w = (o, w') -> s_listening (w_sock w') = s_listening (w_sock w)).
Proof.
  split.
  - intros op w q Hli Hq Hl. destruct (send op w) as [o w'] eqn:E.
    assert (exists e, o = Throw e /\ w_out w' = w_out w) as (e & -> & Ho).
    { assert (forall h fin c n w0, w_wr w0 = WIo IoBroken :: q -> exists e w1, sendFrameHeader h fin c n w0 = (Throw e, w1) /\ w_out w1 = w_out w0) as HH.
      { assert (forall h w0, w_wr w0 = WIo IoBroken :: q -> exists w1, writeFrameHeader h w0 = (Throw ExHeaderWrite, w1) /\ w_out w1 = w_out w0) as HF.
        { intros h w0 H0. unfold writeFrameHeader. destruct (packHeaderBits h) as [bb sc]. unfold bind at 1.
          assert (writeExactSizeDataSimple (be_enc 2 bb) w0 = (Ret 0, set_wr w0 (w_out w0 ++ []) q)) as -> by (unfold writeExactSizeDataSimple; rewrite H0; reflexivity).
          cbn [N.eqb negb throw]. eexists. split; [reflexivity|]. apply app_nil_r. }
        intros h fin c n w0 H0. unfold sendFrameHeader. unfold bind at 1. unfold get at 1. cbv zeta. cbn [h_hasMask].
        destruct (s_mask (w_sock w0)).
        - unfold bind, randomBytes, ret. cbv beta iota.
          match goal with |- context [writeFrameHeader ?h ?w] => destruct (HF h w H0) as (w1 & -> & H1) end. eauto.
        - unfold bind, ret. cbv beta iota. match goal with |- context [writeFrameHeader ?h ?w] => destruct (HF h w H0) as (w1 & -> & H1) end. eauto. }
      assert (forall fin c m, exists e w1, sendOneFrame fin c m w = (Throw e, w1) /\ w_out w1 = w_out w) as HS.
      { intros fin c m. unfold sendOneFrame. destruct m as [[|b bs]|]; cbv zeta; unfold bind at 1;
          match goal with |- context [sendFrameHeader ?h ?f ?c ?n w] => destruct (HH h f c n w Hq) as (e & w1 & -> & H1) end; eauto. }
      assert (forall fin c m, exists e w1, sendChecked fin c m w = (Throw e, w1) /\ w_out w1 = w_out w) as HC.
      { intros fin c m. unfold sendChecked, bind. destruct (HS fin c m) as (e & w1 & -> & H1). eauto. }
      destruct op; cbn [send] in E;
        try (match type of E with sendChecked ?f ?c ?m w = _ => destruct (HC f c m) as (e & w1 & E1 & H1) end; rewrite E1 in E; injection E as <- <-; eauto).
      unfold bind in E. destruct (HS fin opcode m) as (e & w1 & E1 & H1). rewrite E1 in E. injection E as <- <-. eauto. }
    exists e, w'. split; [reflexivity|]. destruct (C23_stops_listening_exact op w e w' Hl E) as (p & Hp & ->).
    assert (p = []) as -> by (rewrite Ho in Hp; rewrite <- (app_nil_r (w_out w)) in Hp at 1; now apply app_inv_head in Hp).
    rewrite Hli. unfold header_out. rewrite sent_wire_len. change (lenN (@nil byte)) with 0.
    destruct (negb (is_raw op)); [|reflexivity]. cbn [andb].
    replace (_ <=? _) with false; [reflexivity|]. symmetry. apply N.leb_gt. unfold rfc_header. rewrite lenN_cons. lia.
  - intros fin c m w o w' Hl E. apply sendOneFrame_where in E; [|exact Hl]. destruct E as [-> _]. reflexivity.
Qed.
Print Assumptions C23_stops_listening_refuted.

(** Both cases of the exact statement: the header goes out and the payload fails, or the header fails. *)
Example C23_stops_listening_nonvacuous :
  let w q := World [] q [] (fun _ => x00) 0 [] (set_listening (sock_new false) true) in
  (exists w', send (SoText (Some [x61])) (w [WAccept 2; WIo IoBroken]) = (Throw ExSend, w') /\ s_listening (w_sock w') = false) /\
  (exists e w', send (SoText (Some [x61])) (w [WAccept 1; WIo IoBroken]) = (Throw e, w') /\ s_listening (w_sock w') = true) /\
  (exists w', sendOneFrame true 1 (Some [x61]) (w [WAccept 2; WIo IoBroken]) = (Ret false, w') /\ s_listening (w_sock w') = true).
Proof.
  cbv zeta. split; [|split].
  - eexists. split; [vm_compute; reflexivity|reflexivity].
  - do 2 eexists. split; [vm_compute; reflexivity|reflexivity].
  - eexists. split; [vm_compute; reflexivity|reflexivity].
Qed.
