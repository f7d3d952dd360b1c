(** readFrameHeader against the header reader of the specification. *)
From Verif Require Import Bytes Frame World WebSocket SpecFrame ProofFrame ProofStream ProofSend.
From Coq Require Import ZifyBool ZifyNat ZifyN.
Local Open Scope N_scope.
Local Open Scope m_scope.
Local Arguments takeN : simpl never.
Local Arguments dropN : simpl never.
Local Arguments lenN : simpl never.
Local Arguments be_enc : simpl never.
Local Arguments be_dec : simpl never.

(** Reading changes only the script and, by external calls, the socket. *)
Definition ronly (w w' : world) : Prop :=
  w_wr w' = w_wr w /\ w_out w' = w_out w /\ w_rnd w' = w_rnd w /\ w_rpos w' = w_rpos w /\ w_log w' = w_log w /\
  (forall (J : sock -> Prop) (px : ext -> Prop) (pe : ioerr -> Prop),
     (forall x y, px x -> J y -> J (apply_ext x y)) ->
     script_ok px pe (w_in w) -> J (w_sock w) -> script_ok px pe (w_in w') /\ J (w_sock w')) /\
  (s_listening (w_sock w') = true -> stop_only (w_in w) -> stop_tail (w_in w') = stop_tail (w_in w)).

Lemma ronly_refl w : ronly w w.
Proof. unfold ronly. auto 12. Qed.

Lemma ronly_trans a b c : ronly a b -> ronly b c -> ronly a c.
Proof.
  unfold ronly. intros (H1 & H2 & H3 & H4 & H5 & H6 & H7) (G1 & G2 & G3 & G4 & G5 & G6 & G7).
  do 5 (split; [congruence|]). split.
  - intros J px pe HJ Hs Hk.
    destruct (H6 J px pe HJ Hs Hk) as [H8 H9]. apply (G6 J px pe HJ H8 H9).
  - intros Hl Hs.
    destruct (H6 (fun _ => True) is_stop any_err ltac:(auto) Hs I) as [Hs1 _].
    assert (s_listening (w_sock b) = true) as Hb.
    { destruct (G6 (fun k => s_listening k = true -> s_listening (w_sock b) = true) is_stop any_err) as [_ H]; auto.
      intros x y -> _. cbn. discriminate. }
    rewrite (G7 Hl Hs1). auto.
Qed.

Lemma ronly_tame w w' : ronly w w' -> stop_only (w_in w) -> stop_only (w_in w') /\ tame (w_sock w) (w_sock w').
Proof.
  intros (_ & _ & _ & _ & _ & H & _) Hs. apply (H (tame (w_sock w)) is_stop any_err); [|exact Hs|apply tame_refl].
  intros x y -> Hy. cbn. eapply tame_trans; [exact Hy|apply tame_stop].
Qed.

Lemma ronly_clean w w' : ronly w w' -> clean (w_in w) -> clean (w_in w') /\ w_sock w' = w_sock w.
Proof.
  intros (_ & _ & _ & _ & _ & H & _) Hs. rewrite clean_script_ok in *.
  apply (H (fun y => y = w_sock w) (fun _ => False) (fun e => e = IoRetry)); [tauto|exact Hs|reflexivity].
Qed.

Lemma ronly_steady w w' : ronly w w' -> steady (w_in w) -> steady (w_in w').
Proof.
  intros (_ & _ & _ & _ & _ & H & _) Hs. rewrite steady_script_ok in *.
  apply (H (fun _ => True) is_stop (fun e => e = IoRetry)); auto.
Qed.

Lemma readExact_spec n w o w' :
  readExactSizeDataSimple n w = (o, w') ->
  ronly w w' /\
  match o with
  | Ret d => bytes_of (w_in w) = d ++ bytes_of (w_in w') /\
             (steady (w_in w) -> lenN d = n) /\
             (lenN d = n -> (0 < n -> (script_size (w_in w') < script_size (w_in w))%nat) /\
                            (script_size (w_in w') <= script_size (w_in w))%nat) /\
             (lenN d = n \/ lenN d < n)
  | Wait => lenN (bytes_of (w_in w)) < n /\ w_in w' = []
  | _ => False
  end.
Proof.
  unfold readExactSizeDataSimple. destruct (readExact_raw n (w_in w) (w_sock w)) as [[r s'] k'] eqn:E1.
  assert (ronly w (set_sock (set_in w s') k')) as Hr.
  { unfold ronly; cbn. do 5 (split; [reflexivity|]). split.
    - intros J px pe HJ Hs Hk.
      split; [eapply readExact_ok; eassumption|eapply readExact_inv; eassumption].
    - intros Hl Hs. eapply readExact_tail; eassumption. }
  pose proof (readExact_bytes _ _ _ _ _ _ E1) as Hb.
  pose proof (readExact_steady _ _ _ _ _ _ E1) as Hc.
  destruct r; intros E; injection E as <- <-; (split; [exact Hr|]); cbn [w_in set_sock set_in].
  - destruct Hb as (H1 & H2 & H3 & H4). split; [exact H1|]. split; [auto|]. split; [auto|auto].
  - destruct Hb as (H1 & H2). split; [exact H1|]. split; [|split; [lia|auto]].
    intros H. exfalso. eapply (Hc H). reflexivity.
  - exact Hb.
Qed.

Definition hdr_match (h : header) (i : finfo) : Prop :=
  h_fin h = i_fin i /\ bitv (h_rsv1 h) 4 + bitv (h_rsv2 h) 2 + bitv (h_rsv3 h) 1 = i_rsv i /\ h_opcode h = i_opcode i /\
  i_key i = (if h_hasMask h then Some (h_mask h) else None) /\
  h_len h = to_i64 (i_len i) /\ i_len i < 2 ^ 64 /\ i_opcode i < 16.

Definition header_result (w : world) (o : outcome header) (w' : world) : Prop :=
  ronly w w' /\
  match o with
  | Ret h => exists i, rd_header (bytes_of (w_in w)) = Some (i, bytes_of (w_in w')) /\ hdr_match h i /\
             (script_size (w_in w') < script_size (w_in w))%nat
  | Throw e => ~ steady (w_in w)
  | Wait => w_in w' = [] /\ rd_header (bytes_of (w_in w)) = None
  | _ => False
  end.

Lemma rsv_sweep : forallb (fun b0 =>
   bitv (b2n b0 / 64 mod 2 =? 1) 4 + bitv (b2n b0 / 32 mod 2 =? 1) 2 + bitv (b2n b0 / 16 mod 2 =? 1) 1
   =? b2n b0 / 16 mod 8) all_bytes = true.
Proof. vm_compute. reflexivity. Qed.

Lemma rsv_eq b0 :
  bitv (b2n b0 / 64 mod 2 =? 1) 4 + bitv (b2n b0 / 32 mod 2 =? 1) 2 + bitv (b2n b0 / 16 mod 2 =? 1) 1
  = b2n b0 / 16 mod 8.
Proof.
  pose proof rsv_sweep as H. rewrite forallb_forall in H. specialize (H b0 (all_bytes_In b0)).
  now apply N.eqb_eq in H.
Qed.

Lemma lenN2 (l : bytes) : lenN l = 2 -> exists a b, l = [a; b].
Proof. unfold lenN. destruct l as [|a [|b [|]]]; cbn; try lia. eauto. Qed.
Lemma lenN4 (l : bytes) : lenN l = 4 -> exists a b c d, l = [a; b; c; d].
Proof. unfold lenN. destruct l as [|a [|b [|c [|d [|]]]]]; cbn; try lia. eauto 6. Qed.

(** The part of rd_header after the extended length. *)
Definition rd_key (b0 b1 : byte) (len : N) (r' : bytes) : option (finfo * bytes) :=
  let info k := FInfo (128 <=? b2n b0) (b2n b0 / 16 mod 8) (b2n b0 mod 16) k len in
  if b2n b1 <? 128 then Some (info None, r')
  else match r' with
       | k0 :: k1 :: k2 :: k3 :: r'' => Some (info (Some (Mask4 k0 k1 k2 k3)), r'')
       | _ => None
       end.

Lemma rd_header_eq b0 b1 r :
  rd_header (b0 :: b1 :: r) =
  let m := b2n b1 mod 128 in
  let ext := if m =? 126 then 2 else if m =? 127 then 8 else 0 in
  if lenN r <? ext then None else
  rd_key b0 b1 (if ext =? 0 then m else be_dec (takeN ext r)) (dropN ext r).
Proof. reflexivity. Qed.

(** The tail of readFrameHeader: the mask. *)
Definition rd_mask (h : header) : M header :=
  if h_hasMask h then
    mk <- readExactSizeDataSimple 4 ;;
    if negb (lenN mk =? 4) then throw ExMaskRead
    else ret (set_mask h (mask_of mk))
  else ret h.

Definition key_result (b0 b1 : byte) (len : N) (w : world) (o : outcome header) (w' : world) : Prop :=
  ronly w w' /\
  match o with
  | Ret h => exists i, rd_key b0 b1 len (bytes_of (w_in w)) = Some (i, bytes_of (w_in w')) /\ hdr_match h i /\
             (script_size (w_in w') <= script_size (w_in w))%nat
  | Throw e => ~ steady (w_in w)
  | Wait => w_in w' = [] /\ rd_key b0 b1 len (bytes_of (w_in w)) = None
  | _ => False
  end.

Lemma rd_mask_spec b0 b1 len h w o w' :
  h_fin h = (128 <=? b2n b0) -> bitv (h_rsv1 h) 4 + bitv (h_rsv2 h) 2 + bitv (h_rsv3 h) 1 = b2n b0 / 16 mod 8 ->
  h_opcode h = b2n b0 mod 16 -> h_hasMask h = (128 <=? b2n b1) -> h_len h = to_i64 len -> len < 2 ^ 64 ->
  rd_mask h w = (o, w') -> key_result b0 b1 len w o w'.
Proof.
  intros Hf Hrs Ho Hm Hl Hlen E. unfold rd_mask in E. unfold key_result, rd_key.
  assert (b2n b0 mod 16 < 16) as H16 by (apply N.mod_lt; lia).
  destruct (h_hasMask h) eqn:Ehm.
  - replace (b2n b1 <? 128) with false by lia.
    unfold bind in E. destruct (readExactSizeDataSimple 4 w) as [o1 w1] eqn:E1.
    apply readExact_spec in E1. destruct E1 as [Hr E1].
    destruct o1 as [mk|e| |u|]; try contradiction.
    + destruct E1 as (Hb & Hc & Hsz & Hor). destruct (N.eqb_spec (lenN mk) 4) as [E4|E4]; cbn [negb] in E.
      * injection E as <- <-. split; [exact Hr|].
        apply lenN4 in E4 as (k0 & k1 & k2 & k3 & ->).
        eexists. rewrite Hb. cbn [app]. split; [reflexivity|]. split.
        -- unfold hdr_match, set_mask; cbn. rewrite Ehm. auto 10.
        -- apply Hsz. reflexivity.
      * injection E as <- <-. split; [exact Hr|]. intros H. apply Hc in H. contradiction.
    + injection E as <- <-. split; [exact Hr|]. destruct E1 as [H1 H2]. split; [exact H2|].
      destruct (bytes_of (w_in w)) as [|a [|b [|c [|d r]]]]; try reflexivity.
      rewrite !lenN_cons in H1. lia.
  - injection E as <- <-. split; [apply ronly_refl|].
    replace (b2n b1 <? 128) with true by lia. eexists. split; [reflexivity|]. split; [|lia].
    unfold hdr_match; cbn. rewrite Ehm. auto 10.
Qed.

Lemma readFrameHeader_unfold h0 w :
  readFrameHeader h0 w =
  (bb <- readExactSizeDataSimple 2 ;;
  if negb (lenN bb =? 2) then throw ExHeaderRead else
  let (h, messageLen1) := unpackHeaderBits (be_dec bb) h0 in
  h <- (if messageLen1 <? 126 then
          ret (set_len h (Z.of_N messageLen1))
        else if messageLen1 =? 126 then
          l2 <- readExactSizeDataSimple 2 ;;
          if negb (lenN l2 =? 2) then throw ExLen2Read
          else ret (set_len h (Z.of_N (be_dec l2)))
        else if messageLen1 =? 127 then
          l3 <- readExactSizeDataSimple 8 ;;
          if negb (lenN l3 =? 8) then throw ExLen3Read
          else ret (set_len h (to_i64 (N.lor (N.shiftl (be_dec (takeN 4 l3)) 32)
                                             (be_dec (dropN 4 l3)))))
        else ret h) ;;
  rd_mask h) w.
Proof. reflexivity. Qed.

Lemma be_dec_lt' l n : lenN l = n -> be_dec l < 256 ^ n.
Proof. intros <-. apply be_dec_lt. Qed.

Lemma readFrameHeader_spec h0 w o w' :
  readFrameHeader h0 w = (o, w') -> header_result w o w'.
Proof.
  rewrite readFrameHeader_unfold. unfold header_result. unfold bind at 1.
  destruct (readExactSizeDataSimple 2 w) as [o1 w1] eqn:E1.
  apply readExact_spec in E1. destruct E1 as [Hr1 E1].
  destruct o1 as [bb|e| |u|]; try contradiction.
  2:{ intros E; injection E as <- <-. split; [exact Hr1|]. destruct E1 as [H1 H2]. split; [exact H2|].
      destruct (bytes_of (w_in w)) as [|a [|b r]]; try reflexivity. rewrite !lenN_cons in H1. lia. }
  destruct E1 as (Hb1 & Hc1 & Hsz1 & Hor1).
  destruct (N.eqb_spec (lenN bb) 2) as [E2|E2]; cbn [negb].
  2:{ intros E; injection E as <- <-. split; [exact Hr1|]. intros H. apply Hc1 in H. contradiction. }
  specialize (Hsz1 E2). destruct Hsz1 as [Hsz1 _]. specialize (Hsz1 eq_refl).
  apply lenN2 in E2 as (b0 & b1 & ->).
  assert (be_dec [b0; b1] = b2n b0 * 256 + b2n b1) as ->.
  { change (be_dec [b0; b1]) with (b2n b0 * 256 ^ lenN [b1] + (b2n b1 * 256 ^ lenN (@nil byte) + 0)).
    change (lenN [b1]) with 1. change (lenN (@nil byte)) with 0. lia. }
  rewrite unpackHeaderBits_arith. cbn [h_fin h_opcode].
  set (m := b2n b1 mod 128). assert (m < 128) as Hm by (apply N.mod_lt; lia).
  rewrite Hb1. cbn [app]. rewrite rd_header_eq. cbv zeta. fold m.
  set (hb := Header _ _ _ _ _ _ (h_len h0) (h_mask h0)).
  (* the extended length: a state (w2) in which [ext] more bytes have been read *)
  assert (forall len h, h = set_len hb (to_i64 len) -> len < 2 ^ 64 -> forall w2, ronly w w2 ->
     (steady (w_in w) -> steady (w_in w2)) ->
     (script_size (w_in w2) < script_size (w_in w))%nat ->
     rd_mask h w2 = (o, w') ->
     ronly w w' /\
     match o with
     | Ret h => exists i, rd_key b0 b1 len (bytes_of (w_in w2)) = Some (i, bytes_of (w_in w')) /\ hdr_match h i /\
                (script_size (w_in w') < script_size (w_in w))%nat
     | Throw e => ~ steady (w_in w)
     | Wait => w_in w' = [] /\ rd_key b0 b1 len (bytes_of (w_in w2)) = None
     | _ => False
     end) as Hfin.
  { intros len h -> Hlen w2 Hrw Hcl Hss E.
    apply (rd_mask_spec b0 b1 len) in E; try reflexivity; [|cbn; apply rsv_eq|exact Hlen].
    destruct E as [Hr E]. split; [eapply ronly_trans; eassumption|].
    destruct o; auto. destruct E as (i & H1 & H2 & H3). exists i. repeat split; auto; try apply H2. lia. }
  assert (steady (w_in w) -> steady (w_in w1)) as Hcl1 by (intros H; eapply ronly_steady; eassumption).
  destruct (N.ltb_spec m 126) as [Hlt|Hge].
  { replace (m =? 126) with false by lia. replace (m =? 127) with false by lia.
    cbn [N.eqb]. replace (lenN (bytes_of (w_in w1)) <? 0) with false by lia. rewrite dropN_0.
    intros E. eapply (Hfin m); [|lia|exact Hr1|exact Hcl1|exact Hsz1|exact E].
    rewrite to_i64_small by lia. reflexivity. }
  destruct (N.eqb_spec m 126) as [H126|H126].
  { cbn [N.eqb]. unfold bind at 1. unfold bind at 1.
    destruct (readExactSizeDataSimple 2 w1) as [o2 w2] eqn:E2.
    apply readExact_spec in E2. destruct E2 as [Hr2 E2].
    assert (ronly w w2) as Hr by (eapply ronly_trans; eassumption).
    destruct o2 as [l2|e| |u|]; try contradiction.
    - destruct E2 as (Hb2 & Hc2 & Hsz2 & Hor2).
      destruct (N.eqb_spec (lenN l2) 2) as [E3|E3]; cbn [negb].
      + intros E. change (rd_mask (set_len hb (Z.of_N (be_dec l2))) w2 = (o, w')) in E.
        pose proof (be_dec_lt' _ _ E3) as Hd.
        replace (lenN (bytes_of (w_in w1)) <? 2) with false
          by (rewrite Hb2, lenN_app; lia).
        rewrite Hb2, takeN_app_exact, dropN_app_exact by exact E3.
        eapply (Hfin (be_dec l2)); [|lia|exact Hr| |destruct (Hsz2 E3); lia|exact E].
        * rewrite to_i64_small by lia. reflexivity.
        * intros H. eapply ronly_steady; [exact Hr|exact H].
      + intros E; injection E as <- <-. split; [exact Hr|]. intros H. apply Hcl1, Hc2 in H. contradiction.
    - intros E; injection E as <- <-. split; [exact Hr|]. destruct E2 as [H1 H2]. split; [exact H2|].
      replace (lenN (bytes_of (w_in w1)) <? 2) with true by lia. reflexivity. }
  destruct (N.eqb_spec m 127) as [H127|H127]; [|lia].
  cbn [N.eqb]. unfold bind at 1. unfold bind at 1.
  destruct (readExactSizeDataSimple 8 w1) as [o2 w2] eqn:E2.
  apply readExact_spec in E2. destruct E2 as [Hr2 E2].
  assert (ronly w w2) as Hr by (eapply ronly_trans; eassumption).
  destruct o2 as [l2|e| |u|]; try contradiction.
  - destruct E2 as (Hb2 & Hc2 & Hsz2 & Hor2).
    destruct (N.eqb_spec (lenN l2) 8) as [E3|E3]; cbn [negb].
    + rewrite be_dec_split8 by exact E3.
      intros E. change (rd_mask (set_len hb (to_i64 (be_dec l2))) w2 = (o, w')) in E.
      pose proof (be_dec_lt' _ _ E3) as Hd.
      replace (lenN (bytes_of (w_in w1)) <? 8) with false
        by (rewrite Hb2, lenN_app; lia).
      rewrite Hb2, takeN_app_exact, dropN_app_exact by exact E3.
      eapply (Hfin (be_dec l2)); [reflexivity|exact Hd|exact Hr| |destruct (Hsz2 E3); lia|exact E].
      intros H. eapply ronly_steady; [exact Hr|exact H].
    + intros E; injection E as <- <-. split; [exact Hr|]. intros H. apply Hcl1, Hc2 in H. contradiction.
  - intros E; injection E as <- <-. split; [exact Hr|]. destruct E2 as [H1 H2]. split; [exact H2|].
    replace (lenN (bytes_of (w_in w1)) <? 8) with true by lia. reflexivity.
Qed.
