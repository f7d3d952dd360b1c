(** Lemmas about the reading of byte streams (specification side). *)
From Verif Require Import Bytes Frame World WebSocket SpecFrame SpecSend SpecListen ProofFrame ProofStream.
From Coq Require Import ZifyBool ZifyNat ZifyN.
Local Open Scope N_scope.
Local Arguments takeN : simpl never.
Local Arguments dropN : simpl never.
Local Arguments lenN : simpl never.
Local Arguments be_enc : simpl never.
Local Arguments be_dec : simpl never.

Definition is_stopped (e : rend) : bool := match e with Stopped _ => true | _ => false end.

Lemma length_dropN {A} n (l : list A) : (length (dropN n l) <= length l)%nat.
Proof. rewrite dropN_skipn, skipn_length. lia. Qed.

Lemma rd_header_len bs i rest : rd_header bs = Some (i, rest) -> (length rest + 2 <= length bs)%nat.
Proof.
  destruct bs as [|b0 [|b1 r]]; try discriminate. unfold rd_header. cbn [length].
  set (ext := if _ =? 126 then _ else _). destruct (lenN r <? ext); [discriminate|].
  pose proof (length_dropN ext r) as Hd.
  destruct (b2n b1 <? 128).
  - intros [= <- <-]. lia.
  - destruct (dropN ext r) as [|k0 [|k1 [|k2 [|k3 r']]]] eqn:E; try discriminate.
    intros [= <- <-]. cbn [length] in *. lia.
Qed.

(** More frames of budget change nothing once the reading has ended by itself. *)
Lemma reading_more k : forall opn bs j, is_stopped (snd (reading k opn bs)) = false -> (k <= j)%nat ->
  reading j opn bs = reading k opn bs.
Proof.
  induction k as [|k IH]; intros opn bs j Hs Hj; [discriminate|].
  destruct j as [|j]; [lia|]. cbn [reading] in *.
  destruct (rd_header bs) as [[i rest]|]; [|reflexivity].
  destruct (negb (accepts opn i)); [reflexivity|].
  destruct (negb (eff_len (i_len i) <=? lenN rest)); [reflexivity|].
  destruct (i_opcode i =? 8); [reflexivity|].
  destruct (reading k (next_open opn i) (dropN (eff_len (i_len i)) rest)) as [m e] eqn:E.
  rewrite (IH _ _ j), E; [reflexivity|now rewrite E|lia].
Qed.

Lemma reading_prefix k : forall opn bs j, (k <= j)%nat -> prefix (fst (reading k opn bs)) (fst (reading j opn bs)).
Proof.
  induction k as [|k IH]; intros opn bs j Hj; [apply prefix_nil|].
  destruct j as [|j]; [lia|]. cbn [reading] in *.
  destruct (rd_header bs) as [[i rest]|]; [|apply prefix_refl].
  destruct (negb (accepts opn i)); [apply prefix_refl|].
  destruct (negb (eff_len (i_len i) <=? lenN rest)); [apply prefix_refl|].
  destruct (i_opcode i =? 8); [apply prefix_refl|].
  assert (k <= j)%nat as Hkj by lia.
  specialize (IH (next_open opn i) (dropN (eff_len (i_len i)) rest) j Hkj).
  destruct (reading k _ _), (reading j _ _). cbn [fst] in *. now apply prefix_app_l.
Qed.

Lemma reading_ends k : forall opn bs, (length bs < k)%nat -> is_stopped (snd (reading k opn bs)) = false.
Proof.
  induction k as [|k IH]; intros opn bs Hk; [lia|]. cbn [reading].
  destruct (rd_header bs) as [[i rest]|] eqn:E; [|reflexivity].
  destruct (negb (accepts opn i)); [reflexivity|].
  destruct (negb (eff_len (i_len i) <=? lenN rest)); [reflexivity|].
  destruct (i_opcode i =? 8); [reflexivity|].
  apply rd_header_len in E. pose proof (length_dropN (eff_len (i_len i)) rest).
  assert (length (dropN (eff_len (i_len i)) rest) < k)%nat as Hd by lia.
  specialize (IH (next_open opn i) _ Hd). destruct (reading k _ _). exact IH.
Qed.

(** The reading of the whole stream, from any sufficient budget. *)
Lemma reading_whole k opn bs : is_stopped (snd (reading k opn bs)) = false ->
  fst (reading k opn bs) = stream_reading opn bs /\ snd (reading k opn bs) = stream_ending opn bs.
Proof.
  intros H. unfold stream_reading, stream_ending.
  destruct (Nat.le_ge_cases k (S (length bs))) as [Hle|Hge].
  - rewrite (reading_more k opn bs _ H Hle). auto.
  - rewrite (reading_more (S (length bs)) opn bs k); [auto| |exact Hge].
    apply reading_ends. lia.
Qed.

Lemma stream_enough k opn bs : (length bs < k)%nat ->
  reading k opn bs = (stream_reading opn bs, stream_ending opn bs).
Proof.
  intros H. destruct (reading_whole k opn bs) as [H1 H2]; [now apply reading_ends|].
  rewrite <- H1, <- H2. apply surjective_pairing.
Qed.

Lemma reading_prefix_stream k opn bs : prefix (fst (reading k opn bs)) (stream_reading opn bs).
Proof.
  unfold stream_reading. destruct (Nat.le_ge_cases k (S (length bs))) as [Hle|Hge].
  - now apply reading_prefix.
  - rewrite (reading_more (S (length bs)) opn bs k); [apply prefix_refl| |exact Hge]. apply reading_ends; lia.
Qed.

(** * Reading RFC frames *)

(** The length field has room for [n]. *)
Definition lform_fits (lf : lform) (n : N) : Prop :=
  match lf with L7 => n < 126 | L16 => n < 65536 | L64 => n < 2 ^ 64 end.

Lemma lform_ok_fits lf n : lform_ok lf n = true -> lform_fits lf n.
Proof. destruct lf; cbn [lform_ok lform_fits]; lia. Qed.

Lemma lform_min_ok n : n < 2 ^ 63 -> lform_ok (lform_min n) n = true.
Proof.
  intros H. unfold lform_min. destruct (n <? 126) eqn:E1; [exact E1|].
  destruct (n <? 65536) eqn:E2; [exact E2|]. cbn. lia.
Qed.


Ltac mlia := Zify.zify; Z.to_euclidean_division_equations; lia.

Lemma rd_header_rfc lf fin r1 r2 r3 op k n rest :
  op < 16 -> lform_fits lf n ->
  rd_header (rfc_header lf fin r1 r2 r3 op k n ++ rest) =
  Some (FInfo fin (rsv_of r1 r2 r3) op k n, rest).
Proof.
  intros Hop Hn. unfold rfc_header, rd_header. cbn [app].
  set (x0 := bitv fin 128 + bitv r1 64 + bitv r2 32 + bitv r3 16 + op).
  assert (x0 < 256) as Hx0 by (unfold x0, bitv; destruct fin, r1, r2, r3; lia).
  rewrite (n2b_small _ Hx0).
  set (l7 := match lf with L7 => n | L16 => 126 | L64 => 127 end).
  assert (l7 < 128) as Hl7 by (unfold l7; destruct lf; cbn in Hn; lia).
  set (x1 := bitv (has_key k) 128 + l7).
  assert (x1 < 256) as Hx1 by (unfold x1, bitv; destruct (has_key k); lia).
  rewrite (n2b_small _ Hx1).
  assert (x1 mod 128 = l7) as ->.
  { unfold x1, bitv. destruct (has_key k); [|apply N.mod_small; lia].
    replace (128 + l7) with (l7 + 1 * 128) by lia. rewrite N.mod_add by lia. apply N.mod_small; lia. }
  assert ((128 <=? x0) = fin) as -> by (unfold x0, bitv; destruct fin, r1, r2, r3; lia).
  assert (x0 mod 16 = op) as ->.
  { unfold x0. rewrite N.add_mod by lia.
    assert ((bitv fin 128 + bitv r1 64 + bitv r2 32 + bitv r3 16) mod 16 = 0) as ->
      by (destruct fin, r1, r2, r3; reflexivity).
    rewrite N.add_0_l, N.mod_mod by lia. apply N.mod_small; lia. }
  assert (x0 / 16 mod 8 = rsv_of r1 r2 r3) as ->.
  { assert (x0 / 16 = (bitv fin 8 + rsv_of r1 r2 r3)) as ->.
    { unfold x0, rsv_of. replace (bitv fin 128 + bitv r1 64 + bitv r2 32 + bitv r3 16 + op) with
        (op + (bitv fin 8 + (bitv r1 4 + bitv r2 2 + bitv r3 1)) * 16)
        by (unfold bitv; destruct fin, r1, r2, r3; lia).
      rewrite N.div_add by lia. rewrite (N.div_small op) by lia. lia. }
    unfold rsv_of; destruct fin, r1, r2, r3; reflexivity. }
  assert ((x1 <? 128) = negb (has_key k)) as -> by (unfold x1, bitv; destruct (has_key k); cbn [negb]; lia).
  assert (forall d ext, lenN d = ext -> be_dec d = n ->
    (if lenN (d ++ key_bytes k ++ rest) <? ext then None
     else if negb (has_key k) then
       Some (FInfo fin (rsv_of r1 r2 r3) op None (be_dec (takeN ext (d ++ key_bytes k ++ rest))), dropN ext (d ++ key_bytes k ++ rest))
     else match dropN ext (d ++ key_bytes k ++ rest) with
          | k0 :: k1 :: k2 :: k3 :: r'' =>
            Some (FInfo fin (rsv_of r1 r2 r3) op (Some (Mask4 k0 k1 k2 k3)) (be_dec (takeN ext (d ++ key_bytes k ++ rest))), r'')
          | _ => None
          end) = Some (FInfo fin (rsv_of r1 r2 r3) op k n, rest)) as Hgen.
  { intros d ext Hd Hdec. replace (lenN (d ++ key_bytes k ++ rest) <? ext) with false
      by (rewrite lenN_app; lia).
    rewrite takeN_app_exact, dropN_app_exact, Hdec by exact Hd.
    destruct k as [[k0 k1 k2 k3]|]; reflexivity. }
  destruct lf; cbn [app] in *; unfold l7.
  - cbn [lform_fits] in Hn. replace (n =? 126) with false by lia. replace (n =? 127) with false by lia.
    cbn [N.eqb]. replace (lenN (key_bytes k ++ rest) <? 0) with false by lia. rewrite dropN_0.
    destruct k as [[k0 k1 k2 k3]|]; reflexivity.
  - cbn [N.eqb Pos.eqb]. rewrite <- !app_assoc. apply Hgen; [apply lenN_be_enc|].
    rewrite be_dec_enc. apply N.mod_small. exact Hn.
  - cbn [N.eqb Pos.eqb]. rewrite <- !app_assoc. apply Hgen; [apply lenN_be_enc|].
    rewrite be_dec_enc. apply N.mod_small. exact Hn.
Qed.


Lemma rd_header_wire lf f rest :
  f_opcode f < 16 -> lform_ok lf (lenN (f_payload f)) = true ->
  rd_header (wire lf f ++ rest) = Some (finfo_of f, masked_opt (f_key f) (f_payload f) ++ rest).
Proof.
  intros Hop Hl. unfold wire. rewrite <- app_assoc. apply rd_header_rfc; [exact Hop|now apply lform_ok_fits].
Qed.


Lemma lform_ok_63 lf n : lform_ok lf n = true -> n < 2 ^ 63.
Proof. destruct lf; cbn [lform_ok]; intros; lia. Qed.

Lemma reading_wire k opn lf f rest :
  f_opcode f < 16 -> lform_ok lf (lenN (f_payload f)) = true -> accepts opn (finfo_of f) = true ->
  reading (S k) opn (wire lf f ++ rest) =
  if f_opcode f =? 8 then (frame_shown f, Closed rest)
  else (frame_shown f ++ fst (reading k (next_open opn (finfo_of f)) rest),
        snd (reading k (next_open opn (finfo_of f)) rest)).
Proof.
  intros Hop Hl Ha. cbn [reading]. rewrite rd_header_wire by assumption. rewrite Ha. cbn [negb i_len i_key i_opcode i_fin finfo_of].
  pose proof (lform_ok_63 _ _ Hl) as H63.
  assert (eff_len (lenN (f_payload f)) = lenN (f_payload f)) as ->.
  { unfold eff_len. destruct (lenN (f_payload f) <? 2 ^ 63) eqn:E; [reflexivity|lia]. }
  pose proof (lenN_masked_opt (f_key f) (f_payload f)) as Hm.
  rewrite takeN_app_exact, dropN_app_exact by exact Hm. rewrite lenN_app, Hm.
  replace (lenN (f_payload f) <=? lenN (f_payload f) + lenN rest) with true by lia. cbn [negb].
  rewrite masked_opt_invol. fold (frame_shown f).
  destruct (f_opcode f =? 8); [reflexivity|].
  destruct (reading k (next_open opn (finfo_of f)) rest); reflexivity.
Qed.

(** * Histories: sequences of frames the library accepts without closing *)




Lemma reading_wires fs : forall k opn bs, history_ok opn fs = true ->
  reading (length fs + k) opn (wires fs ++ bs) =
  (frames_shown fs ++ fst (reading k (open_after opn fs) bs), snd (reading k (open_after opn fs) bs)).
Proof.
  induction fs as [|[lf f] r IH]; intros k opn bs H.
  - cbn. apply surjective_pairing.
  - cbn [history_ok] in H. rewrite !andb_true_iff in H. destruct H as ((((H1 & H2) & H3) & H4) & H5).
    cbn [length Nat.add wires frames_shown flat_map fst snd open_after]. rewrite <- app_assoc.
    fold (wires r). fold (frames_shown r).
    rewrite reading_wire; [|lia|exact H2|exact H3]. apply negb_true_iff in H4. rewrite H4.
    rewrite IH by exact H5. cbn [fst snd]. now rewrite app_assoc.
Qed.

Lemma length_wire_pos lf f : (2 <= length (wire lf f))%nat.
Proof. unfold wire, rfc_header. rewrite app_length. cbn [length]. lia. Qed.

Lemma length_wires fs : (length fs <= length (wires fs))%nat.
Proof.
  induction fs as [|[lf f] r IH]; [cbn; lia|]. cbn [wires flat_map fst snd length]. rewrite app_length.
  fold (wires r). pose proof (length_wire_pos lf f). lia.
Qed.

Lemma stream_wires fs opn bs : history_ok opn fs = true ->
  stream_reading opn (wires fs ++ bs) = frames_shown fs ++ stream_reading (open_after opn fs) bs /\
  stream_ending opn (wires fs ++ bs) = stream_ending (open_after opn fs) bs.
Proof.
  intros H. pose proof (length_wires fs) as Hl.
  pose proof (stream_enough (length fs + S (length (wires fs ++ bs))) opn (wires fs ++ bs)) as H1.
  rewrite reading_wires in H1 by exact H.
  rewrite stream_enough in H1 by (rewrite app_length; lia). cbn [fst snd] in H1.
  specialize (H1 ltac:(lia)). injection H1 as H1 H2. auto.
Qed.

Lemma stream_reading_nil opn : stream_reading opn [] = [] /\ stream_ending opn [] = Blocked.
Proof. split; reflexivity. Qed.
