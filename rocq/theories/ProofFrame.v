(** Lemmas about packHeaderBits / unpackHeaderBits and the masking loops. *)
From Verif Require Import Bytes Frame World WebSocket SpecFrame.
From Coq Require Import ZifyBool ZifyNat ZifyN.
Local Open Scope N_scope.

(** * Finite sweeps *)

Definition below (n : nat) : list N := map N.of_nat (seq 0 n).

Lemma below_In n x : x < N.of_nat n -> In x (below n).
Proof.
  intros Hx. unfold below. apply in_map_iff. exists (N.to_nat x). split; [lia|].
  apply in_seq. lia.
Qed.

Definition all_bytes : list byte := map n2b (below 256).

Lemma all_bytes_In b : In b all_bytes.
Proof.
  unfold all_bytes. rewrite <- (n2b_b2n b). apply in_map, below_In. apply (b2n_lt b).
Qed.

Lemma sweep_bytes2 (P : byte -> byte -> bool) :
  forallb (fun a => forallb (P a) all_bytes) all_bytes = true -> forall a b, P a b = true.
Proof.
  intros H a b. rewrite forallb_forall in H. specialize (H a (all_bytes_In a)).
  rewrite forallb_forall in H. exact (H b (all_bytes_In b)).
Qed.

Lemma sweep_below2 n m (P : N -> N -> bool) :
  forallb (fun a => forallb (P a) (below m)) (below n) = true ->
  forall a b, a < N.of_nat n -> b < N.of_nat m -> P a b = true.
Proof.
  intros H a b Ha Hb. rewrite forallb_forall in H. specialize (H a (below_In _ _ Ha)).
  rewrite forallb_forall in H. exact (H b (below_In _ _ Hb)).
Qed.

(** * packHeaderBits, arithmetically *)

Definition l7_of (n : Z) : N :=
  if (n <? 126)%Z then Z.to_N n else if (n <? 65536)%Z then 126 else 127.

Definition scen_of (n : Z) : N :=
  if (n <? 126)%Z then 1 else if (n <? 65536)%Z then 2 else 3.

Definition orbits (fin r1 r2 r3 msk : bool) (op4 l7 : N) : N :=
  let bits := 0 in
  let bits := if fin then N.lor bits 32768 else bits in
  let bits := if r1 then N.lor bits 16384 else bits in
  let bits := if r2 then N.lor bits 8192 else bits in
  let bits := if r3 then N.lor bits 4096 else bits in
  let bits := N.lor bits (N.shiftl op4 8) in
  let bits := if msk then N.lor bits 128 else bits in
  N.lor bits l7.

Definition sumbits (fin r1 r2 r3 msk : bool) (op4 l7 : N) : N :=
  256 * (bitv fin 128 + bitv r1 64 + bitv r2 32 + bitv r3 16 + op4) + (bitv msk 128 + l7).

Definition bools := [true; false].

Lemma orbits_sumbits_sweep :
  forallb (fun fin => forallb (fun r1 => forallb (fun r2 => forallb (fun r3 => forallb (fun msk =>
    forallb (fun op4 => forallb (fun l7 =>
      orbits fin r1 r2 r3 msk op4 l7 =? sumbits fin r1 r2 r3 msk op4 l7) (below 128)) (below 16))
    bools) bools) bools) bools) bools = true.
Proof. vm_compute. reflexivity. Qed.

Lemma bools_In b : In b bools.
Proof. destruct b; cbn; auto. Qed.

Lemma orbits_sumbits fin r1 r2 r3 msk op4 l7 :
  op4 < 16 -> l7 < 128 -> orbits fin r1 r2 r3 msk op4 l7 = sumbits fin r1 r2 r3 msk op4 l7.
Proof.
  intros Ho Hl. pose proof orbits_sumbits_sweep as H.
  rewrite forallb_forall in H; specialize (H fin (bools_In _)).
  rewrite forallb_forall in H; specialize (H r1 (bools_In _)).
  rewrite forallb_forall in H; specialize (H r2 (bools_In _)).
  rewrite forallb_forall in H; specialize (H r3 (bools_In _)).
  rewrite forallb_forall in H; specialize (H msk (bools_In _)).
  rewrite forallb_forall in H; specialize (H op4 (below_In 16 op4 Ho)).
  rewrite forallb_forall in H; specialize (H l7 (below_In 128 l7 Hl)).
  apply N.eqb_eq in H. exact H.
Qed.

Lemma land_15 n : N.land n 15 = n mod 16.
Proof. change 15 with (N.ones 4). apply N.land_ones. Qed.

Lemma packHeaderBits_arith h :
  (0 <= h_len h)%Z ->
  packHeaderBits h =
  (sumbits (h_fin h) (h_rsv1 h) (h_rsv2 h) (h_rsv3 h) (h_hasMask h) (h_opcode h mod 16) (l7_of (h_len h)),
   scen_of (h_len h)).
Proof.
  intros Hlen.
  assert (h_opcode h mod 16 < 16) as Hop by (apply N.mod_lt; lia).
  assert (l7_of (h_len h) < 128) as Hl7.
  { unfold l7_of. destruct (Z.ltb_spec (h_len h) 126); [lia|].
    destruct (Z.ltb_spec (h_len h) 65536); lia. }
  rewrite <- orbits_sumbits by assumption.
  unfold packHeaderBits, orbits, scen_of, l7_of. rewrite land_15.
  destruct (Z.ltb_spec (h_len h) 126) as [H1|H1].
  - replace (Z.to_N (Z.land (h_len h) 127)) with (Z.to_N (h_len h)); [reflexivity|].
    change 127%Z with (Z.ones 7). rewrite Z.land_ones by lia.
    rewrite Z.mod_small; [reflexivity|]. change (2 ^ 7)%Z with 128%Z. lia.
  - destruct (Z.ltb_spec (h_len h) 65536); reflexivity.
Qed.

Lemma sumbits_lt fin r1 r2 r3 msk op4 l7 :
  op4 < 16 -> l7 < 128 -> sumbits fin r1 r2 r3 msk op4 l7 < 65536.
Proof. intros. unfold sumbits, bitv. destruct fin, r1, r2, r3, msk; lia. Qed.

Lemma l7_of_lt n : (0 <= n)%Z -> l7_of n < 128.
Proof.
  intros. unfold l7_of. destruct (Z.ltb_spec n 126); [lia|]. destruct (Z.ltb_spec n 65536); lia.
Qed.

Lemma packHeaderBits_lt h : (0 <= h_len h)%Z -> fst (packHeaderBits h) < 65536.
Proof.
  intros Hl. rewrite packHeaderBits_arith by assumption. cbn [fst]. apply sumbits_lt.
  - apply N.mod_lt; lia.
  - now apply l7_of_lt.
Qed.

(** * unpackHeaderBits, arithmetically *)

Lemma unpack_sweep :
  forallb (fun b0 => forallb (fun b1 =>
    let bits := b2n b0 * 256 + b2n b1 in
    Bool.eqb (0 <? N.land bits 32768) (128 <=? b2n b0) &&
    Bool.eqb (0 <? N.land bits 16384) (b2n b0 / 64 mod 2 =? 1) &&
    Bool.eqb (0 <? N.land bits 8192) (b2n b0 / 32 mod 2 =? 1) &&
    Bool.eqb (0 <? N.land bits 4096) (b2n b0 / 16 mod 2 =? 1) &&
    (N.shiftr (N.land bits 3840) 8 =? b2n b0 mod 16) &&
    Bool.eqb (0 <? N.land bits 128) (128 <=? b2n b1) &&
    (N.land bits 127 =? b2n b1 mod 128)) all_bytes) all_bytes = true.
Proof. vm_compute. reflexivity. Qed.

Lemma unpackHeaderBits_arith b0 b1 h :
  unpackHeaderBits (b2n b0 * 256 + b2n b1) h =
  (Header (128 <=? b2n b0) (b2n b0 / 64 mod 2 =? 1) (b2n b0 / 32 mod 2 =? 1)
          (b2n b0 / 16 mod 2 =? 1) (b2n b0 mod 16) (128 <=? b2n b1) (h_len h) (h_mask h),
   b2n b1 mod 128).
Proof.
  pose proof (sweep_bytes2 _ unpack_sweep b0 b1) as H. cbv zeta in H.
  rewrite !andb_true_iff in H. destruct H as [[[[[[H1 H2] H3] H4] H5] H6] H7].
  apply eqb_prop in H1, H2, H3, H4, H6. apply N.eqb_eq in H5, H7.
  unfold unpackHeaderBits. rewrite H1, H2, H3, H4, H5, H6, H7. reflexivity.
Qed.

(** Round trip on the bits. *)
Lemma unpack_sumbits fin r1 r2 r3 msk op4 l7 h :
  op4 < 16 -> l7 < 128 ->
  unpackHeaderBits (sumbits fin r1 r2 r3 msk op4 l7) h =
  (Header fin r1 r2 r3 op4 msk (h_len h) (h_mask h), l7).
Proof.
  intros Ho Hl.
  set (a := bitv fin 128 + bitv r1 64 + bitv r2 32 + bitv r3 16 + op4).
  set (c := bitv msk 128 + l7).
  assert (a < 256) as Ha by (unfold a, bitv; destruct fin, r1, r2, r3; lia).
  assert (c < 256) as Hc by (unfold c, bitv; destruct msk; lia).
  replace (sumbits fin r1 r2 r3 msk op4 l7) with (b2n (n2b a) * 256 + b2n (n2b c)).
  2:{ rewrite !n2b_small by assumption. unfold sumbits. fold a c. lia. }
  rewrite unpackHeaderBits_arith, !n2b_small by assumption.
  assert (Hq : forall x k q, 0 < k -> k * q <= x -> x < k * (q + 1) -> x / k = q).
  { intros x k q Hk H1 H2. symmetry. apply (N.div_unique x k q (x - k * q)); lia. }
  f_equal.
  - f_equal.
    + unfold a, bitv. destruct fin, r1, r2, r3; lia.
    + unfold a, bitv. destruct fin, r1, r2, r3;
      match goal with |- (?x / 64 mod 2 =? 1) = ?b =>
        first [ rewrite (Hq x 64 3) by lia | rewrite (Hq x 64 2) by lia
              | rewrite (Hq x 64 1) by lia | rewrite (Hq x 64 0) by lia ]; reflexivity end.
    + unfold a, bitv. destruct fin, r1, r2, r3;
      match goal with |- (?x / 32 mod 2 =? 1) = ?b =>
        first [ rewrite (Hq x 32 7) by lia | rewrite (Hq x 32 6) by lia
              | rewrite (Hq x 32 5) by lia | rewrite (Hq x 32 4) by lia
              | rewrite (Hq x 32 3) by lia | rewrite (Hq x 32 2) by lia
              | rewrite (Hq x 32 1) by lia | rewrite (Hq x 32 0) by lia ]; reflexivity end.
    + assert (a / 16 = bitv fin 8 + bitv r1 4 + bitv r2 2 + bitv r3 1) as Haq.
      { apply Hq; unfold a, bitv; destruct fin, r1, r2, r3; lia. }
      rewrite Haq. unfold bitv. destruct fin, r1, r2, r3; reflexivity.
    + symmetry. apply (N.mod_unique a 16 (bitv fin 8 + bitv r1 4 + bitv r2 2 + bitv r3 1)); [lia|].
      unfold a, bitv. destruct fin, r1, r2, r3; lia.
    + unfold c, bitv. destruct msk; lia.
  - symmetry. apply (N.mod_unique c 128 (bitv msk 1)); [lia|].
    unfold c, bitv. destruct msk; lia.
Qed.

(** * The xor loop *)

Lemma xor_from_app m off d1 d2 :
  xor_from m off (d1 ++ d2) = xor_from m off d1 ++ xor_from m (off + lenN d1) d2.
Proof.
  revert off; induction d1 as [|b r IH]; intros off; cbn [xor_from app].
  - rewrite lenN_nil, N.add_0_r. reflexivity.
  - rewrite IH. f_equal. f_equal. f_equal. rewrite lenN_cons. lia.
Qed.

Lemma xor_from_length m off d : length (xor_from m off d) = length d.
Proof. revert off; induction d as [|b r IH]; intros off; cbn; [reflexivity|now rewrite IH]. Qed.

Lemma lenN_xor_from m off d : lenN (xor_from m off d) = lenN d.
Proof. unfold lenN. now rewrite xor_from_length. Qed.

Lemma xor_from_invol m off d : xor_from m off (xor_from m off d) = d.
Proof.
  revert off; induction d as [|b r IH]; intros off; cbn [xor_from]; [reflexivity|].
  now rewrite bxor_invol, IH.
Qed.

Lemma mask_at_nth m (i : nat) : mask_at m (N.of_nat i) = nth (i mod 4)%nat (mask_bytes m) x00.
Proof.
  unfold mask_at.
  assert (N.of_nat i mod 4 = N.of_nat (i mod 4)) as ->.
  { change 4 with (N.of_nat 4). now rewrite <- Nnat.Nat2N.inj_mod. }
  assert (i mod 4 < 4)%nat as Hlt by (apply Nat.mod_upper_bound; lia).
  destruct (i mod 4)%nat as [|[|[|[|k]]]]; try reflexivity. lia.
Qed.

Lemma xor_from_rfc_gen m (off : nat) d :
  xor_from m (N.of_nat off) d =
  map (fun ib => bxor (snd ib) (nth (fst ib mod 4)%nat (mask_bytes m) x00)) (combine (seq off (length d)) d).
Proof.
  revert off; induction d as [|b r IH]; intros off; cbn [xor_from length seq combine map]; [reflexivity|].
  rewrite mask_at_nth. cbn [fst snd]. f_equal.
  replace (N.of_nat off + 1) with (N.of_nat (S off)) by lia. apply IH.
Qed.

Lemma xor_from_rfc m d : xor_from m 0 d = rfc_masked m d.
Proof. exact (xor_from_rfc_gen m 0 d). Qed.

Lemma rfc_masked_invol m d : rfc_masked m (rfc_masked m d) = d.
Proof. rewrite <- !xor_from_rfc. apply xor_from_invol. Qed.

Lemma lenN_rfc_masked m d : lenN (rfc_masked m d) = lenN d.
Proof. rewrite <- xor_from_rfc. apply lenN_xor_from. Qed.

Lemma lenN_masked_opt k d : lenN (masked_opt k d) = lenN d.
Proof. destruct k; cbn; [apply lenN_rfc_masked|reflexivity]. Qed.

Lemma masked_opt_invol k d : masked_opt k (masked_opt k d) = d.
Proof. destruct k; cbn; [apply rfc_masked_invol|reflexivity]. Qed.

(** * 64-bit lengths *)

Lemma lor_shift32 a b : b < 2 ^ 32 -> N.lor (N.shiftl a 32) b = a * 2 ^ 32 + b.
Proof.
  intros Hb. rewrite N.shiftl_mul_pow2.
  rewrite <- N.lxor_lor, <- N.add_nocarry_lxor.
  - reflexivity.
  - apply N.bits_inj_0. intros n. rewrite N.land_spec.
    destruct (N.lt_ge_cases n 32) as [Hn|Hn].
    + rewrite N.mul_pow2_bits_low by assumption. reflexivity.
    + destruct (N.eq_dec b 0) as [->|Hb0]; [rewrite N.bits_0; apply andb_false_r|].
      rewrite (N.bits_above_log2 b n); [apply andb_false_r|].
      apply N.lt_le_trans with 32; [|exact Hn]. apply N.log2_lt_pow2; [lia|exact Hb].
  - apply N.bits_inj_0. intros n. rewrite N.land_spec.
    destruct (N.lt_ge_cases n 32) as [Hn|Hn].
    + rewrite N.mul_pow2_bits_low by assumption. reflexivity.
    + destruct (N.eq_dec b 0) as [->|Hb0]; [rewrite N.bits_0; apply andb_false_r|].
      rewrite (N.bits_above_log2 b n); [apply andb_false_r|].
      apply N.lt_le_trans with 32; [|exact Hn]. apply N.log2_lt_pow2; [lia|exact Hb].
Qed.

Lemma be_dec_app a b : be_dec (a ++ b) = be_dec a * 256 ^ lenN b + be_dec b.
Proof.
  induction a as [|x r IH]; [reflexivity|].
  cbn [app be_dec]. rewrite IH, lenN_app, N.pow_add_r. lia.
Qed.

Lemma be_dec_split8 l : lenN l = 8 ->
  N.lor (N.shiftl (be_dec (takeN 4 l)) 32) (be_dec (dropN 4 l)) = be_dec l.
Proof.
  intros Hl.
  assert (lenN (dropN 4 l) = 4) as Hd by (rewrite lenN_dropN; lia).
  rewrite lor_shift32.
  - rewrite <- (take_drop 4 l) at 3. rewrite be_dec_app, Hd. reflexivity.
  - pose proof (be_dec_lt (dropN 4 l)) as H. rewrite Hd in H. exact H.
Qed.

Lemma be_enc_mod k n j : (k <= j)%nat -> be_enc k (n mod 256 ^ N.of_nat j) = be_enc k n.
Proof.
  revert n; induction k as [|k IH]; intros n Hk; [reflexivity|].
  cbn [be_enc]. rewrite IH by lia. f_equal. apply b2n_inj. rewrite !b2n_n2b.
  replace (N.of_nat j) with (N.of_nat k + (1 + (N.of_nat j - N.of_nat k - 1))) by lia.
  rewrite N.pow_add_r, N.mod_mul_r by (apply N.pow_nonzero; lia).
  rewrite (N.mul_comm (256 ^ N.of_nat k)), N.add_comm.
  rewrite N.div_add_l by (apply N.pow_nonzero; lia).
  rewrite (N.div_small (n mod _)) by (apply N.mod_lt, N.pow_nonzero; lia).
  rewrite N.add_0_r, N.pow_add_r. change (256 ^ 1) with 256.
  rewrite N.mod_mul_r by (try apply N.pow_nonzero; lia).
  rewrite (N.mul_comm 256), N.mod_add by lia. apply N.mod_mod. lia.
Qed.

Lemma be_enc_app j k n : be_enc (j + k) n = be_enc j (n / 256 ^ N.of_nat k) ++ be_enc k n.
Proof.
  induction j as [|j IH]; [reflexivity|].
  cbn [Nat.add be_enc app]. rewrite IH. f_equal. f_equal.
  rewrite N.div_div by (apply N.pow_nonzero; lia). f_equal.
  rewrite <- N.pow_add_r. f_equal. lia.
Qed.

Lemma be_enc_hi_lo n :
  (0 <= n < 2 ^ 63)%Z ->
  be_enc 4 (i64_to_u32 (Z.shiftr n 32)) ++ be_enc 4 (i64_to_u32 (Z.land n 4294967295))
  = be_enc 8 (Z.to_N n).
Proof.
  intros Hn. change 8%nat with (4 + 4)%nat. rewrite be_enc_app. f_equal.
  - f_equal. unfold i64_to_u32. rewrite Z.shiftr_div_pow2 by lia.
    change (256 ^ N.of_nat 4) with (Z.to_N (2 ^ 32)).
    rewrite <- Z2N.inj_div by lia. f_equal. apply Z.mod_small.
    split; [apply Z.div_pos; lia|]. apply Z.div_lt_upper_bound; lia.
  - unfold i64_to_u32. change 4294967295%Z with (Z.ones 32). rewrite Z.land_ones by lia.
    rewrite Z.mod_mod by lia. rewrite Z2N.inj_mod by lia.
    change (Z.to_N (2 ^ 32)) with (256 ^ N.of_nat 4). apply be_enc_mod. lia.
Qed.

Lemma i64_to_u16_small n : (0 <= n < 65536)%Z -> i64_to_u16 n = Z.to_N n.
Proof. intros. unfold i64_to_u16. rewrite Z.mod_small; [reflexivity|]. exact H. Qed.

Lemma to_i64_small n : n < 2 ^ 63 -> to_i64 n = Z.of_N n.
Proof.
  intros H. unfold to_i64. rewrite N.mod_small by lia.
  destruct (N.ltb_spec n (2 ^ 63)); [reflexivity|lia].
Qed.

Lemma to_i64_neg n : 2 ^ 63 <= n < 2 ^ 64 -> (to_i64 n < 0)%Z.
Proof.
  intros H. unfold to_i64. rewrite N.mod_small by lia.
  destruct (N.ltb_spec n (2 ^ 63)); lia.
Qed.
