(** The contract of Base64.v is RFC 4648. *)
From Coq Require Import ZifyBool ZifyNat ZifyN.
From Verif Require Import Bytes Base64 SpecBase64.
Local Open Scope N_scope.

Lemma b64char_table v : v < 64 -> b64char v = table1 v.
Proof.
  intros Hv.
  assert (forallb (fun i => Byte.eqb (b64char (N.of_nat i)) (table1 (N.of_nat i))) (seq 0 64) = true) as H by (vm_compute; reflexivity).
  rewrite forallb_forall in H. specialize (H (N.to_nat v)). rewrite N2Nat.id in H.
  apply Byte.byte_dec_bl. apply H. apply in_seq. lia.
Qed.

Ltac octet b := destruct b; vm_compute; reflexivity.

Lemma hi6 a : value (firstn 6 (bits_of a)) = b2n a / 4. Proof. octet a. Qed.
Lemma lo6 a : value (skipn 2 (bits_of a)) = b2n a mod 64. Proof. octet a. Qed.
Lemma hi4 a : value (firstn 4 (bits_of a)) = b2n a / 16. Proof. octet a. Qed.
Lemma hi2 a : value (firstn 2 (bits_of a)) = b2n a / 64. Proof. octet a. Qed.
Lemma lo2 a : value (skipn 6 (bits_of a)) = b2n a mod 4. Proof. octet a. Qed.
Lemma lo4 a : value (skipn 4 (bits_of a)) = b2n a mod 16. Proof. octet a. Qed.

Lemma value_app g h : value (g ++ h) = value g * 2 ^ lenN h + value h.
Proof.
  unfold value. rewrite fold_left_app. generalize (fold_left (fun n (b : bool) => 2 * n + (if b then 1 else 0)) g 0).
  induction h as [|x h IH] using rev_ind; intros n.
  - cbn. lia.
  - rewrite !fold_left_app. cbn [fold_left]. rewrite IH. rewrite lenN_app. change (lenN [x]) with 1. rewrite N.pow_add_r. change (2 ^ 1) with 2. nia.
Qed.

Lemma split_bits a : exists a7 a6 a5 a4 a3 a2 a1 a0, bits_of a = [a7; a6; a5; a4; a3; a2; a1; a0].
Proof. unfold bits_of. cbn [map]. repeat eexists. Qed.

Lemma g2 a b : value (skipn 6 (bits_of a) ++ firstn 4 (bits_of b)) = (b2n a mod 4) * 16 + b2n b / 16.
Proof. rewrite value_app, lo2, hi4. reflexivity. Qed.
Lemma g3 b c : value (skipn 4 (bits_of b) ++ firstn 2 (bits_of c)) = (b2n b mod 16) * 4 + b2n c / 64.
Proof. rewrite value_app, lo4, hi2. reflexivity. Qed.
Lemma z4 a : value (skipn 6 (bits_of a) ++ [false; false; false; false]) = (b2n a mod 4) * 16.
Proof. rewrite value_app, lo2. cbn. lia. Qed.
Lemma z2 b : value (skipn 4 (bits_of b) ++ [false; false]) = (b2n b mod 16) * 4.
Proof. rewrite value_app, lo4. cbn. lia. Qed.

Lemma sextets3 a b c r :
  sextets (flat_map bits_of (a :: b :: c :: r)) =
  [firstn 6 (bits_of a); skipn 6 (bits_of a) ++ firstn 4 (bits_of b); skipn 4 (bits_of b) ++ firstn 2 (bits_of c); skipn 2 (bits_of c)] ++
  sextets (flat_map bits_of r).
Proof.
  cbn [flat_map].
  destruct (split_bits a) as (a7 & a6 & a5 & a4 & a3 & a2 & a1 & a0 & ->).
  destruct (split_bits b) as (b7 & b6 & b5 & b4 & b3 & b2 & b1 & b0 & ->).
  destruct (split_bits c) as (c7 & c6 & c5 & c4 & c3 & c2 & c1 & c0 & ->).
  reflexivity.
Qed.

Lemma pad3 (f : list bool -> byte) l x y z t :
  let k m := ((4 - length (map f m) mod 4) mod 4)%nat in k ([x; y; z; t] ++ l) = k l.
Proof.
  cbv beta zeta. rewrite map_app, app_length. cbn [map length].
  replace (4 + length (map f l))%nat with (length (map f l) + 1 * 4)%nat by lia. rewrite Nat.mod_add by lia. reflexivity.
Qed.

Lemma rfc_base64_is l : rfc_base64 l = base64 l.
Proof.
  induction l as [|a|a b|a b c r IH] using three_ind.
  - reflexivity.
  - pose proof (b2n_lt a) as Ha. cbn [base64].
    rewrite !b64char_table by lia. unfold rfc_base64.
    assert (sextets (flat_map bits_of [a]) = [firstn 6 (bits_of a); skipn 6 (bits_of a) ++ [false; false; false; false]]) as ->.
    { cbn [flat_map app]. destruct (split_bits a) as (a7 & a6 & a5 & a4 & a3 & a2 & a1 & a0 & ->). reflexivity. }
    cbn [map app length Nat.modulo Nat.divmod Nat.sub snd fst repeat]. rewrite hi6, z4. change pad_char with x3d.
    f_equal; [f_equal; lia|]. f_equal; f_equal; lia.
  - pose proof (b2n_lt a) as Ha. pose proof (b2n_lt b) as Hb. cbn [base64].
    rewrite !b64char_table by lia. unfold rfc_base64.
    assert (sextets (flat_map bits_of [a; b]) =
      [firstn 6 (bits_of a); skipn 6 (bits_of a) ++ firstn 4 (bits_of b); skipn 4 (bits_of b) ++ [false; false]]) as ->.
    { cbn [flat_map app]. destruct (split_bits a) as (a7 & a6 & a5 & a4 & a3 & a2 & a1 & a0 & ->).
      destruct (split_bits b) as (b7 & b6 & b5 & b4 & b3 & b2 & b1 & b0 & ->). reflexivity. }
    cbn [map app length Nat.modulo Nat.divmod Nat.sub snd fst repeat]. rewrite hi6, g2, z2. change pad_char with x3d.
    f_equal; [f_equal; lia|]. f_equal; [f_equal; lia|]. f_equal; f_equal; lia.
  - pose proof (b2n_lt a) as Ha. pose proof (b2n_lt b) as Hb. pose proof (b2n_lt c) as Hc. cbn [base64].
    rewrite !b64char_table by lia. rewrite <- IH. unfold rfc_base64. rewrite sextets3. cbv zeta. rewrite pad3.
    rewrite map_app, <- app_assoc. f_equal.
    cbn [map]. rewrite hi6, g2, g3, lo6.
    f_equal; [f_equal; lia|]. f_equal; [f_equal; lia|]. f_equal; [f_equal; lia|]. f_equal; f_equal; lia.
Qed.

Lemma rfc_base64_inj l l' : rfc_base64 l = rfc_base64 l' -> l = l'.
Proof. rewrite !rfc_base64_is. apply base64_inj. Qed.
