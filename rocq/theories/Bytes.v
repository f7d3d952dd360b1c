(** Bytes and fixed-width integers.
    The type of bytes is Coq's 256-constructor [Byte.byte], so a byte list is exactly what
    can be on the wire: no side condition "< 256" is ever needed. *)
From Coq Require Export NArith ZArith List Lia Bool.
From Coq.Init Require Export Byte.
From Coq.Strings Require Export Byte.
From Coq Require Import ZifyBool ZifyNat ZifyN.
Export ListNotations.
Local Open Scope N_scope.

Notation byte := Byte.byte.
Definition bytes := list byte.

(** Value of a byte; v_uint8 -> wider unsigned integer. *)
Definition b2n (b : byte) : N := Byte.to_N b.

(** Truncation of an unsigned integer to v_uint8. *)
Definition n2b (n : N) : byte :=
  match Byte.of_N (n mod 256) with Some b => b | None => x00 end.

(** The C++ [^] on two v_uint8/v_char8 operands. *)
Definition bxor (a b : byte) : byte := n2b (N.lxor (b2n a) (b2n b)).

(** Length as N. *)
Definition lenN {A} (l : list A) : N := N.of_nat (length l).

(** [firstn]/[skipn] with an N count (recursion on the list, so counts near 2^63 compute). *)
Fixpoint takeN {A} (n : N) (l : list A) : list A :=
  match l with
  | [] => []
  | x :: r => if n =? 0 then [] else x :: takeN (N.pred n) r
  end.

Fixpoint dropN {A} (n : N) (l : list A) : list A :=
  match l with
  | [] => []
  | x :: r => if n =? 0 then l else dropN (N.pred n) r
  end.

(** Big-endian integers as the network order conversions produce them (ntohs/ntohl on bytes
    read from memory; the composition is independent of the host byte order). *)
Fixpoint be_dec (l : bytes) : N :=
  match l with
  | [] => 0
  | b :: r => b2n b * 256 ^ lenN r + be_dec r
  end.

(** [k]-byte big-endian encoding of [n] (truncating). *)
Fixpoint be_enc (k : nat) (n : N) : bytes :=
  match k with
  | O => []
  | S k' => n2b (n / 256 ^ N.of_nat k') :: be_enc k' n
  end.

(* ------------------------------------------------------------------------------------- *)
(** * Lemmas *)

Lemma b2n_lt b : b2n b < 256.
Proof. unfold b2n. pose proof (Byte.to_N_bounded b). lia. Qed.

Lemma of_N_lt n : n < 256 -> exists b, Byte.of_N n = Some b.
Proof.
  intros Hn. destruct (Byte.of_N n) eqn:E; [eauto|].
  apply Byte.of_N_None_iff in E. lia.
Qed.

Lemma b2n_n2b n : b2n (n2b n) = n mod 256.
Proof.
  unfold n2b, b2n. assert (n mod 256 < 256) as Hm by (apply N.mod_lt; lia).
  destruct (of_N_lt _ Hm) as [b Hb]. rewrite Hb.
  apply Byte.to_of_N in Hb. exact Hb.
Qed.

Lemma n2b_b2n b : n2b (b2n b) = b.
Proof.
  unfold n2b. rewrite N.mod_small by apply b2n_lt. unfold b2n.
  rewrite Byte.of_to_N. reflexivity.
Qed.

Lemma b2n_inj a b : b2n a = b2n b -> a = b.
Proof. intros H. rewrite <- (n2b_b2n a), <- (n2b_b2n b), H. reflexivity. Qed.

Lemma n2b_small n : n < 256 -> b2n (n2b n) = n.
Proof. intros. rewrite b2n_n2b. apply N.mod_small. assumption. Qed.

Lemma lxor_lt_256 a b : a < 256 -> b < 256 -> N.lxor a b < 256.
Proof.
  intros Ha Hb. destruct (N.eq_dec (N.lxor a b) 0) as [E|E]; [lia|].
  change 256 with (2 ^ 8). apply N.log2_lt_pow2; [lia|].
  eapply N.le_lt_trans; [apply N.log2_lxor|].
  apply N.max_lub_lt.
  - destruct (N.eq_dec a 0) as [->|Na]; [reflexivity|]. apply N.log2_lt_pow2; [lia|exact Ha].
  - destruct (N.eq_dec b 0) as [->|Nb]; [reflexivity|]. apply N.log2_lt_pow2; [lia|exact Hb].
Qed.

Lemma b2n_bxor a b : b2n (bxor a b) = N.lxor (b2n a) (b2n b).
Proof. unfold bxor. apply n2b_small. apply lxor_lt_256; apply b2n_lt. Qed.

Lemma bxor_invol a b : bxor (bxor a b) b = a.
Proof.
  apply b2n_inj. rewrite !b2n_bxor, N.lxor_assoc, N.lxor_nilpotent, N.lxor_0_r. reflexivity.
Qed.

Lemma bxor_0_r a : bxor a x00 = a.
Proof. apply b2n_inj. rewrite b2n_bxor. change (b2n x00) with 0. apply N.lxor_0_r. Qed.

Lemma takeN_firstn {A} n (l : list A) : takeN n l = firstn (N.to_nat n) l.
Proof.
  revert n; induction l as [|x r IH]; intros n; cbn [takeN].
  - now rewrite firstn_nil.
  - destruct (N.eqb_spec n 0) as [->|Hn]; [reflexivity|].
    rewrite IH. replace (N.to_nat n) with (S (N.to_nat (N.pred n))) by lia. reflexivity.
Qed.

Lemma dropN_skipn {A} n (l : list A) : dropN n l = skipn (N.to_nat n) l.
Proof.
  revert n; induction l as [|x r IH]; intros n; cbn [dropN].
  - now rewrite skipn_nil.
  - destruct (N.eqb_spec n 0) as [->|Hn]; [reflexivity|].
    rewrite IH. replace (N.to_nat n) with (S (N.to_nat (N.pred n))) by lia. reflexivity.
Qed.

Lemma take_drop {A} n (l : list A) : takeN n l ++ dropN n l = l.
Proof. rewrite takeN_firstn, dropN_skipn. apply firstn_skipn. Qed.

Lemma lenN_nil {A} : lenN (@nil A) = 0. Proof. reflexivity. Qed.
Lemma lenN_cons {A} (x : A) l : lenN (x :: l) = 1 + lenN l.
Proof. unfold lenN; cbn [length]; lia. Qed.
Lemma lenN_app {A} (l r : list A) : lenN (l ++ r) = lenN l + lenN r.
Proof. unfold lenN; rewrite app_length; lia. Qed.
Lemma lenN_map {A B} (f : A -> B) l : lenN (map f l) = lenN l.
Proof. unfold lenN; rewrite map_length; reflexivity. Qed.
Lemma lenN_0 {A} (l : list A) : lenN l = 0 -> l = [].
Proof. destruct l; [reflexivity|]. rewrite lenN_cons; lia. Qed.

Lemma lenN_takeN {A} n (l : list A) : lenN (takeN n l) = N.min n (lenN l).
Proof. rewrite takeN_firstn; unfold lenN; rewrite firstn_length; lia. Qed.
Lemma lenN_dropN {A} n (l : list A) : lenN (dropN n l) = lenN l - n.
Proof. rewrite dropN_skipn; unfold lenN; rewrite skipn_length; lia. Qed.

Lemma takeN_all {A} n (l : list A) : lenN l <= n -> takeN n l = l.
Proof. intros H; rewrite takeN_firstn; apply firstn_all2; unfold lenN in H; lia. Qed.
Lemma dropN_all {A} n (l : list A) : lenN l <= n -> dropN n l = [].
Proof. intros H; rewrite dropN_skipn; apply skipn_all2; unfold lenN in H; lia. Qed.
Lemma takeN_0 {A} (l : list A) : takeN 0 l = [].
Proof. destruct l; reflexivity. Qed.
Lemma dropN_0 {A} (l : list A) : dropN 0 l = l.
Proof. destruct l; reflexivity. Qed.

Lemma takeN_app {A} n (l r : list A) : takeN n (l ++ r) = takeN n l ++ takeN (n - lenN l) r.
Proof.
  rewrite !takeN_firstn, firstn_app. do 2 f_equal. unfold lenN; lia.
Qed.
Lemma dropN_app {A} n (l r : list A) : dropN n (l ++ r) = dropN n l ++ dropN (n - lenN l) r.
Proof.
  rewrite !dropN_skipn, skipn_app. do 2 f_equal. unfold lenN; lia.
Qed.

Lemma takeN_app_exact {A} n (l r : list A) : lenN l = n -> takeN n (l ++ r) = l.
Proof. intros <-. rewrite takeN_app, N.sub_diag, takeN_0, app_nil_r. apply takeN_all; lia. Qed.
Lemma dropN_app_exact {A} n (l r : list A) : lenN l = n -> dropN n (l ++ r) = r.
Proof. intros <-. rewrite dropN_app, N.sub_diag, dropN_0, dropN_all by lia. reflexivity. Qed.

Lemma takeN_takeN {A} n m (l : list A) : takeN n (takeN m l) = takeN (N.min n m) l.
Proof. rewrite !takeN_firstn, firstn_firstn. f_equal. lia. Qed.
Lemma dropN_dropN {A} n m (l : list A) : dropN n (dropN m l) = dropN (m + n) l.
Proof.
  rewrite !dropN_skipn. replace (N.to_nat (m + n)) with (N.to_nat n + N.to_nat m)%nat by lia.
  revert l; induction (N.to_nat m) as [|k IH]; intros l.
  - now rewrite Nat.add_0_r.
  - rewrite Nat.add_succ_r. destruct l; [now rewrite !skipn_nil|]. apply IH.
Qed.
Lemma takeN_add {A} n m (l : list A) : takeN (n + m) l = takeN n l ++ takeN m (dropN n l).
Proof.
  rewrite !takeN_firstn, dropN_skipn. rewrite N2Nat.inj_add.
  revert l; induction (N.to_nat n) as [|k IH]; intros l; [reflexivity|].
  destruct l; cbn; [now rewrite firstn_nil|]. now rewrite IH.
Qed.

Lemma be_dec_lt l : be_dec l < 256 ^ lenN l.
Proof.
  induction l as [|b r IH]; [reflexivity|].
  cbn [be_dec]. rewrite lenN_cons, N.pow_add_r. pose proof (b2n_lt b). nia.
Qed.

Lemma be_enc_length k n : length (be_enc k n) = k.
Proof. induction k as [|k IH]; cbn; congruence. Qed.

Lemma lenN_be_enc k n : lenN (be_enc k n) = N.of_nat k.
Proof. unfold lenN; now rewrite be_enc_length. Qed.

Lemma be_dec_enc k n : be_dec (be_enc k n) = n mod 256 ^ N.of_nat k.
Proof.
  induction k as [|k IH]; [cbn; now rewrite N.mod_1_r|].
  cbn [be_enc be_dec]. rewrite lenN_be_enc, IH, b2n_n2b.
  rewrite Nnat.Nat2N.inj_succ, N.pow_succ_r by lia.
  rewrite (N.mul_comm 256), N.mod_mul_r by (try apply N.pow_nonzero; lia). lia.
Qed.

Lemma be_enc_dec l : be_enc (length l) (be_dec l) = l.
Proof.
  induction l as [|b r IH]; [reflexivity|].
  cbn [length be_enc be_dec].
  assert (be_dec r < 256 ^ lenN r) as Hlt by apply be_dec_lt.
  fold (lenN r).
  assert (256 ^ lenN r <> 0) as Hnz by (apply N.pow_nonzero; lia).
  f_equal.
  - rewrite N.div_add_l by assumption. rewrite N.div_small by assumption.
    rewrite N.add_0_r. apply n2b_b2n.
  - transitivity (be_enc (length r) (be_dec r)); [|exact IH]. clear IH.
    assert (forall k x y, (N.of_nat k <= lenN r) -> be_enc k (x * 256 ^ lenN r + y) = be_enc k y) as Haux.
    { clear. induction k as [|k IH]; intros x y Hk; [reflexivity|]. cbn [be_enc].
      rewrite IH by lia. f_equal. apply b2n_inj. rewrite !b2n_n2b.
      replace (lenN r) with (N.of_nat k + 1 + (lenN r - N.of_nat k - 1)) by lia.
      rewrite !N.pow_add_r.
      replace (x * (256 ^ N.of_nat k * 256 ^ 1 * 256 ^ (lenN r - N.of_nat k - 1)) + y)
        with (256 ^ N.of_nat k * (256 * (x * 256 ^ (lenN r - N.of_nat k - 1))) + y) by (cbn [N.pow]; lia).
      rewrite (N.mul_comm (256 ^ N.of_nat k)), N.div_add_l by (apply N.pow_nonzero; lia).
      rewrite (N.mul_comm 256 (_ * _)), N.add_comm, N.mod_add by lia. reflexivity. }
    apply Haux. unfold lenN; lia.
Qed.
