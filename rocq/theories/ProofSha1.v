(** The SHA-1 code computes the compression function of FIPS 180-4. *)
From Verif Require Import Bytes Sha1 SpecSha1.
From Coq Require Import ZifyBool ZifyNat ZifyN.
Local Open Scope N_scope.
Local Arguments takeN : simpl never.
Local Arguments dropN : simpl never.
Local Arguments lenN : simpl never.
Local Arguments be_enc : simpl never.
Local Arguments be_dec : simpl never.

Lemma M32_pow : M32 = 2 ^ 32. Proof. reflexivity. Qed.

(* ------------------------------------------------------------------------------------- *)
(** * Words *)

Lemma land_mul_div x n a : a < 2 ^ n -> N.land (x * 2 ^ n) a = 0.
Proof.
  intros Ha. apply N.bits_inj. intros i. rewrite N.land_spec, N.bits_0.
  destruct (N.lt_ge_cases i n) as [Hi|Hi].
  - rewrite N.mul_pow2_bits_low by assumption. reflexivity.
  - assert (N.testbit a i = false) as ->.
    { destruct (N.eq_dec a 0) as [->|Hne]; [apply N.bits_0|].
      apply N.bits_above_log2. apply N.log2_lt_pow2 in Ha; lia. }
    apply andb_false_r.
Qed.

Lemma lor_mul_div x n a : a < 2 ^ n -> N.lor (x * 2 ^ n) a = x * 2 ^ n + a.
Proof.
  intros Ha. pose proof (land_mul_div x n a Ha) as H.
  rewrite <- N.lxor_lor by assumption. symmetry. apply N.add_nocarry_lxor. assumption.
Qed.

Lemma rol_ROTL v n : v < M32 -> n < 32 -> rol v n = ROTL n v.
Proof.
  intros Hv Hn. unfold rol, ROTL, W32. rewrite N.shiftl_mul_pow2, N.shiftr_div_pow2.
  rewrite M32_pow in *.
  assert (2 ^ 32 = 2 ^ n * 2 ^ (32 - n)) as Hp.
  { rewrite <- N.pow_add_r. f_equal. lia. }
  assert (2 ^ n <> 0) by (apply N.pow_nonzero; lia).
  assert (2 ^ (32 - n) <> 0) by (apply N.pow_nonzero; lia).
  assert ((v * 2 ^ n) mod 2 ^ 32 = (v mod 2 ^ (32 - n)) * 2 ^ n) as ->.
  { rewrite Hp. rewrite (N.mul_comm (2 ^ n)). apply N.mul_mod_distr_r; assumption. }
  apply lor_mul_div. apply N.div_lt_upper_bound; [assumption|]. lia.
Qed.

Lemma ROTL_lt n x : x < W32 -> n < 32 -> ROTL n x < W32.
Proof.
  intros Hx Hn. unfold ROTL, W32 in *.
  assert (2 ^ 32 = 2 ^ n * 2 ^ (32 - n)) as Hp.
  { rewrite <- N.pow_add_r. f_equal. lia. }
  assert (2 ^ n <> 0) by (apply N.pow_nonzero; lia).
  assert (2 ^ (32 - n) <> 0) by (apply N.pow_nonzero; lia).
  assert ((x * 2 ^ n) mod 2 ^ 32 = (x mod 2 ^ (32 - n)) * 2 ^ n) as ->.
  { rewrite Hp. rewrite (N.mul_comm (2 ^ n)). apply N.mul_mod_distr_r; assumption. }
  assert (x / 2 ^ (32 - n) < 2 ^ n) as H1 by (apply N.div_lt_upper_bound; [assumption|lia]).
  assert (x mod 2 ^ (32 - n) < 2 ^ (32 - n)) as H2 by (apply N.mod_lt; assumption).
  rewrite Hp. nia.
Qed.

Lemma bits_high x i : x < 2 ^ 32 -> 32 <= i -> N.testbit x i = false.
Proof.
  intros Hx Hi. destruct (N.eq_dec x 0) as [->|Hne]; [apply N.bits_0|].
  apply N.bits_above_log2. apply N.log2_lt_pow2 in Hx; lia.
Qed.

Lemma lt_of_bits x : (forall i, 32 <= i -> N.testbit x i = false) -> x < 2 ^ 32.
Proof.
  intros H. destruct (N.eq_dec x 0) as [->|Hne]; [reflexivity|].
  apply N.log2_lt_pow2; [lia|].
  destruct (N.lt_ge_cases (N.log2 x) 32) as [Hl|Hl]; [assumption|].
  specialize (H _ Hl). rewrite N.bit_log2 in H by assumption. discriminate.
Qed.

Lemma lxor_lt32 x y : x < W32 -> y < W32 -> N.lxor x y < W32.
Proof.
  intros Hx Hy. apply lt_of_bits. intros i Hi.
  rewrite N.lxor_spec, !bits_high by assumption. reflexivity.
Qed.

Lemma Not32_bits x i : x < W32 -> N.testbit (Not32 x) i = if i <? 32 then negb (N.testbit x i) else false.
Proof.
  intros Hx. unfold Not32, W32 in *.
  assert (N.ones 32 - x = N.lnot x 32) as E.
  { assert (N.lnot x 32 + x = N.ones 32) as Hs.
    { rewrite N.add_nocarry_lxor.
      - unfold N.lnot. rewrite N.lxor_comm, <- N.lxor_assoc, N.lxor_nilpotent, N.lxor_0_l. reflexivity.
      - apply N.bits_inj. intros j. rewrite N.land_spec, N.bits_0.
        destruct (N.lt_ge_cases j 32).
        + rewrite N.lnot_spec_low by assumption. apply andb_negb_l.
        + rewrite (bits_high x j) by assumption. apply andb_false_r. }
    lia. }
  replace (2 ^ 32 - 1 - x) with (N.ones 32 - x) by reflexivity. rewrite E.
  destruct (N.ltb_spec i 32).
  - apply N.lnot_spec_low. assumption.
  - rewrite N.lnot_spec_high by assumption. apply bits_high; assumption.
Qed.

Lemma fexpr_Ch w x y : w < W32 -> y < W32 -> N.lxor (N.land w (N.lxor x y)) y = Ch w x y.
Proof.
  intros Hw Hy. apply N.bits_inj. intros i. unfold Ch.
  rewrite !N.lxor_spec, !N.land_spec, !N.lxor_spec, Not32_bits by assumption.
  destruct (N.ltb_spec i 32).
  - destruct (N.testbit w i), (N.testbit x i), (N.testbit y i); reflexivity.
  - rewrite (bits_high w), (bits_high y) by assumption. reflexivity.
Qed.

Lemma fexpr_Parity w x y : N.lxor (N.lxor w x) y = Parity w x y.
Proof. unfold Parity. apply N.lxor_assoc. Qed.

Lemma fexpr_Maj w x y : N.lor (N.land (N.lor w x) y) (N.land w x) = Maj w x y.
Proof.
  apply N.bits_inj. intros i. unfold Maj.
  rewrite !N.lor_spec, !N.land_spec, !N.lxor_spec, !N.land_spec, N.lor_spec.
  destruct (N.testbit w i), (N.testbit x i), (N.testbit y i); reflexivity.
Qed.

Lemma add32_mod x y : add32 x y = (x + y) mod W32.
Proof. reflexivity. Qed.

Lemma add32_lt x y : add32 x y < W32.
Proof. apply N.mod_lt. discriminate. Qed.

(* ------------------------------------------------------------------------------------- *)
(** * The table is regular *)

Definition rk (t : nat) : rkind :=
  if Nat.ltb t 16 then R0 else if Nat.ltb t 20 then R1 else if Nat.ltb t 40 then R2
  else if Nat.ltb t 60 then R3 else R4.

Definition role (n : nat) : reg := nth (Nat.modulo n 5) [A; B; C; D; E] A.

Definition gen (t : nat) : instr :=
  Ln (rk t) (role (4 * t)) (role (4 * t + 1)) (role (4 * t + 2)) (role (4 * t + 3)) (role (4 * t + 4))
     (Nat.modulo t 16).

Lemma table_regular : transform_lines = map gen (seq 0 80).
Proof. vm_compute. reflexivity. Qed.

Lemma rk_f t w x y : w < W32 -> y < W32 -> fexpr (rk t) w x y = f_t t w x y.
Proof.
  intros Hw Hy. unfold rk, f_t.
  destruct (Nat.ltb_spec t 16).
  - replace (Nat.ltb t 20) with true by (symmetry; apply Nat.ltb_lt; lia). now apply fexpr_Ch.
  - destruct (Nat.ltb t 20); [now apply fexpr_Ch|].
    destruct (Nat.ltb t 40); [apply fexpr_Parity|].
    destruct (Nat.ltb t 60); [apply fexpr_Maj|apply fexpr_Parity].
Qed.

Lemma rk_K t : kexpr (rk t) = K_t t.
Proof.
  unfold rk, K_t. destruct (Nat.ltb_spec t 16).
  - replace (Nat.ltb t 20) with true by (symmetry; apply Nat.ltb_lt; lia). reflexivity.
  - destruct (Nat.ltb t 20); [reflexivity|].
    destruct (Nat.ltb t 40); [reflexivity|].
    destruct (Nat.ltb t 60); reflexivity.
Qed.

(** The five variables in the order of the standard before line [t]. *)
Definition view (t : nat) (s : regs) : N * N * N * N * N :=
  (rget (role (4 * t)) s, rget (role (4 * t + 1)) s, rget (role (4 * t + 2)) s,
   rget (role (4 * t + 3)) s, rget (role (4 * t + 4)) s).

Lemma mod5_cases t : exists q r, (t = 5 * q + r /\ r < 5)%nat.
Proof. exists (t / 5)%nat, (t mod 5)%nat. lia. Qed.

Lemma role_red q r k : role (4 * (5 * q + r) + k) = role (4 * r + k).
Proof. unfold role. f_equal. replace (4 * (5 * q + r) + k)%nat with (4 * r + k + (4 * q) * 5)%nat by lia. apply Nat.mod_add. lia. Qed.

Lemma role_red0 q r : role (4 * (5 * q + r)) = role (4 * r).
Proof. rewrite <- (Nat.add_0_r (4 * (5 * q + r))), <- (Nat.add_0_r (4 * r)). apply role_red. Qed.

Lemma role_next q r k : role (4 * (S (5 * q + r)) + k) = role (4 * r + 4 + k).
Proof. replace (4 * S (5 * q + r) + k)%nat with (4 * (5 * q + r) + (4 + k))%nat by lia. rewrite role_red. f_equal. lia. Qed.

Lemma role_next0 q r : role (4 * (S (5 * q + r))) = role (4 * r + 4).
Proof. rewrite <- (Nat.add_0_r (4 * S (5 * q + r))). rewrite role_next, Nat.add_0_r. reflexivity. Qed.

Lemma view_step t k s blk' i :
  let '(a, b, c, d, e) := view t s in
  view (S t) (fst (exec (Ln k (role (4 * t)) (role (4 * t + 1)) (role (4 * t + 2)) (role (4 * t + 3)) (role (4 * t + 4)) i)
                        (s, blk'))) =
  (add32 e (add32 (add32 (add32 (fexpr k b c d) (bget (upd_block k blk' i) i)) (kexpr k)) (rol a 5)),
   a, rol b 30, c, d).
Proof.
  destruct (mod5_cases t) as (q & r & -> & Hr).
  unfold view. rewrite !role_red, !role_red0, !role_next, !role_next0.
  destruct s as [sa sb sc sd se].
  destruct r as [|[|[|[|[|r]]]]]; [..|lia]; reflexivity.
Qed.

(* ------------------------------------------------------------------------------------- *)
(** * The circular block *)

Lemma bset_length b i v : length (bset b i v) = length b.
Proof. revert i; induction b as [|x b IH]; intros [|i]; cbn; auto. Qed.

Lemma bget_bset_same b i v : (i < length b)%nat -> bget (bset b i v) i = v.
Proof. revert i; induction b as [|x b IH]; intros [|i] H; cbn in *; try lia; auto. apply IH. lia. Qed.

Lemma bget_bset_other b i j v : i <> j -> bget (bset b i v) j = bget b j.
Proof.
  revert i j; induction b as [|x b IH]; intros [|i] [|j] H; cbn; auto; try lia.
  apply IH. lia.
Qed.

Lemma schedule_length n w : length (schedule n w) = (length w + n)%nat.
Proof.
  revert w; induction n as [|n IH]; intros w; cbn [schedule]; [lia|].
  rewrite IH, app_length. cbn. lia.
Qed.

Lemma schedule_prefix n w i : (i < length w)%nat -> nth i (schedule n w) 0 = nth i w 0.
Proof.
  revert w; induction n as [|n IH]; intros w Hi; cbn [schedule]; [reflexivity|].
  rewrite IH by (rewrite app_length; lia). apply app_nth1. assumption.
Qed.

Lemma schedule_rec n w t : (length w <= t < length w + n)%nat -> (16 <= length w)%nat ->
  let W i := nth i (schedule n w) 0 in
  W t = ROTL 1 (N.lxor (W (t - 3)%nat) (N.lxor (W (t - 8)%nat) (N.lxor (W (t - 14)%nat) (W (t - 16)%nat)))).
Proof.
  revert w; induction n as [|n IH]; intros w Ht Hw; [lia|]. cbn [schedule].
  set (w' := w ++ _).
  assert (length w' = S (length w)) as Hl by (unfold w'; rewrite app_length; cbn; lia).
  destruct (Nat.eq_dec t (length w)) as [->|Hne].
  - cbn zeta. rewrite !schedule_prefix by lia.
    unfold w' at 1. rewrite app_nth2, Nat.sub_diag by lia. cbn [nth].
    unfold w'. rewrite !app_nth1 by lia. reflexivity.
  - apply IH; lia.
Qed.

Lemma schedule_lt n w : Forall (fun x => x < W32) w -> Forall (fun x => x < W32) (schedule n w).
Proof.
  revert w; induction n as [|n IH]; intros w Hw; cbn [schedule]; [assumption|].
  apply IH. apply Forall_app. split; [assumption|]. constructor; [|constructor].
  assert (forall i, nth i w 0 < W32) as Hn.
  { intros i. destruct (Nat.lt_ge_cases i (length w)).
    - rewrite Forall_forall in Hw. apply Hw. apply nth_In. assumption.
    - rewrite nth_overflow by assumption. reflexivity. }
  apply ROTL_lt; [|reflexivity]. repeat apply lxor_lt32; apply Hn.
Qed.

(** What the block holds before line [t]. *)
Definition blk_inv (W : nat -> N) (t : nat) (b : list N) : Prop :=
  length b = 16%nat /\
  forall s, (s < Nat.max 16 t -> Nat.max 16 t <= s + 16 -> bget b (Nat.modulo s 16) = W s)%nat.

Lemma land15 n : Nat.land n 15 = Nat.modulo n 16.
Proof. change 15%nat with (Nat.ones 4). rewrite Nat.land_ones. reflexivity. Qed.

Lemma mod16_ne s t : (s < t -> t < s + 16 -> Nat.modulo t 16 <> Nat.modulo s 16)%nat.
Proof.
  intros H1 H2 E.
  pose proof (Nat.div_mod t 16). pose proof (Nat.div_mod s 16). lia.
Qed.

Lemma blk_step W t b :
  (t < 80)%nat ->
  (forall i, W i < W32) ->
  (forall t, (16 <= t < 80)%nat ->
     W t = ROTL 1 (N.lxor (W (t - 3)%nat) (N.lxor (W (t - 8)%nat) (N.lxor (W (t - 14)%nat) (W (t - 16)%nat))))) ->
  blk_inv W t b ->
  let b' := upd_block (rk t) b (Nat.modulo t 16) in
  blk_inv W (S t) b' /\ bget b' (Nat.modulo t 16) = W t.
Proof.
  intros Ht HW Hrec [Hlen Hb].
  unfold rk. destruct (Nat.ltb_spec t 16) as [Hs|Hs].
  - cbn [upd_block]. split.
    + split; [assumption|]. intros s H1 H2. apply Hb; lia.
    + apply Hb; lia.
  - assert (upd_block (if Nat.ltb t 20 then R1 else if Nat.ltb t 40 then R2 else if Nat.ltb t 60 then R3 else R4)
              b (Nat.modulo t 16) = bset b (Nat.modulo t 16) (W t)) as E.
    { assert (blk b (Nat.modulo t 16) = W t) as Eb.
      { unfold blk. rewrite !land15.
        replace (Nat.modulo (Nat.modulo t 16 + 13) 16) with (Nat.modulo (t - 3) 16) by lia.
        replace (Nat.modulo (Nat.modulo t 16 + 8) 16) with (Nat.modulo (t - 8) 16) by lia.
        replace (Nat.modulo (Nat.modulo t 16 + 2) 16) with (Nat.modulo (t - 14) 16) by lia.
        replace (Nat.modulo t 16) with (Nat.modulo (t - 16) 16) at 1 by lia.
        rewrite !Hb by lia.
        rewrite rol_ROTL; [|repeat apply lxor_lt32; apply HW|reflexivity].
        rewrite (Hrec t) by lia. f_equal. rewrite !N.lxor_assoc. reflexivity. }
      destruct (Nat.ltb t 20); [|destruct (Nat.ltb t 40); [|destruct (Nat.ltb t 60)]]; cbn [upd_block]; now rewrite Eb. }
    cbv zeta. rewrite E. assert (Nat.modulo t 16 < 16)%nat by lia. split.
    + split; [rewrite bset_length; assumption|]. intros s H1 H2.
      destruct (Nat.eq_dec s t) as [->|Hne].
      * apply bget_bset_same. lia.
      * rewrite bget_bset_other by (apply mod16_ne; lia). apply Hb; lia.
    + apply bget_bset_same. lia.
Qed.

(* ------------------------------------------------------------------------------------- *)
(** * All eighty lines *)

Definition regs_lt (s : regs) : Prop := ra s < W32 /\ rb s < W32 /\ rc s < W32 /\ rd s < W32 /\ re s < W32.

Lemma rget_lt r s : regs_lt s -> rget r s < W32.
Proof. intros (?&?&?&?&?). destruct r; assumption. Qed.

Lemma rset_lt r v s : v < W32 -> regs_lt s -> regs_lt (rset r v s).
Proof. intros Hv (?&?&?&?&?). destruct r; unfold regs_lt; cbn [ra rb rc rd re rset]; repeat split; assumption. Qed.

Lemma exec_lt ins s b : regs_lt s -> regs_lt (fst (exec ins (s, b))).
Proof.
  intros Hs. destruct ins as [k v w x y z i]. cbn [exec fst snd].
  apply rset_lt; [|apply rset_lt; [apply add32_lt|assumption]].
  assert (forall q, q < W32 -> rol q 30 < W32) as Hq.
  { intros q Hq. rewrite rol_ROTL by (assumption || reflexivity). now apply ROTL_lt. }
  apply Hq. apply rget_lt. apply rset_lt; [apply add32_lt|assumption].
Qed.

Lemma T_eq a f e K w :
  add32 e (add32 (add32 (add32 f w) K) a) = (a + f + e + K + w) mod W32.
Proof.
  assert (forall u z, add32 (u mod W32) z = (u + z) mod W32) as Hl.
  { intros u z. rewrite add32_mod. apply N.add_mod_idemp_l. discriminate. }
  rewrite (add32_mod f w), !Hl, add32_mod, N.add_mod_idemp_r by discriminate.
  replace (e + (f + w + K + a)) with (a + f + e + K + w) by lia. reflexivity.
Qed.

Lemma execs_step W Ws t s b :
  (forall i, W i = nth i Ws 0) ->
  (forall i, W i < W32) ->
  (forall t, (16 <= t < 80)%nat ->
     W t = ROTL 1 (N.lxor (W (t - 3)%nat) (N.lxor (W (t - 8)%nat) (N.lxor (W (t - 14)%nat) (W (t - 16)%nat))))) ->
  (t < 80)%nat -> regs_lt s -> blk_inv W t b ->
  view (S t) (fst (exec (gen t) (s, b))) = round Ws (view t s) t /\
  regs_lt (fst (exec (gen t) (s, b))) /\
  blk_inv W (S t) (snd (exec (gen t) (s, b))).
Proof.
  intros HWs HW Hrec Ht Hs Hb.
  destruct (blk_step W t b Ht HW Hrec Hb) as [Hb' Hi].
  split; [|split].
  - pose proof (view_step t (rk t) s b (Nat.modulo t 16)) as Hv. fold (gen t) in Hv.
    destruct (view t s) as [[[[a b0] c] d] e] eqn:Ev. rewrite Hv. unfold round.
    rewrite Hi, T_eq, rk_K, HWs.
    unfold view in Ev.
    assert (a < W32 /\ b0 < W32 /\ d < W32) as (Ha & Hb0 & Hd).
    { split; [|split]; injection Ev as <- <- <- <- <-; apply rget_lt; assumption. }
    rewrite rk_f by assumption.
    rewrite !rol_ROTL by (assumption || reflexivity). reflexivity.
  - apply exec_lt. assumption.
  - assumption.
Qed.

Lemma execs_rounds W Ws n : forall t s b,
  (forall i, W i = nth i Ws 0) ->
  (forall i, W i < W32) ->
  (forall t, (16 <= t < 80)%nat ->
     W t = ROTL 1 (N.lxor (W (t - 3)%nat) (N.lxor (W (t - 8)%nat) (N.lxor (W (t - 14)%nat) (W (t - 16)%nat))))) ->
  (t + n <= 80)%nat -> regs_lt s -> blk_inv W t b ->
  view (t + n) (fst (execs (map gen (seq t n)) (s, b))) = fold_left (round Ws) (seq t n) (view t s) /\
  regs_lt (fst (execs (map gen (seq t n)) (s, b))).
Proof.
  induction n as [|n IH]; intros t s b HWs HW Hrec Ht Hs Hb.
  - rewrite Nat.add_0_r. cbn. auto.
  - cbn [seq map execs fold_left].
    destruct (execs_step W Ws t s b HWs HW Hrec ltac:(lia) Hs Hb) as (Hv & Hl & Hb').
    destruct (exec (gen t) (s, b)) as [s' b'] eqn:E. cbn [fst snd] in *.
    rewrite <- Hv. replace (t + S n)%nat with (S t + n)%nat by lia.
    apply IH; auto. lia.
Qed.

Definition to5 (l : list N) : N * N * N * N * N :=
  (nth 0 l 0, nth 1 l 0, nth 2 l 0, nth 3 l 0, nth 4 l 0).
Definition of5 (v : N * N * N * N * N) : list N :=
  let '(a, b, c, d, e) := v in [a; b; c; d; e].
Definition lt5 (v : N * N * N * N * N) : Prop :=
  let '(a, b, c, d, e) := v in a < W32 /\ b < W32 /\ c < W32 /\ d < W32 /\ e < W32.

(** Sixteen words of a block. *)
Definition words (b : bytes) : list N := map (word b) (seq 0 16).

Lemma word_lt b i : word b i < W32.
Proof.
  unfold word. eapply N.lt_le_trans; [apply be_dec_lt|].
  rewrite lenN_takeN. change W32 with (256 ^ 4). apply N.pow_le_mono_r; lia.
Qed.

Lemma words_lt b : Forall (fun x => x < W32) (words b).
Proof. unfold words. apply Forall_forall. intros x Hx. apply in_map_iff in Hx as (i & <- & _). apply word_lt. Qed.

Lemma message_schedule_facts b :
  let W i := nth i (message_schedule b) 0 in
  (forall i, W i < W32) /\
  (forall s, (s < 16)%nat -> W s = nth s (words b) 0) /\
  (forall t, (16 <= t < 80)%nat ->
     W t = ROTL 1 (N.lxor (W (t - 3)%nat) (N.lxor (W (t - 8)%nat) (N.lxor (W (t - 14)%nat) (W (t - 16)%nat))))).
Proof.
  unfold message_schedule. fold (words b).
  assert (length (words b) = 16%nat) as Hl by (unfold words; rewrite map_length, seq_length; reflexivity).
  pose proof (words_lt b) as Hw. remember (words b) as w eqn:Ew. clear Ew. remember 64%nat as n eqn:En.
  split; [|split].
  - intros i. pose proof (schedule_lt n w Hw) as HF.
    destruct (Nat.lt_ge_cases i (length (schedule n w))).
    + rewrite Forall_forall in HF. apply HF. now apply nth_In.
    + rewrite nth_overflow by assumption. reflexivity.
  - intros s Hs. apply schedule_prefix. lia.
  - intros t Ht. apply schedule_rec; lia.
Qed.

Lemma finish_block l Ws h0 h1 h2 h3 h4 r :
  (ra r, rb r, rc r, rd r, re r) = fold_left (round Ws) l (h0, h1, h2, h3, h4) ->
  [add32 h0 (ra r); add32 h1 (rb r); add32 h2 (rc r); add32 h3 (rd r); add32 h4 (re r)] =
  of5 (let '(a, b', c, d, e) := fold_left (round Ws) l (h0, h1, h2, h3, h4) in
       ((a + h0) mod W32, (b' + h1) mod W32, (c + h2) mod W32, (d + h3) mod W32, (e + h4) mod W32)).
Proof.
  intros <-. cbn [of5]. rewrite !add32_mod.
  rewrite (N.add_comm h0), (N.add_comm h1), (N.add_comm h2), (N.add_comm h3), (N.add_comm h4).
  reflexivity.
Qed.

Lemma view_80 r : view (0 + 80) r = (ra r, rb r, rc r, rd r, re r).
Proof. reflexivity. Qed.
Lemma view_0 h0 h1 h2 h3 h4 : view 0 (Regs h0 h1 h2 h3 h4) = (h0, h1, h2, h3, h4).
Proof. reflexivity. Qed.

Lemma transform_run Ws ws h0 h1 h2 h3 h4 l :
  l = seq 0 80 ->
  lt5 (h0, h1, h2, h3, h4) ->
  length ws = 16%nat ->
  (forall i, nth i Ws 0 < W32) ->
  (forall s, (s < 16)%nat -> nth s Ws 0 = nth s ws 0) ->
  (forall t, (16 <= t < 80)%nat ->
     nth t Ws 0 = ROTL 1 (N.lxor (nth (t - 3) Ws 0) (N.lxor (nth (t - 8) Ws 0)
                    (N.lxor (nth (t - 14) Ws 0) (nth (t - 16) Ws 0))))) ->
  let r := fst (execs (map gen l) (Regs h0 h1 h2 h3 h4, ws)) in
  (ra r, rb r, rc r, rd r, re r) = fold_left (round Ws) l (h0, h1, h2, h3, h4).
Proof.
  intros El HH Hl HW Hp Hrec r.
  assert (blk_inv (fun i => nth i Ws 0) 0 ws) as Hb.
  { split; [assumption|]. intros s H1 H2. cbn [Nat.max] in *.
    rewrite Nat.mod_small by lia. symmetry. apply Hp. lia. }
  destruct (execs_rounds (fun i => nth i Ws 0) Ws 80 0 (Regs h0 h1 h2 h3 h4) ws
              (fun i => eq_refl) HW Hrec (le_n 80) HH Hb) as [Hv _].
  rewrite <- El in Hv. rewrite view_80, view_0 in Hv. exact Hv.
Qed.

Lemma transform_digest_compress H b :
  lt5 H -> transform_digest (of5 H) (words b) = of5 (compress H b).
Proof.
  intros HH. destruct H as [[[[h0 h1] h2] h3] h4].
  destruct (message_schedule_facts b) as (HW & Hp & Hrec).
  assert (length (words b) = 16%nat) as Hl by (unfold words; rewrite map_length, seq_length; reflexivity).
  unfold transform_digest, compress. cbn [of5 nth]. rewrite table_regular.
  generalize dependent (message_schedule b). intros Ws HW Hp Hrec.
  assert (exists l, l = seq 0 80) as [l El] by eauto. rewrite <- El.
  apply finish_block. apply transform_run; assumption.
Qed.

Lemma compress_lt H b : lt5 (compress H b).
Proof.
  unfold compress. destruct (fold_left _ _ _) as [[[[a b'] c] d] e]. destruct H as [[[[h0 h1] h2] h3] h4].
  repeat split; apply N.mod_lt; discriminate.
Qed.

Lemma of5_to5 v : to5 (of5 v) = v.
Proof. destruct v as [[[[a b] c] d] e]. reflexivity. Qed.
