(** C32, C33: the SHA-1 class computes FIPS 180-4 SHA-1 of the concatenation of all updates, from any
    initial memory and after any history of earlier digests. *)
From Verif Require Import Bytes Sha1 SpecSha1 ProofSha1.
From Coq Require Import ZifyBool ZifyNat ZifyN.
Local Open Scope N_scope.
Local Arguments takeN : simpl never.
Local Arguments dropN : simpl never.
Local Arguments lenN : simpl never.
Local Arguments be_enc : simpl never.
Local Arguments be_dec : simpl never.
Local Arguments N.mul : simpl never.
Local Arguments N.add : simpl never.
Local Arguments N.pow : simpl never.
Local Arguments N.sub : simpl never.

Lemma word_S b0 b1 b2 b3 r i : word (b0 :: b1 :: b2 :: b3 :: r) (S i) = word r i.
Proof.
  unfold word. f_equal. f_equal.
  replace (4 * N.of_nat (S i)) with (4 + 4 * N.of_nat i) by lia.
  rewrite <- dropN_dropN. f_equal. rewrite dropN_skipn. reflexivity.
Qed.

Lemma words_be_map n : forall b, length b = (4 * n)%nat -> words_be b = map (word b) (seq 0 n).
Proof.
  induction n as [|n IH]; intros b Hb.
  - destruct b; [reflexivity|cbn in Hb; lia].
  - destruct b as [|b0 [|b1 [|b2 [|b3 r]]]]; cbn [length] in Hb; try lia.
    cbn [words_be seq map]. f_equal.
    { unfold word. rewrite dropN_skipn, takeN_firstn. reflexivity. }
    rewrite IH by lia. rewrite <- seq_shift, map_map. apply map_ext. intros i. symmetry. apply word_S.
Qed.

Lemma words_be_words b : lenN b = 64 -> words_be b = words b.
Proof. intros H. apply (words_be_map 16). unfold lenN in H. lia. Qed.

Lemma buffer_to_block_64 b : lenN b = 64 -> buffer_to_block b = Some (words b).
Proof.
  intros H. unfold buffer_to_block. rewrite H. cbn [N.ltb N.compare Pos.compare Pos.compare_cont N.eqb Pos.eqb].
  rewrite takeN_all by lia. now rewrite words_be_words.
Qed.

(* ------------------------------------------------------------------------------------- *)
(** * Absorbing *)

(** The object has absorbed [m]: [bl] are the blocks already compressed. *)
Definition absorbed (m : bytes) (bl : list bytes) (st : sha) : Prop :=
  m = concat bl ++ s_buffer st /\
  Forall (fun b : bytes => lenN b = 64) bl /\
  lenN (s_buffer st) < 64 /\
  s_digest st = of5 (fold_left compress bl H_init) /\
  s_transforms st = lenN bl mod 2 ^ 64.

Lemma H_init_lt : lt5 H_init. Proof. repeat split. Qed.

Lemma fold_compress_lt bl : forall H, lt5 H -> lt5 (fold_left compress bl H).
Proof. induction bl as [|b bl IH]; intros H HH; cbn [fold_left]; auto using compress_lt. Qed.

Lemma sha_reset_any s s' : sha_reset s = sha_reset s'.
Proof. destruct s, s'. reflexivity. Qed.

Lemma absorbed_reset s : absorbed [] [] (sha_reset s).
Proof. destruct s. cbn. repeat split; auto. Qed.

Lemma transform_absorb bl st b :
  s_digest st = of5 (fold_left compress bl H_init) ->
  s_transforms st = lenN bl mod 2 ^ 64 ->
  s_digest (transform (words b) st) = of5 (fold_left compress (bl ++ [b]) H_init) /\
  s_transforms (transform (words b) st) = lenN (bl ++ [b]) mod 2 ^ 64.
Proof.
  intros Hd Ht. unfold transform. cbn [s_digest s_transforms]. split.
  - rewrite Hd, fold_left_app. apply transform_digest_compress. apply fold_compress_lt, H_init_lt.
  - rewrite Ht, lenN_app. apply N.add_mod_idemp_l. discriminate.
Qed.

Lemma update_loop_ok fuel : forall s m bl st,
  (length s < fuel)%nat -> absorbed m bl st ->
  exists st' bl', update_loop fuel s st = Some st' /\ absorbed (m ++ s) bl' st'.
Proof.
  induction fuel as [|fuel IH]; intros s m bl st Hf (Hm & Hbl & Hlt & Hd & Ht); [lia|].
  cbn [update_loop s_buffer]. set (room := 64 - lenN (s_buffer st)).
  set (rs := if lenN s <? room then lenN s else room).
  assert (lenN (takeN rs s) = rs) as Hrs.
  { rewrite lenN_takeN. unfold rs. destruct (N.ltb_spec (lenN s) room); lia. }
  rewrite lenN_app, Hrs.
  destruct (N.eqb_spec (lenN (s_buffer st) + rs) 64) as [E|E]; cbn [negb].
  - assert (rs = room) as Er by (unfold room; lia).
    assert (lenN (s_buffer st ++ takeN rs s) = 64) as Hb by (rewrite lenN_app; lia).
    rewrite buffer_to_block_64 by assumption.
    set (b := s_buffer st ++ takeN rs s) in *.
    destruct (transform_absorb bl (Sha (s_digest st) b (s_transforms st)) b Hd Ht) as [Hd' Ht'].
    set (st2 := transform (words b) _) in *.
    assert (lenN s = rs + lenN (dropN rs s)) as Hls.
    { rewrite <- (take_drop rs s) at 1. rewrite lenN_app. lia. }
    destruct (IH (dropN rs s) (m ++ takeN rs s) (bl ++ [b]) (Sha (s_digest st2) [] (s_transforms st2)))
      as (st' & bl' & Hu & Ha).
    + unfold lenN in Hls. assert (0 < rs) by (unfold room in Er; lia). lia.
    + unfold absorbed. cbn [s_buffer s_digest s_transforms].
      split; [|split; [|split; [|split]]]; auto.
      * rewrite Hm, concat_app. cbn [concat]. rewrite !app_nil_r, <- app_assoc. reflexivity.
      * apply Forall_app. auto.
      * rewrite lenN_nil. lia.
    + exists st', bl'. split; [assumption|].
      rewrite <- app_assoc, take_drop in Ha. assumption.
  - assert (rs = lenN s) as Er.
    { unfold rs in *. destruct (N.ltb_spec (lenN s) room); unfold room in *; lia. }
    eexists _, bl. split; [reflexivity|].
    unfold absorbed. cbn [s_buffer s_digest s_transforms].
    rewrite Er, takeN_all by lia.
    split; [|split; [|split; [|split]]]; auto.
    + rewrite Hm, app_assoc. reflexivity.
    + rewrite lenN_app. unfold rs, room in *. destruct (N.ltb_spec (lenN s) (64 - lenN (s_buffer st))); lia.
Qed.

Lemma sha_update_ok s m bl st :
  absorbed m bl st ->
  exists st' bl', sha_update s st = Some st' /\ absorbed (m ++ s) bl' st'.
Proof. apply update_loop_ok. lia. Qed.

(* ------------------------------------------------------------------------------------- *)
(** * Padding *)

Lemma blocks_concat bl : Forall (fun b : bytes => lenN b = 64) bl -> blocks (length bl) (concat bl) = bl.
Proof.
  induction 1 as [|b bl Hb Hbl IH]; [reflexivity|].
  cbn [length concat blocks]. rewrite takeN_app_exact, dropN_app_exact by assumption. now rewrite IH.
Qed.

Lemma concat_length64 bl : Forall (fun b : bytes => lenN b = 64) bl -> lenN (concat bl) = 64 * lenN bl.
Proof.
  induction 1 as [|b bl Hb Hbl IH]; [reflexivity|].
  cbn [concat]. rewrite lenN_app, lenN_cons. lia.
Qed.

Lemma SHA1_blocks m bl :
  Forall (fun b : bytes => lenN b = 64) bl -> pad m = concat bl ->
  SHA1 m = flat_map (be_enc 4) (of5 (fold_left compress bl H_init)).
Proof.
  intros Hbl Hp. unfold SHA1. rewrite Hp.
  assert (Nat.div (length (concat bl)) 64 = length bl) as ->.
  { pose proof (concat_length64 _ Hbl) as H. unfold lenN in H.
    replace (length (concat bl)) with (length bl * 64)%nat by lia. apply Nat.div_mul. lia. }
  rewrite blocks_concat by assumption.
  destruct (fold_left compress bl H_init) as [[[[h0 h1] h2] h3] h4].
  cbn [of5 flat_map]. rewrite app_nil_r. reflexivity.
Qed.

Lemma be_enc8_split n : n < 2 ^ 64 ->
  words_be (be_enc 8 n) = [ (N.shiftr n 32) mod M32; n mod M32 ].
Proof.
  intros Hn.
  assert (be_enc 8 n = be_enc 4 (n / 2 ^ 32) ++ be_enc 4 n) as ->.
  { unfold be_enc. cbn [app]. repeat rewrite N.div_div by discriminate. reflexivity. }
  rewrite N.shiftr_div_pow2.
  assert (forall k l, words_be (be_enc 4 k ++ l) = (k mod M32) :: words_be l) as H.
  { intros k l. change (be_enc 4 k ++ l) with
      (n2b (k / 256 ^ 3) :: n2b (k / 256 ^ 2) :: n2b (k / 256 ^ 1) :: n2b (k / 256 ^ 0) :: l).
    cbn [words_be]. f_equal. apply (be_dec_enc 4). }
  rewrite H. rewrite <- (app_nil_r (be_enc 4 n)), H. reflexivity.
Qed.

Lemma words_be_app n : forall p q, length p = (4 * n)%nat -> words_be (p ++ q) = words_be p ++ words_be q.
Proof.
  induction n as [|n IH]; intros p q Hp.
  - destruct p; [reflexivity|cbn in Hp; lia].
  - destruct p as [|b0 [|b1 [|b2 [|b3 r]]]]; cbn [length] in Hp; try lia.
    cbn [app words_be]. f_equal. apply IH. lia.
Qed.

Lemma words_be_zeros n : words_be (repeat x00 (4 * n)) = repeat 0 n.
Proof.
  induction n as [|n IH]; [reflexivity|].
  replace (4 * S n)%nat with (S (S (S (S (4 * n))))) by lia. cbn [repeat words_be]. now rewrite IH.
Qed.

Lemma words_be_length n : forall p, length p = (4 * n)%nat -> length (words_be p) = n.
Proof.
  induction n as [|n IH]; intros p Hp.
  - destruct p; [reflexivity|cbn in Hp; lia].
  - destruct p as [|b0 [|b1 [|b2 [|b3 r]]]]; cbn [length] in Hp; try lia.
    cbn [words_be length]. f_equal. apply IH. lia.
Qed.

Lemma set_length_words (p : list N) x y u v : length p = 14%nat ->
  bset (bset (p ++ [x; y]) 15 u) 14 v = p ++ [v; u].
Proof. intros H. do 15 (destruct p as [|? p]; try discriminate). reflexivity. Qed.

(** The last block(s) the code compresses are those of the standard's padding. *)
Lemma sha_final_ok m bl st :
  absorbed m bl st -> lenN m < 2 ^ 61 ->
  exists st', sha_final st = Some (SHA1 m, st') /\ st' = sha_reset st.
Proof.
  intros (Hm & Hbl & Hlt & Hd & Ht) Hsz.
  pose proof (concat_length64 _ Hbl) as Hc.
  assert (lenN m = 64 * lenN bl + lenN (s_buffer st)) as Hlm by (rewrite Hm, lenN_app; lia).
  assert (lenN bl < 2 ^ 55) as Hlb by lia.
  unfold sha_final. set (buf := s_buffer st) in *.
  set (total := ((s_transforms st * 64 + lenN buf) * 8) mod 2 ^ 64).
  assert (total = 8 * lenN m) as Htot.
  { unfold total. rewrite Ht. rewrite (N.mod_small (lenN bl)) by lia. rewrite N.mod_small by lia. lia. }
  set (buf2 := (buf ++ [x80]) ++ repeat x00 (N.to_nat (64 - lenN (buf ++ [x80])))).
  assert (lenN (buf ++ [x80]) = lenN buf + 1) as Hb1 by (rewrite lenN_app; reflexivity).
  assert (lenN buf2 = 64) as Hb2.
  { unfold buf2. rewrite lenN_app, Hb1. unfold lenN at 2. rewrite repeat_length. lia. }
  rewrite buffer_to_block_64 by assumption. rewrite Hb1.
  set (st1 := Sha (s_digest st) buf2 (s_transforms st)).
  assert (s_digest st1 = of5 (fold_left compress bl H_init)) as Hd1 by exact Hd.
  assert (s_transforms st1 = lenN bl mod 2 ^ 64) as Ht1 by exact Ht.
  destruct (N.ltb_spec 56 (lenN buf + 1)) as [Hbig|Hsmall].
  - (* two blocks *)
    set (last := repeat x00 56 ++ be_enc 8 (8 * lenN m)).
    assert (lenN last = 64) as Hlast.
    { unfold last. rewrite lenN_app, lenN_be_enc. unfold lenN. rewrite repeat_length. reflexivity. }
    destruct (transform_absorb bl st1 buf2 Hd1 Ht1) as [Hd2 Ht2].
    assert (bset (bset (repeat 0 14 ++ skipn 14 (words buf2)) 15 (total mod M32)) 14 (N.shiftr total 32 mod M32)
            = words last) as ->.
    { assert (exists x y, skipn 14 (words buf2) = [x; y]) as (x & y & ->).
      { exists (word buf2 14), (word buf2 15). reflexivity. }
      rewrite set_length_words by apply repeat_length.
      rewrite <- words_be_words by assumption. unfold last.
      rewrite (words_be_app 14) by apply repeat_length.
      change 56%nat with (4 * 14)%nat.
      rewrite (words_be_zeros 14), be_enc8_split by lia. rewrite Htot. reflexivity. }
    destruct (transform_absorb (bl ++ [buf2]) (transform (words buf2) st1) last Hd2 Ht2) as [Hd3 Ht3].
    eexists. split; [|reflexivity]. rewrite Hd3. f_equal. f_equal.
    + symmetry. apply SHA1_blocks.
      * apply Forall_app. split; [apply Forall_app; auto|auto].
      * rewrite !concat_app. cbn [concat]. rewrite !app_nil_r. unfold pad, last, buf2. rewrite Hm at 1.
        assert (pad_zeros (lenN m) = (64 - lenN (buf ++ [x80])) + 56) as ->.
        { unfold pad_zeros. rewrite Hlm, Hb1.
          assert ((64 * lenN bl + lenN buf) mod 64 = lenN buf) as ->.
          { rewrite (N.mul_comm 64), N.add_comm, N.mod_add, N.mod_small by lia. reflexivity. }
          replace (55 + 64 - lenN buf) with (64 - (lenN buf + 1) + 56 + 0 * 64) by lia.
          rewrite N.mod_add by lia. apply N.mod_small. lia. }
        rewrite N2Nat.inj_add, repeat_app. rewrite <- !app_assoc. reflexivity.
    + apply sha_reset_any.
  - (* one block *)
    set (last := buf ++ [x80] ++ repeat x00 (N.to_nat (56 - lenN (buf ++ [x80]))) ++ be_enc 8 (8 * lenN m)).
    assert (lenN last = 64) as Hlast.
    { unfold last. rewrite Hb1, !lenN_app, lenN_be_enc. unfold lenN at 2 3.
      rewrite repeat_length. cbn [length]. lia. }
    assert (bset (bset (words buf2) 15 (total mod M32)) 14 (N.shiftr total 32 mod M32) = words last) as ->.
    { rewrite <- !words_be_words by assumption. unfold last, buf2.
      set (p := (buf ++ [x80]) ++ repeat x00 (N.to_nat (56 - lenN (buf ++ [x80])))).
      assert (length p = (4 * 14)%nat) as Hp.
      { assert (lenN p = 56) as Hp.
        { unfold p. rewrite lenN_app, Hb1. unfold lenN at 2. rewrite repeat_length. lia. }
        unfold lenN in Hp. lia. }
      assert ((buf ++ [x80]) ++ repeat x00 (N.to_nat (64 - lenN (buf ++ [x80]))) = p ++ repeat x00 (4 * 2)) as ->.
      { unfold p. rewrite <- (app_assoc (buf ++ [x80])), <- repeat_app. do 2 f_equal. lia. }
      assert (buf ++ [x80] ++ repeat x00 (N.to_nat (56 - lenN (buf ++ [x80]))) ++ be_enc 8 (8 * lenN m)
              = p ++ be_enc 8 (8 * lenN m)) as ->.
      { unfold p. rewrite <- !app_assoc. reflexivity. }
      rewrite !(words_be_app 14) by assumption.
      rewrite (words_be_zeros 2), be_enc8_split by lia. cbn [repeat].
      rewrite set_length_words by (apply (words_be_length 14); assumption).
      rewrite Htot. reflexivity. }
    destruct (transform_absorb bl st1 last Hd1 Ht1) as [Hd3 Ht3].
    eexists. split; [|reflexivity]. rewrite Hd3. f_equal. f_equal.
    + symmetry. apply SHA1_blocks.
      * apply Forall_app. auto.
      * rewrite !concat_app. cbn [concat]. rewrite !app_nil_r. unfold pad, last. rewrite Hm at 1.
        assert (pad_zeros (lenN m) = 56 - lenN (buf ++ [x80])) as ->.
        { unfold pad_zeros. rewrite Hlm, Hb1.
          assert ((64 * lenN bl + lenN buf) mod 64 = lenN buf) as ->.
          { rewrite (N.mul_comm 64), N.add_comm, N.mod_add, N.mod_small by lia. reflexivity. }
          replace (55 + 64 - lenN buf) with (56 - (lenN buf + 1) + 1 * 64) by lia.
          rewrite N.mod_add by lia. apply N.mod_small. lia. }
        rewrite <- !app_assoc. reflexivity.
    + apply sha_reset_any.
Qed.

(* ------------------------------------------------------------------------------------- *)
(** * The properties *)

(** A use of a SHA1 object: [Update s] is update(s) (or update of a stream with content [s]), [Final] is
    finalBinary(). *)
Inductive sha_call := Update (s : bytes) | Final.

(** The digests a sequence of calls returns, in order, and the object afterwards. *)
Fixpoint sha_calls (l : list sha_call) (st : sha) : option (list bytes * sha) :=
  match l with
  | [] => Some ([], st)
  | Update s :: r => match sha_update s st with Some st' => sha_calls r st' | None => None end
  | Final :: r =>
      match sha_final st with
      | Some (d, st') => match sha_calls r st' with Some (ds, st'') => Some (d :: ds, st'') | None => None end
      | None => None
      end
  end.

(** What FIPS 180-4 says the calls return: each Final gives the digest of the bytes since the last Final. *)
Fixpoint fips_digests (pending : bytes) (l : list sha_call) : list bytes :=
  match l with
  | [] => []
  | Update s :: r => fips_digests (pending ++ s) r
  | Final :: r => SHA1 pending :: fips_digests [] r
  end.

(** Every message of the history is shorter than 2^61 bytes (2^64 bits, the limit of the standard). *)
Fixpoint within_limit (pending : bytes) (l : list sha_call) : Prop :=
  match l with
  | [] => True
  | Update s :: r => within_limit (pending ++ s) r
  | Final :: r => lenN pending < 2 ^ 61 /\ within_limit [] r
  end.

Lemma sha_calls_ok l : forall m bl st,
  absorbed m bl st -> within_limit m l ->
  exists st', sha_calls l st = Some (fips_digests m l, st').
Proof.
  induction l as [|[s|] l IH]; intros m bl st Ha Hw.
  - exists st. reflexivity.
  - destruct (sha_update_ok s m bl st Ha) as (st1 & bl1 & Hu & Ha1).
    cbn [sha_calls fips_digests within_limit] in *. rewrite Hu. eauto.
  - cbn [sha_calls fips_digests within_limit] in *. destruct Hw as [Hl Hw].
    destruct (sha_final_ok m bl st Ha Hl) as (st1 & Hf & ->). rewrite Hf.
    destruct (IH [] [] (sha_reset st) (absorbed_reset st) Hw) as [st2 H2]. rewrite H2. eauto.
Qed.

(** C32.  After any sequence of update calls finalBinary returns the FIPS 180-4 SHA-1 digest of the
    concatenation of the updates, whatever the memory of the object held before construction. *)
Theorem C32_sha1 : forall (junk : sha) (updates : list bytes),
  lenN (concat updates) < 2 ^ 61 ->
  exists st', sha_calls (map Update updates ++ [Final]) (sha_new junk) = Some ([SHA1 (concat updates)], st').
Proof.
  intros junk ups Hl.
  assert (forall ups pending, fips_digests pending (map Update ups ++ [Final]) = [SHA1 (pending ++ concat ups)]) as Hf.
  { clear. induction ups as [|u ups IH]; intros p; cbn [map app fips_digests concat].
    - now rewrite app_nil_r.
    - rewrite IH, <- app_assoc. reflexivity. }
  assert (forall ups pending, lenN (pending ++ concat ups) < 2 ^ 61 ->
            within_limit pending (map Update ups ++ [Final])) as Hw.
  { clear. induction ups as [|u ups IH]; intros p H; cbn [map app within_limit concat] in *.
    - rewrite app_nil_r in H. auto.
    - apply IH. rewrite <- app_assoc. assumption. }
  destruct (sha_calls_ok (map Update ups ++ [Final]) [] [] (sha_new junk) (absorbed_reset junk)
              (Hw ups [] Hl)) as [st' H].
  exists st'. rewrite H, Hf. reflexivity.
Qed.

(** The digest of a file or stream is that of its content. *)
Theorem C32_from_file : forall (junk : sha) (content : bytes),
  lenN content < 2 ^ 61 -> sha_from_content junk content = Some (SHA1 content).
Proof.
  intros junk content Hl. unfold sha_from_content.
  destruct (sha_update_ok content [] [] (sha_new junk) (absorbed_reset junk)) as (st1 & bl1 & Hu & Ha1).
  rewrite Hu. destruct (sha_final_ok _ _ _ Ha1 Hl) as (st' & Hf & _). rewrite Hf. reflexivity.
Qed.

(** The digest is always 20 bytes. *)
Theorem C32_digest_length : forall m, lenN (SHA1 m) = 20.
Proof.
  intros m. unfold SHA1. destruct (fold_left _ _ _) as [[[[h0 h1] h2] h3] h4].
  rewrite !lenN_app, !lenN_be_enc. reflexivity.
Qed.

(** Every digest of any history of updates and finals. *)
Theorem C32_history : forall (junk : sha) (history : list sha_call),
  within_limit [] history ->
  exists st', sha_calls history (sha_new junk) = Some (fips_digests [] history, st').
Proof. intros junk h Hw. exact (sha_calls_ok h [] [] _ (absorbed_reset junk) Hw). Qed.

(** C33.  After finalBinary the object equals a newly constructed one, in every member, so that whatever
    is done next gives the same results, for any previous history. *)
Theorem C33_reusable : forall (junk junk' : sha) (history : list sha_call),
  within_limit [] (history ++ [Final]) ->
  exists ds, sha_calls (history ++ [Final]) (sha_new junk) = Some (ds, sha_new junk').
Proof.
  intros junk junk'.
  assert (forall h m bl st, absorbed m bl st -> within_limit m (h ++ [Final]) ->
            exists ds, sha_calls (h ++ [Final]) st = Some (ds, sha_new junk')) as H.
  { induction h as [|[s|] h IH]; intros m bl st Ha Hw; cbn [app sha_calls within_limit] in *.
    - destruct Hw as [Hl _]. destruct (sha_final_ok m bl st Ha Hl) as (st1 & Hf & ->). rewrite Hf.
      eexists. unfold sha_new. rewrite (sha_reset_any st junk'). reflexivity.
    - destruct (sha_update_ok s m bl st Ha) as (st1 & bl1 & Hu & Ha1). rewrite Hu. eauto.
    - destruct Hw as [Hl Hw]. destruct (sha_final_ok m bl st Ha Hl) as (st1 & Hf & ->). rewrite Hf.
      destruct (IH [] [] _ (absorbed_reset st) Hw) as [ds Hd]. rewrite Hd. eauto. }
  intros h Hw. exact (H h [] [] _ (absorbed_reset junk) Hw).
Qed.

(** The next digest after any history is the digest of the following updates alone. *)
Theorem C33_next_digest : forall (junk junk' : sha) (history : list sha_call) (updates : list bytes),
  within_limit [] (history ++ [Final]) ->
  lenN (concat updates) < 2 ^ 61 ->
  exists ds st', sha_calls ((history ++ [Final]) ++ map Update updates ++ [Final]) (sha_new junk)
                 = Some (ds ++ [SHA1 (concat updates)], st').
Proof.
  intros junk junk' h ups Hw Hl.
  destruct (C33_reusable junk junk' h Hw) as [ds Hd].
  destruct (C32_sha1 junk' ups Hl) as [st' Hs].
  exists ds, st'.
  assert (forall l r st ds1 st1 ds2 st2,
            sha_calls l st = Some (ds1, st1) -> sha_calls r st1 = Some (ds2, st2) ->
            sha_calls (l ++ r) st = Some (ds1 ++ ds2, st2)) as Happ.
  { clear. induction l as [|[s|] l IH]; intros r st ds1 st1 ds2 st2 H1 H2; cbn [app sha_calls] in *.
    - injection H1 as <- <-. exact H2.
    - destruct (sha_update s st); [eauto|discriminate].
    - destruct (sha_final st) as [[d st']|]; [|discriminate].
      destruct (sha_calls l st') as [[ds st'']|] eqn:E; [|discriminate].
      injection H1 as <- <-. rewrite (IH _ _ _ _ _ _ E H2). reflexivity. }
  eapply Happ; eauto.
Qed.

(** Non-vacuity and agreement of the code's table with the published test vector. *)
Definition junk0 : sha := Sha [1; 2] [x01] 77.
Example C32_nonvacuous :
  lenN (concat [[x61]; []; [x62; x63]]) < 2 ^ 61 /\
  option_map fst (sha_calls (map Update [[x61]; []; [x62; x63]] ++ [Final]) (sha_new junk0)) =
  Some [[xa9; x99; x3e; x36; x47; x06; x81; x6a; xba; x3e; x25; x71; x78; x50; xc2; x6c; x9c; xd0; xd8; x9d]].
Proof. split; vm_compute; reflexivity. Qed.
Example C33_nonvacuous : within_limit [] ([Update (repeat x41 70); Final; Update [x61]] ++ [Final]).
Proof. vm_compute. repeat split. Qed.
