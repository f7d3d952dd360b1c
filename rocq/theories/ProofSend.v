(** Lemmas about the sending functions of the blocking socket. *)
From Verif Require Import Bytes Frame World WebSocket SpecFrame SpecSend ProofFrame ProofStream.
From Coq Require Import ZifyBool ZifyNat ZifyN.
Local Open Scope N_scope.
Local Open Scope m_scope.
Local Arguments takeN : simpl never.
Local Arguments dropN : simpl never.
Local Arguments lenN : simpl never.
Local Arguments be_enc : simpl never.
Local Arguments be_dec : simpl never.

(** * What sending may change *)

Definition wonly (w w' : world) : Prop :=
  w_in w' = w_in w /\ w_log w' = w_log w /\ w_rnd w' = w_rnd w /\
  tame (w_sock w) (w_sock w') /\ (healthy (w_wr w) -> healthy (w_wr w')) /\
  prefix (w_out w) (w_out w').

Lemma wonly_refl w : wonly w w.
Proof. unfold wonly. repeat split; auto using tame_refl, prefix_refl. Qed.

Lemma wonly_trans a b c : wonly a b -> wonly b c -> wonly a c.
Proof.
  unfold wonly. intros (H1 & H2 & H3 & H4 & H5 & H6) (G1 & G2 & G3 & G4 & G5 & G6).
  split; [congruence|]. split; [congruence|]. split; [congruence|].
  split; [eapply tame_trans; eassumption|]. split; [auto|eapply prefix_trans; eassumption].
Qed.

Definition send_out {A} (o : outcome A) : Prop :=
  match o with OutOfFuel => False | Ub u => u = UbSigned | _ => True end.

Definition keeps {A} (m : M A) : Prop :=
  forall w o w', m w = (o, w') -> wonly w w' /\ send_out o.

Lemma keeps_ret {A} (a : A) : keeps (ret a).
Proof. intros w o w' E. injection E as <- <-. split; [apply wonly_refl|exact I]. Qed.

Lemma keeps_throw {A} e : keeps (@throw A e).
Proof. intros w o w' E. injection E as <- <-. split; [apply wonly_refl|exact I]. Qed.

Lemma keeps_bind {A B} (m : M A) (f : A -> M B) :
  keeps m -> (forall a, keeps (f a)) -> keeps (bind m f).
Proof.
  intros Hm Hf w o w' E. unfold bind in E. destruct (m w) as [o1 w1] eqn:E1.
  apply Hm in E1. destruct E1 as [H1 H2].
  destruct o1; try (injection E as <- <-; split; [exact H1|exact H2]).
  apply Hf in E. destruct E as [H3 H4]. split; [eapply wonly_trans; eassumption|exact H4].
Qed.

Lemma keeps_try m : keeps m -> keeps (try_ m).
Proof.
  intros Hm w o w' E. unfold try_ in E. destruct (m w) as [o1 w1] eqn:E1.
  apply Hm in E1. destruct E1 as [H1 H2].
  destruct o1; injection E as <- <-; split; auto.
Qed.

Lemma keeps_get : keeps get.
Proof. intros w o w' E. injection E as <- <-. split; [apply wonly_refl|exact I]. Qed.

Lemma keeps_write d : keeps (writeExactSizeDataSimple d).
Proof.
  intros w o w' E. unfold writeExactSizeDataSimple in E.
  destruct (writeExact_raw d (w_wr w)) as [[r a] q] eqn:E1.
  assert (wonly w (set_wr w (w_out w ++ a) q)) as H.
  { unfold wonly; cbn. repeat split; auto using prefix_app_r; try (now intros).
    intros Hq. eapply writeExact_healthy; eassumption. }
  destruct r; injection E as <- <-; (split; [exact H|exact I]).
Qed.

Lemma keeps_random n : keeps (randomBytes n).
Proof.
  intros w o w' E. injection E as <- <-. split; [|exact I].
  unfold wonly; cbn. repeat split; auto using prefix_refl.
Qed.

Lemma keeps_stop : keeps stopListening.
Proof.
  intros w o w' E. injection E as <- <-. split; [|exact I].
  unfold wonly; cbn. repeat split; auto using prefix_refl. discriminate.
Qed.

Lemma keeps_undef_signed {A} : keeps (@undef A UbSigned).
Proof. intros w o w' E. injection E as <- <-. split; [apply wonly_refl|reflexivity]. Qed.

Create HintDb keeps.
Global Hint Resolve keeps_ret keeps_throw keeps_get keeps_write keeps_random keeps_stop keeps_undef_signed : keeps.

Ltac keeps_tac :=
  repeat first
    [ apply keeps_bind; [|intros ?]
    | match goal with
      | |- keeps (if ?b then _ else _) => destruct b
      | |- keeps (let (_, _) := ?p in _) => destruct p
      end
    | solve [auto with keeps] ].

Lemma keeps_writeFrameHeader h : keeps (writeFrameHeader h).
Proof. unfold writeFrameHeader. keeps_tac. Qed.
Global Hint Resolve keeps_writeFrameHeader : keeps.

Lemma keeps_sendFrameHeader h fin op n : keeps (sendFrameHeader h fin op n).
Proof. unfold sendFrameHeader. keeps_tac. Qed.
Global Hint Resolve keeps_sendFrameHeader : keeps.

Lemma keeps_sendOneFrame fin op m : keeps (sendOneFrame fin op m).
Proof. unfold sendOneFrame. destruct m as [[|b bs]|]; keeps_tac. Qed.
Global Hint Resolve keeps_sendOneFrame : keeps.

Lemma keeps_sendChecked fin op m : keeps (sendChecked fin op m).
Proof. unfold sendChecked. keeps_tac. Qed.
Global Hint Resolve keeps_sendChecked : keeps.

Lemma keeps_send op : keeps (send op).
Proof. destruct op; cbn [send]; keeps_tac. Qed.
Global Hint Resolve keeps_send : keeps.

(** * The bytes written *)

(** [emits w d o w']: [o], [w'] is a possible result, in [w], of an action that tries to write the
    bytes [d] (it may give up or block at any point; only if it is [done] it has written all). *)
Definition emits {A} (done : A -> bool) (w : world) (d : bytes) (o : outcome A) (w' : world) : Prop :=
  exists p, prefix p d /\ w_out w' = w_out w ++ p /\
            match o with
            | Ret a => p = d <-> done a = true
            | Throw _ => p <> d
            | _ => True
            end.

Lemma write_emits d w o w' :
  writeExactSizeDataSimple d w = (o, w') -> emits (fun n => n =? lenN d) w d o w' /\ w_rpos w' = w_rpos w /\
  (healthy (w_wr w) -> o = Ret (lenN d) /\ w_out w' = w_out w ++ d /\ healthy (w_wr w')) /\
  w_sock w' = w_sock w.
Proof.
  intros E. unfold writeExactSizeDataSimple in E.
  destruct (writeExact_raw d (w_wr w)) as [[r a] q] eqn:E1.
  pose proof (writeExact_prefix _ _ _ _ _ E1) as (Hp & Hd & Hf).
  assert (healthy (w_wr w) -> r = WDone /\ a = d /\ healthy q) as Hh
    by (intros; eapply writeExact_healthy; eassumption).
  assert (forall o', (forall n, o' = Ret n -> n = lenN a) -> (forall e, o' <> Throw e) ->
           emits (fun n => n =? lenN d) w d o' (set_wr w (w_out w ++ a) q)) as He.
  { intros o' Ho Ht. exists a. split; [exact Hp|]. split; [reflexivity|].
    destruct o'; auto.
    - rewrite (Ho _ eq_refl). split; [intros ->; apply N.eqb_refl|].
      intros Hl. apply N.eqb_eq in Hl. destruct Hp as [t ->]. rewrite lenN_app in Hl.
      assert (lenN t = 0) as Ht0 by lia. apply lenN_0 in Ht0. subst t. now rewrite app_nil_r.
    - exfalso; eapply Ht; reflexivity. }
  destruct r; injection E as <- <-.
  - specialize (Hd eq_refl). subst a. split; [apply He; congruence|].
    split; [reflexivity|]. split; [|reflexivity]. intros H. apply Hh in H. cbn. tauto.
  - split; [apply He; congruence|]. split; [reflexivity|]. split; [|reflexivity].
    intros H. apply Hh in H. destruct H; discriminate.
  - split; [apply He; congruence|]. split; [reflexivity|]. split; [|reflexivity].
    intros H. apply Hh in H. destruct H; discriminate.
Qed.

Lemma prefix_eq_or {A} (p d : list A) : prefix p d -> length p = length d -> p = d.
Proof.
  intros [t ->] H. rewrite app_length in H. assert (length t = 0)%nat as H0 by lia.
  destruct t; [now rewrite app_nil_r|discriminate].
Qed.

(** Writing [d1] and failing with [e] if not everything was written. *)
Definition write_or (d : bytes) (e : exn) : M unit :=
  res <- writeExactSizeDataSimple d ;; if negb (res =? lenN d) then throw e else ret tt.

Definition always {A} (_ : A) := true.

Lemma write_or_emits d e w o w' :
  write_or d e w = (o, w') -> emits always w d o w' /\ w_rpos w' = w_rpos w /\ w_sock w' = w_sock w /\
  (healthy (w_wr w) -> o = Ret tt /\ w_out w' = w_out w ++ d /\ healthy (w_wr w')).
Proof.
  unfold write_or, bind. destruct (writeExactSizeDataSimple d w) as [o1 w1] eqn:E1.
  apply write_emits in E1. destruct E1 as ((p & Hp & Ho & Hm) & Hr & Hh & Hs).
  intros E. destruct o1.
  - destruct (a =? lenN d) eqn:Ea; injection E as <- <-.
    + split; [|split; [exact Hr|split; [exact Hs|]]].
      * exists p. split; [exact Hp|]. split; [exact Ho|]. split; [reflexivity|]. intros _. now apply Hm.
      * intros H. apply Hh in H. tauto.
    + split; [|split; [exact Hr|split; [exact Hs|]]].
      * exists p. split; [exact Hp|]. split; [exact Ho|].
        intros ->. destruct Hm as [Hm _]. specialize (Hm eq_refl). discriminate.
      * intros H; apply Hh in H; destruct H as (H & _);
          injection H as ->; rewrite N.eqb_refl in Ea; discriminate.
  - injection E as <- <-. split; [exists p; auto|]. split; [exact Hr|split; [exact Hs|]].
    intros H; apply Hh in H; destruct H; discriminate.
  - injection E as <- <-. split; [exists p; auto|]. split; [exact Hr|split; [exact Hs|]].
    intros H; apply Hh in H; destruct H; discriminate.
  - injection E as <- <-. split; [exists p; auto|]. split; [exact Hr|split; [exact Hs|]].
    intros H; apply Hh in H; destruct H; discriminate.
  - injection E as <- <-. split; [exists p; auto|]. split; [exact Hr|split; [exact Hs|]].
    intros H; apply Hh in H; destruct H; discriminate.
Qed.

Definition bytewriter (m : M unit) (d : bytes) : Prop :=
  forall w o w', m w = (o, w') ->
  emits always w d o w' /\ w_rpos w' = w_rpos w /\ w_sock w' = w_sock w /\
  (healthy (w_wr w) -> o = Ret tt /\ w_out w' = w_out w ++ d /\ healthy (w_wr w')).

Lemma bytewriter_seq m1 m2 d1 d2 :
  bytewriter m1 d1 -> bytewriter m2 d2 -> bytewriter (m1 ;;; m2) (d1 ++ d2).
Proof.
  intros H1 H2 w o w' E. unfold bind in E. destruct (m1 w) as [o1 w1] eqn:E1.
  apply H1 in E1. destruct E1 as ((p1 & Hp1 & Ho1 & Hm1) & Hr1 & Hs1 & Hh1).
  assert (forall A (oo : outcome A), (forall a, oo <> Ret a) -> (forall e, oo = Throw e -> p1 <> d1) ->
     emits always w (d1 ++ d2) oo w1) as Hfail.
  { intros A oo Hn Ht. exists p1. split; [eapply prefix_trans; [exact Hp1|apply prefix_app_r]|].
    split; [exact Ho1|]. destruct oo; auto.
    - exfalso; eapply Hn; reflexivity.
    - intros ->. destruct Hp1 as [t Ht1]. apply (Ht _ eq_refl).
      assert (d2 = []) as ->; [|now rewrite app_nil_r].
      apply (f_equal (@length byte)) in Ht1. rewrite !app_length in Ht1. destruct d2; [reflexivity|cbn in Ht1; lia]. }
  destruct o1.
  - assert (p1 = d1) as -> by (apply Hm1; reflexivity).
    apply H2 in E. destruct E as ((p2 & Hp2 & Ho2 & Hm2) & Hr2 & Hs2 & Hh2).
    split.
    + exists (d1 ++ p2). split; [now apply prefix_app_l|]. split; [rewrite Ho2, Ho1; now rewrite app_assoc|].
      destruct o; auto.
      * split; [auto|]. intros _. f_equal. apply Hm2. reflexivity.
      * intros H. apply app_inv_head in H. auto.
    + split; [congruence|]. split; [congruence|]. intros H. apply Hh1 in H. destruct H as (_ & H & Hq).
      apply Hh2 in Hq. destruct Hq as (-> & Hq & Hq'). split; [reflexivity|]. split; [|exact Hq'].
      rewrite Hq, H. now rewrite app_assoc.
  - injection E as <- <-. split; [apply Hfail; [discriminate|auto]|]. split; [exact Hr1|split; [exact Hs1|]].
    intros H; apply Hh1 in H; destruct H; discriminate.
  - injection E as <- <-. split; [apply Hfail; [discriminate|discriminate]|]. split; [exact Hr1|split; [exact Hs1|]].
    intros H; apply Hh1 in H; destruct H; discriminate.
  - injection E as <- <-. split; [apply Hfail; [discriminate|discriminate]|]. split; [exact Hr1|split; [exact Hs1|]].
    intros H; apply Hh1 in H; destruct H; discriminate.
  - injection E as <- <-. split; [apply Hfail; [discriminate|discriminate]|]. split; [exact Hr1|split; [exact Hs1|]].
    intros H; apply Hh1 in H; destruct H; discriminate.
Qed.

Lemma bytewriter_nil : bytewriter (ret tt) [].
Proof.
  intros w o w' E. injection E as <- <-. split.
  - exists []. split; [apply prefix_refl|]. rewrite app_nil_r. split; [reflexivity|]. split; auto.
  - rewrite app_nil_r. auto.
Qed.

Lemma bytewriter_write_or d e : bytewriter (write_or d e) d.
Proof. intros w o w' E. eapply write_or_emits; exact E. Qed.

Lemma bytewriter_ext (m m' : M unit) d : (forall w, m w = m' w) -> bytewriter m' d -> bytewriter m d.
Proof. intros H Hm w o w' E. rewrite H in E. now apply Hm. Qed.

Lemma write_then {A} d n e (k : M A) w :
  lenN d = n ->
  (res <- writeExactSizeDataSimple d ;; if negb (res =? n) then throw e else k) w =
  (write_or d e ;;; k) w.
Proof.
  intros <-. unfold write_or, bind. destruct (writeExactSizeDataSimple d w) as [[] w1]; try reflexivity.
  destruct (a =? lenN d); reflexivity.
Qed.

Lemma write_then' d n e w :
  lenN d = n ->
  (res <- writeExactSizeDataSimple d ;; if negb (res =? n) then throw e else ret tt) w = write_or d e w.
Proof. intros <-. reflexivity. Qed.

Definition key_of (h : header) : option mask4 := if h_hasMask h then Some (h_mask h) else None.

(** writeFrameHeader writes the RFC header, in the minimal length form. *)
Lemma writeFrameHeader_bytes h :
  (0 <= h_len h < 2 ^ 63)%Z ->
  bytewriter (writeFrameHeader h)
    (rfc_header (lform_min (Z.to_N (h_len h))) (h_fin h) (h_rsv1 h) (h_rsv2 h) (h_rsv3 h)
       (h_opcode h mod 16) (key_of h) (Z.to_N (h_len h))).
Proof.
  intros Hl. unfold writeFrameHeader. rewrite packHeaderBits_arith by lia.
  set (l7 := l7_of (h_len h)).
  assert (l7 < 128) as Hl7 by (apply l7_of_lt; lia).
  set (op4 := h_opcode h mod 16). assert (op4 < 16) as Hop by (apply N.mod_lt; lia).
  set (bb := sumbits _ _ _ _ _ _ _).
  assert (rfc_header (lform_min (Z.to_N (h_len h))) (h_fin h) (h_rsv1 h) (h_rsv2 h) (h_rsv3 h) op4
            (key_of h) (Z.to_N (h_len h)) =
          be_enc 2 bb ++
          (match lform_min (Z.to_N (h_len h)) with
           | L7 => [] | L16 => be_enc 2 (Z.to_N (h_len h)) | L64 => be_enc 8 (Z.to_N (h_len h)) end)
          ++ key_bytes (key_of h)) as ->.
  { unfold rfc_header.
    match goal with |- ?x :: ?y :: ?r = _ => change (x :: y :: r) with ([x; y] ++ r) end. f_equal.
    assert (be_enc 2 bb = [n2b (bb / 256); n2b bb]) as ->.
    { change (be_enc 2 bb) with [n2b (bb / 256 ^ 1); n2b (bb / 256 ^ 0)].
      now rewrite N.pow_1_r, N.pow_0_r, N.div_1_r. }
    assert (has_key (key_of h) = h_hasMask h) as ->.
    { unfold key_of. destruct (h_hasMask h); reflexivity. }
    assert (match lform_min (Z.to_N (h_len h)) with L7 => Z.to_N (h_len h) | L16 => 126 | L64 => 127 end = l7) as ->.
    { unfold l7, lform_min, l7_of. destruct (Z.to_N (h_len h) <? 126) eqn:E1, (h_len h <? 126)%Z eqn:E2;
        try lia. destruct (Z.to_N (h_len h) <? 65536) eqn:E3, (h_len h <? 65536)%Z eqn:E4; lia. }
    unfold bb, sumbits, bitv. f_equal; [|f_equal].
    - apply b2n_inj. rewrite !b2n_n2b. f_equal.
      destruct (h_fin h), (h_rsv1 h), (h_rsv2 h), (h_rsv3 h), (h_hasMask h); lia.
    - apply b2n_inj. rewrite !b2n_n2b.
      destruct (h_fin h), (h_rsv1 h), (h_rsv2 h), (h_rsv3 h), (h_hasMask h); lia. }
  eapply bytewriter_ext; [intros w; apply write_then; apply lenN_be_enc|].
  apply bytewriter_seq; [apply bytewriter_write_or|].
  apply bytewriter_seq.
  - unfold scen_of, lform_min. destruct (h_len h <? 126)%Z eqn:E1.
    { replace (Z.to_N (h_len h) <? 126) with true by lia. apply bytewriter_nil. }
    replace (Z.to_N (h_len h) <? 126) with false by lia.
    destruct (h_len h <? 65536)%Z eqn:E2.
    { replace (Z.to_N (h_len h) <? 65536) with true by lia. cbn [N.eqb Pos.eqb].
      rewrite i64_to_u16_small by lia.
      eapply bytewriter_ext; [intros w; apply write_then'; apply lenN_be_enc|].
      apply bytewriter_write_or. }
    replace (Z.to_N (h_len h) <? 65536) with false by lia. cbn [N.eqb Pos.eqb].
    rewrite be_enc_hi_lo by lia.
    eapply bytewriter_ext; [intros w; apply write_then'; apply lenN_be_enc|].
    apply bytewriter_write_or.
  - unfold key_of. destruct (h_hasMask h); [|apply bytewriter_nil].
    eapply bytewriter_ext; [intros w; apply write_then'; reflexivity|].
    apply bytewriter_write_or.
Qed.

(** Writing a header has no undefined behaviour. *)
Definition nub {A} (m : M A) : Prop := forall w o w', m w = (o, w') -> forall u, o <> Ub u.

Lemma nub_bind {A B} (m : M A) (f : A -> M B) : nub m -> (forall a, nub (f a)) -> nub (bind m f).
Proof.
  intros Hm Hf w o w' E u. unfold bind in E. destruct (m w) as [o1 w1] eqn:E1.
  specialize (Hm _ _ _ E1). destruct o1; try (injection E as <- <-; discriminate).
  - eapply Hf; exact E.
  - injection E as <- <-. intros [= ->]. apply (Hm u). reflexivity.
Qed.

Lemma nub_write d : nub (writeExactSizeDataSimple d).
Proof.
  intros w o w' E u. unfold writeExactSizeDataSimple in E.
  destruct (writeExact_raw d (w_wr w)) as [[[] a] q]; injection E as <- <-; discriminate.
Qed.
Lemma nub_ret {A} (a : A) : nub (ret a).
Proof. intros w o w' E u. injection E as <- <-. discriminate. Qed.
Lemma nub_throw {A} e : nub (@throw A e).
Proof. intros w o w' E u. injection E as <- <-. discriminate. Qed.

Lemma nub_writeFrameHeader h : nub (writeFrameHeader h).
Proof.
  unfold writeFrameHeader. destruct (packHeaderBits h) as [bb sc].
  repeat first [ apply nub_bind; [|intros ?] | apply nub_write | apply nub_ret | apply nub_throw
               | match goal with |- nub (if ?b then _ else _) => destruct b end ].
Qed.

Lemma sendFrameHeader_spec h0 fin op n w o w' :
  (0 <= n < 2 ^ 63)%Z ->
  sendFrameHeader h0 fin op n w = (o, w') ->
  let hd := rfc_header (lform_min (Z.to_N n)) fin false false false (op mod 16) (next_key_opt w) (Z.to_N n) in
  emits always w hd o w' /\
  w_rpos w' = (w_rpos w + drawn w)%nat /\ w_sock w' = w_sock w /\
  (forall h, o = Ret h -> h_hasMask h = s_mask (w_sock w) /\ (h_hasMask h = true -> h_mask h = next_key w)) /\
  (forall u, o <> Ub u) /\
  (healthy (w_wr w) -> (exists h, o = Ret h) /\ w_out w' = w_out w ++ hd /\ healthy (w_wr w')).
Proof.
  intros Hn E hd. unfold sendFrameHeader, bind, get in E. cbn [h_hasMask] in E.
  set (h2 := Header fin false false false op (s_mask (w_sock w)) n
               (if s_mask (w_sock w) then next_key w else h_mask h0)).
  set (w1 := set_rpos w (w_rpos w + drawn w)).
  assert ((if s_mask (w_sock w) then
             mk <- randomBytes 4;;
             ret (set_mask (Header fin false false false op (s_mask (w_sock w)) n (h_mask h0)) (mask_of mk))
           else ret (Header fin false false false op (s_mask (w_sock w)) n (h_mask h0))) w = (Ret h2, w1)) as Hd.
  { unfold h2, w1, drawn. destruct (s_mask (w_sock w)).
    - unfold bind, randomBytes, ret. cbn. unfold next_key.
      replace (w_rpos w + 1)%nat with (S (w_rpos w)) by lia.
      replace (w_rpos w + 2)%nat with (S (S (w_rpos w))) by lia.
      replace (w_rpos w + 3)%nat with (S (S (S (w_rpos w)))) by lia. reflexivity.
    - unfold ret. rewrite Nat.add_0_r. destruct w; reflexivity. }
  unfold bind in Hd. rewrite Hd in E. clear Hd.
  destruct (writeFrameHeader h2 w1) as [o1 w2] eqn:E0.
  pose proof E0 as E1. apply writeFrameHeader_bytes in E1; [|exact Hn].
  assert (key_of h2 = next_key_opt w) as Hk.
  { unfold key_of, h2, next_key_opt. cbn. destruct (s_mask (w_sock w)); reflexivity. }
  rewrite Hk in E1. cbn [h_len h_fin h_rsv1 h_rsv2 h_rsv3 h_opcode h2] in E1. fold hd in E1.
  assert (forall u, o1 <> Ub u) as Hu.
  { eapply nub_writeFrameHeader; exact E0. }
  destruct E1 as ((p & Hp & Ho & Hm) & Hr & Hs & Hh).
  change (w_out w1) with (w_out w) in *. change (w_sock w1) with (w_sock w) in *.
  change (w_wr w1) with (w_wr w) in *.
  destruct o1; injection E as <- <-.
  all: try (split; [exists p; auto|]; split; [exact Hr|]; split; [exact Hs|]; split; [discriminate|];
    split; [discriminate || congruence|]; intros H; apply Hh in H; destruct H; discriminate).
  split; [exists p; auto|]. split; [exact Hr|]. split; [exact Hs|]. split.
  - intros h [= <-]. cbn. split; [reflexivity|]. intros ->. reflexivity.
  - split; [discriminate|]. intros H. apply Hh in H. split; [eauto|tauto].
Qed.

Lemma prefix_proper {A} (p d r : list A) : prefix p d -> p = d ++ r -> p = d.
Proof.
  intros [t Ht] ->. apply (f_equal (@length A)) in Ht as Hl. rewrite !app_length in Hl.
  destruct r; [now rewrite app_nil_r|cbn in Hl; lia].
Qed.

Definition send_result (w : world) (p : bytes) (fr : bytes) (o : outcome bool) (w' : world) : Prop :=
  emits (fun b => b) w fr o w' /\
  w_rpos w' = (w_rpos w + drawn w)%nat /\ w_sock w' = w_sock w /\
  (forall u, o = Ub u -> u = UbSigned /\ s_mask (w_sock w) = true /\ 2 ^ 31 <= lenN p) /\
  (healthy (w_wr w) -> size_ok w p ->
   o = Ret true /\ w_out w' = w_out w ++ fr /\ healthy (w_wr w')).

Lemma sendOneFrame_spec fin op m w o w' :
  lenN (msg_of m) < 2 ^ 63 ->
  sendOneFrame fin op m w = (o, w') ->
  send_result w (msg_of m) (raw_wire (next_key_opt w) fin op (msg_of m)) o w'.
Proof.
  intros Hlen E. unfold raw_wire, raw_frame, wire. cbn [f_fin f_rsv1 f_rsv2 f_rsv3 f_opcode f_key f_payload].
  destruct (sendFrameHeader header_init fin op (Z.of_N (lenN (msg_of m))) w) as [o1 w1] eqn:E1.
  pose proof E1 as E1'. apply sendFrameHeader_spec in E1'; [|lia].
  rewrite N2Z.id in E1'. cbv zeta in E1'.
  set (hd := rfc_header _ _ _ _ _ _ _ _) in *.
  destruct E1' as ((p1 & Hp1 & Ho1 & Hm1) & Hr1 & Hs1 & Hk1 & Hu1 & Hh1).
  assert (forall (o' : outcome bool) fr, prefix hd fr ->
     (forall a, o1 <> Ret a) -> (forall a, o' <> Ret a) -> (forall e, o' = Throw e -> exists e', o1 = Throw e') ->
     (forall u, o' <> Ub u) ->
     send_result w (msg_of m) fr o' w1) as Hfail.
  { intros o' fr [t ->] Hn1 Hn Ht Hu. split; [|split; [exact Hr1|split; [exact Hs1|split]]].
    - exists p1. split; [eapply prefix_trans; [exact Hp1|apply prefix_app_r]|]. split; [exact Ho1|].
      destruct o'; auto; [exfalso; eapply Hn; reflexivity|].
      destruct (Ht _ eq_refl) as [e' ->]. intros Heq. apply Hm1. eapply prefix_proper; eassumption.
    - intros u Hu'. exfalso. eapply Hu; exact Hu'.
    - intros H. apply Hh1 in H. destruct H as ((h & H) & _). exfalso. eapply Hn1; exact H. }
  destruct m as [[|b bs]|]; cbn [msg_of] in *.
  (* empty message *)
  1,3: unfold sendOneFrame, bind in E; change (Z.of_N (lenN [])) with 0%Z in E1; rewrite E1 in E;
    assert (masked_opt (next_key_opt w) [] = []) as -> by
      (destruct (next_key_opt w); reflexivity);
    rewrite app_nil_r;
    destruct o1; injection E as <- <-;
    try (apply Hfail; [apply prefix_refl|discriminate|discriminate|intros ? [= <-]; eauto|congruence]);
    split; [exists p1; split; [exact Hp1|split; [exact Ho1|exact Hm1]]|];
    split; [exact Hr1|split; [exact Hs1|split; [discriminate|]]];
    intros H _; apply Hh1 in H; tauto.
  unfold sendOneFrame in E. set (msg := b :: bs) in *. unfold bind at 1 in E. rewrite E1 in E.
  destruct o1 as [h|e| |u|]; [|injection E as <- <-..].
  2,3,5: apply Hfail; [apply prefix_app_r|discriminate|discriminate|intros ? [= <-]; eauto|discriminate].
  2: exfalso; eapply Hu1; reflexivity.
  destruct (Hk1 _ eq_refl) as [Hk2 Hk3]. clear Hk1.
  assert (p1 = hd) as -> by (apply Hm1; reflexivity).
  (* the payload *)
  assert (forall d, d = masked_opt (next_key_opt w) msg ->
            (res <- writeExactSizeDataSimple d ;; ret (res =? lenN msg)) w1 = (o, w') ->
            send_result w msg (hd ++ masked_opt (next_key_opt w) msg) o w') as Hpay.
  { clear E. intros d Hd E. unfold bind in E.
    destruct (writeExactSizeDataSimple d w1) as [o2 w2] eqn:E2.
    pose proof (nub_write _ _ _ _ E2) as Hnu.
    apply write_emits in E2.
    assert (lenN d = lenN msg) as Hld by (rewrite Hd; apply lenN_masked_opt).
    rewrite <- Hd. rewrite Hld in E2.
    destruct E2 as ((p2 & Hp2 & Ho2 & Hm2) & Hr2 & Hh2 & Hs2).
    assert (prefix (hd ++ p2) (hd ++ d)) as Hpp by now apply prefix_app_l.
    assert (w_out w2 = w_out w ++ hd ++ p2) as Hoo by (rewrite Ho2, Ho1; now rewrite app_assoc).
    assert (healthy (w_wr w) -> o2 = Ret (lenN msg) /\ p2 = d /\ healthy (w_wr w2)) as Hhh.
    { intros H. apply Hh1 in H. destruct H as (_ & _ & H). apply Hh2 in H. destruct H as (H & H' & H'').
      split; [exact H|]. split; [|exact H'']. rewrite Ho2 in H'. now apply app_inv_head in H'. }
    destruct o2; injection E as <- <-; (split; [|split; [congruence|split; [congruence|split; [|]]]]);
      try (exists (hd ++ p2); split; [exact Hpp|]; split; [exact Hoo|]); try exact I; try discriminate;
      try (intros H _; apply Hhh in H; destruct H as (H & _); discriminate).
    - rewrite <- Hm2. split; [intros H; now apply app_inv_head in H|congruence].
    - intros H _. apply Hhh in H. destruct H as ([= ->] & -> & H). rewrite N.eqb_refl. auto.
    - intros H. apply app_inv_head in H. auto.
    - intros u0 _. exfalso. eapply Hnu. reflexivity. }
  destruct (h_hasMask h) eqn:Ehm.
  - specialize (Hk3 eq_refl). rewrite Hk3 in E.
    destruct (N.leb_spec (2 ^ 31) (lenN msg)) as [Hbig|Hsmall].
    + injection E as <- <-. split; [|split; [exact Hr1|split; [exact Hs1|split]]].
      * exists hd. split; [apply prefix_app_r|]. split; [exact Ho1|exact I].
      * intros u [= <-]. auto.
      * intros _ Hsz. unfold size_ok in Hsz. rewrite <- Hk2 in Hsz. specialize (Hsz eq_refl). lia.
    + eapply Hpay; [|exact E]. unfold next_key_opt. rewrite <- Hk2. cbn [masked_opt]. apply xor_from_rfc.
  - eapply Hpay; [|exact E]. unfold next_key_opt. rewrite <- Hk2. reflexivity.
Qed.

(** sendOneFrame itself never throws the error of the convenience calls. *)
Definition nosend {A} (m : M A) : Prop := forall w o w', m w = (o, w') -> o <> Throw ExSend.

Lemma nosend_bind {A B} (m : M A) (f : A -> M B) : nosend m -> (forall a, nosend (f a)) -> nosend (bind m f).
Proof.
  intros Hm Hf w o w' E. unfold bind in E. destruct (m w) as [o1 w1] eqn:E1.
  specialize (Hm _ _ _ E1). destruct o1; try (injection E as <- <-; discriminate).
  - eapply Hf; exact E.
  - injection E as <- <-. intros [= ->]. apply Hm. reflexivity.
Qed.
Lemma nosend_write d : nosend (writeExactSizeDataSimple d).
Proof.
  intros w o w' E. unfold writeExactSizeDataSimple in E.
  destruct (writeExact_raw d (w_wr w)) as [[[] a] q]; injection E as <- <-; discriminate.
Qed.
Lemma nosend_ret {A} (a : A) : nosend (ret a).
Proof. intros w o w' E. injection E as <- <-. discriminate. Qed.
Lemma nosend_get : nosend get.
Proof. intros w o w' E. injection E as <- <-. discriminate. Qed.
Lemma nosend_undef {A} u : nosend (@undef A u).
Proof. intros w o w' E. injection E as <- <-. discriminate. Qed.
Lemma nosend_random n : nosend (randomBytes n).
Proof. intros w o w' E. injection E as <- <-. discriminate. Qed.
Lemma nosend_throw {A} e : e <> ExSend -> nosend (@throw A e).
Proof. intros H w o w' E. injection E as <- <-. congruence. Qed.

Lemma nosend_sendOneFrame fin op m : nosend (sendOneFrame fin op m).
Proof.
  unfold sendOneFrame, sendFrameHeader, writeFrameHeader.
  destruct m as [[|b bs]|];
  repeat first [ apply nosend_bind; [|intros ?] | apply nosend_write | apply nosend_ret | apply nosend_get
               | apply nosend_undef | apply nosend_random
               | apply nosend_throw; discriminate
               | match goal with
                 | |- nosend (if ?b then _ else _) => destruct b
                 | |- nosend (let (_, _) := ?p in _) => destruct p
                 end ].
Qed.

(** The public calls. *)
Lemma send_spec op w o w' :
  lenN (req_payload op) < 2 ^ 63 ->
  send op w = (o, w') ->
  exists p, prefix p (sent_wire (next_key_opt w) op) /\ w_out w' = w_out w ++ p /\
  w_rpos w' = (w_rpos w + drawn w)%nat /\ tame (w_sock w) (w_sock w') /\
  (forall u, o = Ub u -> u = UbSigned /\ s_mask (w_sock w) = true /\ 2 ^ 31 <= lenN (req_payload op)) /\
  (o = Ret tt -> (forall fin c m, op <> SoFrame fin c m) -> p = sent_wire (next_key_opt w) op) /\
  (forall e, o = Throw e -> p <> sent_wire (next_key_opt w) op) /\
  (o = Throw ExSend -> s_listening (w_sock w') = false) /\
  (healthy (w_wr w) -> size_ok w (req_payload op) ->
   o = Ret tt /\ p = sent_wire (next_key_opt w) op /\ healthy (w_wr w') /\ w_sock w' = w_sock w).
Proof.
  intros Hlen E.
  assert (exists fin c m, (forall w, send op w = (if match op with SoFrame _ _ _ => true | _ => false end
                                          then (sendOneFrame fin c m ;;; ret tt) else sendChecked fin c m) w) /\
            req_fin op = fin /\ req_opcode op = c /\ req_payload op = msg_of m) as (fin & c & m & Hop & Hf & Hc & Hm).
  { destruct op; do 3 eexists; (split; [intros w0; cbn [send]; reflexivity|repeat split; try reflexivity]). }
  rewrite Hop in E. clear Hop.
  unfold sent_wire, frame_for. rewrite Hf, Hc, Hm in *. 
  change (wire (lform_min (lenN (msg_of m))) (RFrame fin false false false (c mod 16) (next_key_opt w) (msg_of m)))
    with (raw_wire (next_key_opt w) fin c (msg_of m)).
  set (fr := raw_wire _ _ _ _).
  destruct (sendOneFrame fin c m w) as [o1 w1] eqn:E1.
  pose proof (keeps_sendOneFrame _ _ _ _ _ _ E1) as (_ & Hnf).
  apply sendOneFrame_spec in E1 as E1'; [|exact Hlen].
  destruct E1' as ((p & Hp & Ho & Hmm) & Hr & Hs & Hu & Hh). fold fr in Hp, Hmm, Hh.
  pose proof (nosend_sendOneFrame _ _ _ _ _ _ E1) as Hne.
  exists p. split; [exact Hp|].
  destruct (match op with SoFrame _ _ _ => true | _ => false end) eqn:Eop.
  - assert (exists fin c m, op = SoFrame fin c m) as Hsf by (destruct op; try discriminate; eauto).
    unfold bind in E. rewrite E1 in E.
    assert (w' = w1) as -> by (destruct o1; injection E as <- <-; reflexivity).
    split; [exact Ho|]. split; [exact Hr|]. split; [rewrite Hs; apply tame_refl|].
    split; [|split; [|split; [|split]]].
    + intros u ->. apply Hu. destruct o1; try discriminate. now injection E as ->.
    + intros _ H. destruct Hsf as (? & ? & ? & ->). exfalso. eapply H. reflexivity.
    + intros e ->. destruct o1; try discriminate. exact Hmm.
    + intros ->. destruct o1; try discriminate. injection E as ->. congruence.
    + intros H H'. destruct (Hh H H') as (-> & H1 & H2). injection E as <-.
      rewrite Ho in H1. apply app_inv_head in H1. auto.
  - assert (forall fin c m, op <> SoFrame fin c m) as Hns by (intros; destruct op; discriminate).
    unfold sendChecked, bind in E. rewrite E1 in E.
    assert ((o = Throw ExSend /\ o1 = Ret false /\ w' = set_sock w1 (set_listening (w_sock w1) false)) \/
            (w' = w1 /\ (o = Ret tt <-> o1 = Ret true) /\ (forall e, o = Throw e <-> o1 = Throw e) /\
             (forall u, o = Ub u -> o1 = Ub u))) as [(-> & -> & ->)|(-> & H1 & H2 & H3)].
    { destruct o1 as [[]| | | |]; injection E as <- <-; auto;
        right; (split; [reflexivity|]); repeat split; intros; congruence. }
    + cbn [w_out w_rpos w_sock set_sock]. split; [exact Ho|]. split; [exact Hr|].
      split; [rewrite Hs; apply tame_stop|].
      split; [discriminate|]. split; [discriminate|].
      split; [|split; [reflexivity|]].
      * intros e _ Hpe. apply Hmm in Hpe. discriminate.
      * intros H H'. destruct (Hh H H') as (H1 & _). discriminate.
    + split; [exact Ho|]. split; [exact Hr|]. split; [rewrite Hs; apply tame_refl|].
      split; [|split; [|split; [|split]]].
      * intros u Hu'. apply Hu. auto.
      * intros Hret _. apply H1 in Hret. subst o1. apply Hmm. reflexivity.
      * intros e He. apply H2 in He. subst o1. exact Hmm.
      * intros He. apply H2 in He. congruence.
      * intros H H'. destruct (Hh H H') as (-> & H4 & H5). split; [now apply H1|].
        rewrite Ho in H4. apply app_inv_head in H4. auto.
Qed.

(** * sendOneFrame whose result is checked by the caller *)
Lemma keeps_demand fin op m : keeps (demand fin op m).
Proof. unfold demand. keeps_tac. Qed.
Global Hint Resolve keeps_demand : keeps.

Definition is_send_cmd (c : cmd) : Prop := match c with CSend _ _ | CDemand _ _ _ => True | _ => False end.
Lemma keeps_send_cmd c : is_send_cmd c -> keeps (exec_cmd c).
Proof. destruct c as [|l|m b|[] op| | |fin opc m]; cbn [is_send_cmd exec_cmd]; intros []; auto using keeps_try with keeps. Qed.

Lemma demand_send fin c m w o w' : demand fin c m w = (o, w') ->
  exists o2, send (SoFrame fin c m) w = (o2, w') /\ (o2 = o \/ o2 = Ret tt /\ o = Throw ExListener).
Proof.
  unfold demand, send, bind. destruct (sendOneFrame fin c m w) as [[[]|e| |u|] w1]; intros E; injection E as <- <-;
    eexists; (split; [reflexivity|]); auto.
Qed.
Lemma demand_healthy fin c m w o w' :
  lenN (msg_of m) < 2 ^ 63 -> healthy (w_wr w) -> size_ok w (msg_of m) -> demand fin c m w = (o, w') ->
  o = Ret tt /\ send (SoFrame fin c m) w = (Ret tt, w').
Proof.
  intros Hl Hh Hs E. unfold demand, send, bind in *. destruct (sendOneFrame fin c m w) as [o1 w1] eqn:E1.
  apply sendOneFrame_spec in E1; [|exact Hl]. destruct E1 as (_ & _ & _ & _ & H). destruct (H Hh Hs) as (-> & _).
  injection E as <- <-. split; reflexivity.
Qed.
