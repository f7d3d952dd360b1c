(** Property theorem about driving a socket with iterateFrame instead of listen (C65). *)
From Verif Require Import Bytes Frame World WebSocket SpecFrame SpecSend SpecListen SpecReply SpecConfig
  ProofFrame ProofStream ProofSend ProofHeader ProofListen ProofInv ProofRel.
From Coq Require Import ZifyBool ZifyNat ZifyN.
Local Open Scope N_scope.
Local Open Scope m_scope.
Local Arguments takeN : simpl never.
Local Arguments dropN : simpl never.
Local Arguments lenN : simpl never.
Local Arguments be_enc : simpl never.
Local Arguments be_dec : simpl never.
Local Arguments N.eqb : simpl never.

(** * Code that does not look at the flag *)
Definition fl (b : bool) (w : world) : world := set_sock w (set_listening (w_sock w) b).
Lemma same_fl w w' : same_but_flag w w' <-> w' = fl (s_listening (w_sock w')) w.
Proof.
  unfold same_but_flag, fl, set_sock, set_listening. destruct w as [i1 r1 o1 n1 p1 l1 [m1 b1 k1 z1 f1]], w' as [i2 r2 o2 n2 p2 l2 [m2 b2 k2 z2 f2]]; cbn.
  split; intros H; injection H; intros; subst; reflexivity.
Qed.
Lemma same_fl1 w w' : same_but_flag w w' -> exists b, w' = fl b w.
Proof. intros H. eexists. apply same_fl. exact H. Qed.
Lemma fl_same w b : same_but_flag w (fl b w).
Proof. reflexivity. Qed.
Lemma fl_same2 w a b : same_but_flag (fl a w) (fl b w).
Proof. reflexivity. Qed.
Definition same2 {A} (m1 m2 : M A) : Prop := forall w1 w2, same_but_flag w1 w2 ->
  fst (m1 w1) = fst (m2 w2) /\ same_but_flag (snd (m1 w1)) (snd (m2 w2)).
Notation nofl m := (same2 m m).

Lemma s2_ret {A} (a : A) : nofl (ret a).
Proof. intros w1 w2 H. auto. Qed.
Lemma s2_throw {A} e : nofl (@throw A e).
Proof. intros w1 w2 H. auto. Qed.
Lemma s2_undef {A} u : nofl (@undef A u).
Proof. intros w1 w2 H. auto. Qed.
Lemma s2_fuel {A} : nofl (@out_of_fuel A).
Proof. intros w1 w2 H. auto. Qed.
Lemma s2_bind {A B} (m1 m2 : M A) (f1 f2 : A -> M B) : same2 m1 m2 -> (forall a, same2 (f1 a) (f2 a)) -> same2 (bind m1 f1) (bind m2 f2).
Proof.
  intros Hm Hf w1 w2 H. unfold bind. destruct (Hm w1 w2 H) as [H1 H2].
  destruct (m1 w1) as [o1 v1], (m2 w2) as [o2 v2]; cbn [fst snd] in *. subst o2. destruct o1; cbn [fst snd]; auto. now apply Hf.
Qed.
Lemma s2_get {B} (f1 f2 : world -> M B) : (forall w1 w2, same_but_flag w1 w2 -> same2 (f1 w1) (f2 w2)) -> same2 (bind get f1) (bind get f2).
Proof. intros Hf w1 w2 H. unfold bind, get. now apply Hf. Qed.
Lemma s2_try m : nofl m -> nofl (try_ m).
Proof.
  intros Hm w1 w2 H. unfold try_. destruct (Hm w1 w2 H) as [H1 H2].
  destruct (m w1) as [o1 v1], (m w2) as [o2 v2]; cbn [fst snd] in *. subst o2. destruct o1; cbn [fst snd]; auto.
Qed.
Lemma s2_sock f : (forall k b, set_listening (f (set_listening k b)) false = set_listening (f k) false) -> nofl (modify_sock f).
Proof.
  intros Hf w1 w2 H. apply same_fl1 in H. destruct H as [b ->]. cbn [modify_sock fst snd]. split; [reflexivity|].
  unfold same_but_flag, fl, set_sock; cbn. now rewrite Hf.
Qed.
Lemma s2_rnd n : nofl (randomBytes n).
Proof. intros w1 w2 H. apply same_fl1 in H. destruct H as [b ->]. split; reflexivity. Qed.
Lemma s2_write d : nofl (writeExactSizeDataSimple d).
Proof.
  intros w1 w2 H. apply same_fl1 in H. destruct H as [b ->]. unfold writeExactSizeDataSimple. cbn.
  destruct (writeExact_raw d (w_wr w1)) as [[r a] q]. destruct r; split; reflexivity.
Qed.
Create HintDb nofl.
Global Hint Resolve s2_ret s2_throw s2_undef s2_fuel s2_rnd s2_write s2_try : nofl.
Ltac s2_tac :=
  repeat first
    [ match goal with
      | |- same2 (bind get _) _ => fail 1
      | |- same2 (bind _ _) _ => apply s2_bind; [|intros ?]
      | |- same2 (if ?b then _ else _) _ => destruct b
      | |- same2 (let (_, _) := ?p in _) _ => destruct p
      end
    | solve [auto with nofl] ].
Lemma s2_writeFrameHeader h : nofl (writeFrameHeader h).
Proof. unfold writeFrameHeader. s2_tac. Qed.
Global Hint Resolve s2_writeFrameHeader : nofl.
Lemma s2_sendFrameHeader h fin op n : nofl (sendFrameHeader h fin op n).
Proof. unfold sendFrameHeader. apply s2_get. intros w1 w2 H. apply same_fl1 in H. destruct H as [b ->]. cbn. s2_tac. Qed.
Global Hint Resolve s2_sendFrameHeader : nofl.
Lemma s2_sendOneFrame fin op m : nofl (sendOneFrame fin op m).
Proof. unfold sendOneFrame. destruct m as [[|b bs]|]; cbv zeta; s2_tac. Qed.
Global Hint Resolve s2_sendOneFrame : nofl.
Lemma s2_stop : nofl stopListening.
Proof. apply s2_sock. reflexivity. Qed.
Global Hint Resolve s2_stop : nofl.
Lemma s2_send op : nofl (send op).
Proof. destruct op; cbn [send]; unfold sendChecked; s2_tac. Qed.
Global Hint Resolve s2_send : nofl.
Lemma s2_cmds cs : nofl (exec_cmds cs).
Proof.
  induction cs as [|c cs IH]; cbn [exec_cmds]; [apply s2_ret|]. apply s2_bind; [|intros _; exact IH].
  destruct c as [|l|m b|[] op| | |fin0 opc0 msg0]; cbn [exec_cmd]; auto with nofl; try (apply s2_sock; reflexivity).
  unfold demand. s2_tac.
Qed.
Lemma s2_notify react ev : nofl (notify react ev).
Proof.
  intros w1 w2 H. apply same_fl1 in H. destruct H as [b ->]. unfold notify. cbn [w_sock w_log fl set_sock set_listening s_listener].
  destruct (s_listener (w_sock w1)) as [l|]; [|split; reflexivity].
  apply s2_cmds. reflexivity.
Qed.
Global Hint Resolve s2_notify : nofl.

Lemma ext_fl x k b : exists b', apply_ext x (set_listening k b) = set_listening (apply_ext x k) b'.
Proof. destruct x, k; cbn; eexists; reflexivity. Qed.
Lemma read_raw_fl n s : forall k b r s' k', read_raw n s k = (r, s', k') ->
  exists b', read_raw n s (set_listening k b) = (r, s', set_listening k' b').
Proof.
  induction s as [|e s IH]; intros k b r s' k' E; cbn [read_raw] in *.
  - injection E as <- <- <-. eauto.
  - destruct e as [c cs|e|x]; [injection E as <- <- <-; eauto..|].
    destruct (ext_fl x k b) as [b' ->]. now apply IH.
Qed.
Lemma readExact_raw_fl s : forall n k b r s' k', readExact_raw n s k = (r, s', k') ->
  exists b', readExact_raw n s (set_listening k b) = (r, s', set_listening k' b').
Proof.
  induction s as [|e s IH]; intros n k b r s' k' E; cbn [readExact_raw] in *.
  - destruct (n =? 0); injection E as <- <- <-; eauto.
  - destruct (n =? 0); [injection E as <- <- <-; eauto|].
    destruct e as [c cs|[]|x]; [|now apply IH|injection E as <- <- <-; eauto..|].
    + destruct (n <=? lenN (c :: cs)); [injection E as <- <- <-; eauto|].
      destruct (readExact_raw (n - lenN (c :: cs)) s k) as [[r1 s1] k1] eqn:E1.
      apply (IH _ _ b) in E1. destruct E1 as [b' ->]. exists b'. destruct r1; injection E as <- <- <-; reflexivity.
    + destruct (ext_fl x k b) as [b' ->]. now apply IH.
Qed.
Lemma s2_readSimple n : nofl (readSimple n).
Proof.
  intros w1 w2 H. apply same_fl1 in H. destruct H as [b ->]. unfold readSimple.
  destruct (n <? 0)%Z; [split; reflexivity|].
  destruct (n =? 0)%Z; [split; reflexivity|].
  cbn [w_in w_sock fl set_sock].
  destruct (read_raw (Z.to_N n) (w_in w1) (w_sock w1)) as [[r s1] k1] eqn:E1.
  destruct (read_raw_fl _ _ _ b _ _ _ E1) as [b' ->]. destruct r; split; reflexivity.
Qed.
Lemma s2_readExact n : nofl (readExactSizeDataSimple n).
Proof.
  intros w1 w2 H. apply same_fl1 in H. destruct H as [b ->]. unfold readExactSizeDataSimple.
  cbn [w_in w_sock fl set_sock].
  destruct (readExact_raw n (w_in w1) (w_sock w1)) as [[r s1] k1] eqn:E1.
  destruct (readExact_raw_fl _ _ _ b _ _ _ E1) as [b' ->]. destruct r; split; reflexivity.
Qed.
Global Hint Resolve s2_readSimple s2_readExact : nofl.
Lemma s2_header h : nofl (readFrameHeader h).
Proof.
  unfold readFrameHeader. s2_tac.
Qed.
Lemma s2_loop react fuel : forall h short alloc progress, nofl (readPayload_loop react fuel h short alloc progress).
Proof.
  induction fuel as [|fuel IH]; intros h short alloc progress; cbn [readPayload_loop]; [apply s2_fuel|].
  destruct (_ <? _)%Z; [|apply s2_ret]. apply s2_get. intros w1 w2 H. apply same_fl1 in H. destruct H as [b ->]. cbn [w_sock fl set_sock set_listening s_buf].
  cbv zeta. apply s2_bind; [auto with nofl|]. intros [d|e].
  - destruct (alloc <? Z.of_N (lenN d))%Z; [apply s2_undef|]. destruct short; [apply IH|]. apply s2_bind; [auto with nofl|intros _; apply IH].
  - destruct e; [apply IH|apply s2_throw..].
Qed.
Lemma s2_payload react h short : nofl (readPayload react h short).
Proof.
  unfold readPayload. destruct (_ && _)%bool; [apply s2_throw|]. apply s2_get. intros w1 w2 H. apply same_fl1 in H. destruct H as [b ->].
  cbn [w_sock w_in fl set_sock set_listening s_buf]. destruct (_ <? _)%Z; [apply s2_throw|].
  apply s2_bind; [apply s2_loop|]. intros s. apply s2_bind; [|intros _; apply s2_ret].
  destruct short; [apply s2_ret|]. destruct (h_fin h); auto with nofl.
Qed.
Lemma s2_handle react h : nofl (handleFrame react h).
Proof.
  unfold handleFrame.
  assert (forall short, nofl (readPayload react h short ;;; ret tt)) as Hrp.
  { intros short. apply s2_bind; [apply s2_payload|intros _; apply s2_ret]. }
  assert (forall f, nofl (p <- readPayload react h (Some []) ;; notify react (f p))) as Hc.
  { intros f. apply s2_bind; [apply s2_payload|]. intros a. auto with nofl. }
  assert (nofl (ok <- checkForContinuation h ;;
      if (ok : bool) then readPayload react h None ;;; ret tt else throw ExContinuationExpected)) as Hd.
  { apply s2_bind.
    - unfold checkForContinuation. apply s2_get. intros w1 w2 H. apply same_fl1 in H. destruct H as [b ->]. cbn [w_sock fl set_sock set_listening s_last].
      destruct (_ || _)%bool; [apply s2_ret|]. apply s2_bind; [|intros _; apply s2_ret]. apply s2_sock. reflexivity.
    - intros []; [apply Hrp|apply s2_throw]. }
  assert (nofl (w0 <- get ;; if (s_last (w_sock w0) <? 0)%Z then throw ExInvalidState
            else readPayload react h None ;;; ret tt)) as H0.
  { apply s2_get. intros w1 w2 H. apply same_fl1 in H. destruct H as [b ->]. cbn [w_sock fl set_sock set_listening s_last].
    destruct (_ <? 0)%Z; [apply s2_throw|apply Hrp]. }
  destruct (h_opcode h) as [|[[[[p|p|]|[p|p|]|]|[[p|p|]|[p|p|]|]|]|[[[p|p|]|[p|p|]|]|[[p|p|]|[p|p|]|]|]|]];
    first [exact H0|exact Hd|apply Hc|apply s2_throw].
Qed.

(** * The header object passed by the caller does not matter *)
Definition orel {A} (Q : A -> A -> Prop) (o1 o2 : outcome A) : Prop :=
  match o1, o2 with Ret a, Ret b => Q a b | Ret _, _ | _, Ret _ => False | _, _ => o1 = o2 end.
Definition sameR {A} (Q : A -> A -> Prop) (m1 m2 : M A) : Prop := forall w1 w2, same_but_flag w1 w2 ->
  orel Q (fst (m1 w1)) (fst (m2 w2)) /\ same_but_flag (snd (m1 w1)) (snd (m2 w2)).
Lemma sR_bind {A B} Q P (m1 m2 : M A) (f1 f2 : A -> M B) :
  sameR Q m1 m2 -> (forall a b, Q a b -> sameR P (f1 a) (f2 b)) -> sameR P (bind m1 f1) (bind m2 f2).
Proof.
  intros Hm Hf w1 w2 H. unfold bind. destruct (Hm w1 w2 H) as [H1 H2].
  destruct (m1 w1) as [o1 v1], (m2 w2) as [o2 v2]; cbn [fst snd] in *.
  destruct o1, o2; cbn in H1; try contradiction; try (split; [cbn; congruence|exact H2]). now apply Hf.
Qed.
Lemma sR_ret {A} (Q : A -> A -> Prop) a b : Q a b -> sameR Q (ret a) (ret b).
Proof. intros Hq w1 w2 H. auto. Qed.
Lemma sR_throw {A} (Q : A -> A -> Prop) e : sameR Q (throw e) (throw e).
Proof. intros w1 w2 H. split; [reflexivity|exact H]. Qed.
Lemma sR_same {A} (m1 m2 : M A) : same2 m1 m2 -> sameR eq m1 m2.
Proof.
  intros Hm w1 w2 H. destruct (Hm w1 w2 H) as [H1 H2]. split; [|exact H2]. rewrite H1. destruct (fst (m2 w2)); reflexivity.
Qed.
Lemma sR_eq {A} (m1 m2 : M A) : sameR eq m1 m2 -> same2 m1 m2.
Proof.
  intros Hm w1 w2 H. destruct (Hm w1 w2 H) as [H1 H2]. split; [|exact H2].
  destruct (fst (m1 w1)), (fst (m2 w2)); cbn in H1; try contradiction; congruence.
Qed.

(** The same header, except the masking key of an unmasked frame. *)
Definition heq (h1 h2 : header) : Prop := exists m, h2 = set_mask h1 m /\ (h_hasMask h1 = true -> m = h_mask h1).
Lemma unpack_any bb : lenN bb = 2 -> exists f r1 r2 r3 op hm n, n < 128 /\
  forall h, unpackHeaderBits (be_dec bb) h = (Header f r1 r2 r3 op hm (h_len h) (h_mask h), n).
Proof.
  intros H. apply lenN2 in H as (b0 & b1 & ->).
  assert (be_dec [b0; b1] = b2n b0 * 256 + b2n b1) as ->.
  { change (be_dec [b0; b1]) with (b2n b0 * 256 ^ lenN [b1] + (b2n b1 * 256 ^ lenN (@nil byte) + 0)).
    change (lenN [b1]) with 1. change (lenN (@nil byte)) with 0. lia. }
  do 7 eexists. split; [|intros h; apply unpackHeaderBits_arith]. apply N.mod_lt. lia.
Qed.
Lemma sR_header h1 h2 : sameR heq (readFrameHeader h1) (readFrameHeader h2).
Proof.
  unfold readFrameHeader. apply (sR_bind eq); [apply sR_same; auto with nofl|]. intros bb ? <-.
  destruct (N.eqb_spec (lenN bb) 2) as [Hbb|Hbb]; [|apply sR_throw]. cbn [negb].
  destruct (unpack_any bb Hbb) as (f & r1 & r2 & r3 & op & hm & n & Hn & HU). rewrite !HU. clear HU. cbv beta iota.
  apply (sR_bind (fun a b => exists m, b = set_mask a m)).
  - assert (forall g1 g2 l, (exists z m, g2 = set_mask (set_len g1 z) m) -> sameR (fun a b => exists m, b = set_mask a m) (ret (set_len g1 l)) (ret (set_len g2 l))) as Hl.
    { intros g1 g2 l (z & m & ->). apply sR_ret. exists m. destruct g1; reflexivity. }
    set (g1' := Header f r1 r2 r3 op hm (h_len h1) (h_mask h1)). set (g2' := Header f r1 r2 r3 op hm (h_len h2) (h_mask h2)).
    assert (exists z m, g2' = set_mask (set_len g1' z) m) as Hg by (exists (h_len h2), (h_mask h2); reflexivity).
    destruct (n <? 126) eqn:E1; [now apply Hl|]. destruct (n =? 126) eqn:E2.
    + apply (sR_bind eq); [apply sR_same; auto with nofl|]. intros l2 ? <-. destruct (negb _); [apply sR_throw|now apply Hl].
    + assert (n =? 127 = true) as -> by (apply N.eqb_eq; apply N.ltb_ge in E1; apply N.eqb_neq in E2; lia).
      apply (sR_bind eq); [apply sR_same; auto with nofl|]. intros l3 ? <-. destruct (negb _); [apply sR_throw|now apply Hl].
  - intros a b [m ->]. cbn [set_mask h_hasMask]. destruct (h_hasMask a) eqn:Ea.
    + apply (sR_bind eq); [apply sR_same; auto with nofl|]. intros mk ? <-. destruct (negb _); [apply sR_throw|].
      apply sR_ret. exists (mask_of mk). split; [reflexivity|reflexivity].
    + apply sR_ret. exists m. split; [reflexivity|congruence].
Qed.
Lemma bind_ext {A B} (m1 m2 : M A) (f1 f2 : A -> M B) : (forall w, m1 w = m2 w) -> (forall a w, f1 a w = f2 a w) -> forall w, bind m1 f1 w = bind m2 f2 w.
Proof. intros Hm Hf w. unfold bind. rewrite Hm. destruct (m2 w) as [[] ?]; auto. Qed.
Lemma loop_heq react m h fuel : h_hasMask h = false -> forall short alloc progress w,
  readPayload_loop react fuel (set_mask h m) short alloc progress w = readPayload_loop react fuel h short alloc progress w.
Proof.
  intros Hm. induction fuel as [|fuel IH]; intros short alloc progress w; cbn [readPayload_loop]; [reflexivity|].
  cbn [set_mask h_len h_hasMask h_mask h_opcode]. rewrite Hm.
  destruct (progress <? h_len h)%Z; [|reflexivity]. apply bind_ext; [reflexivity|]. intros w0 w1. cbv zeta.
  apply bind_ext; [reflexivity|]. intros [d|[]] w2; try reflexivity; [|apply IH].
  destruct (alloc <? Z.of_N (lenN d))%Z; [reflexivity|]. destruct short; [apply IH|].
  apply bind_ext; [reflexivity|]. intros _ w3. apply IH.
Qed.
Lemma handle_heq react h1 h2 w : heq h1 h2 -> handleFrame react h2 w = handleFrame react h1 w.
Proof.
  intros (m & -> & Hm). destruct (h_hasMask h1) eqn:E.
  - rewrite (Hm eq_refl). destruct h1; reflexivity.
  - clear Hm.
    assert (forall short w, readPayload react (set_mask h1 m) short w = readPayload react h1 short w) as Hp.
    { intros short w0. unfold readPayload. cbn [set_mask h_len h_fin h_opcode]. destruct (_ && _)%bool; [reflexivity|].
      apply bind_ext; [reflexivity|]. intros w1 w2. destruct (_ <? 0)%Z; [reflexivity|]. apply bind_ext; [|reflexivity].
      intros w3. now apply loop_heq. }
    unfold handleFrame. cbn [set_mask h_opcode].
    assert (forall short w, (readPayload react (set_mask h1 m) short ;;; ret tt) w = (readPayload react h1 short ;;; ret tt) w) as Hp2.
    { intros short. now apply bind_ext. }
    assert (forall k w, (p <- readPayload react (set_mask h1 m) (Some []) ;; k p : M unit) w = (p <- readPayload react h1 (Some []) ;; k p) w) as Hp3.
    { intros k. now apply bind_ext. }
    destruct (h_opcode h1) as [|[[[[p|p|]|[p|p|]|]|[[p|p|]|[p|p|]|]|]|[[[p|p|]|[p|p|]|]|[[p|p|]|[p|p|]|]|]|]]; try reflexivity;
      try (apply Hp3);
      (apply bind_ext; [reflexivity|]; intros a w1; first [destruct (a : bool)|destruct (_ <? 0)%Z]; [first [apply Hp2|reflexivity]|first [apply Hp2|reflexivity]]).
Qed.

(** * The flag stays set *)
Definition keeps_on (_ : bool) (w w' : world) : Prop :=
  healthy (w_wr w) -> s_listening (w_sock w) = true -> healthy (w_wr w') /\ s_listening (w_sock w') = true.
Lemma keeps_cmds cs : Forall small_cmd cs -> existsb is_stop_cmd cs = false -> forall w o w', exec_cmds cs w = (o, w') -> keeps_on true w w'.
Proof.
  assert (2 ^ 31 < 2 ^ 63) as Hpow by reflexivity.
  induction 1 as [|c cs Hc _ IH]; intros Hst w o w' E Hh Hl; cbn [exec_cmds] in E.
  - injection E as <- <-. auto.
  - cbn [existsb] in Hst. apply orb_false_iff in Hst. destruct Hst as [Hs1 Hs2]. specialize (IH Hs2).
    unfold bind in E. destruct (exec_cmd c w) as [o1 w1] eqn:E1.
    assert (healthy (w_wr w1) /\ s_listening (w_sock w1) = true) as [Hh1 Hl1].
    { assert (forall op o2 w2, lenN (req_payload op) < 2 ^ 31 -> send op w = (o2, w2) -> healthy (w_wr w2) /\ w_sock w2 = w_sock w) as Hsend.
      { intros op o2 w2 Hlt E2. apply send_spec in E2; [|lia]. destruct E2 as (p & _ & _ & _ & _ & _ & _ & _ & _ & Hx).
        destruct (Hx Hh (fun _ => Hlt)) as (_ & _ & H1 & H2). auto. }
      destruct c as [|l|m' b|catch op| | |fin0 opc0 msg0]; cbn [exec_cmd] in E1; try discriminate Hs1;
        try (injection E1 as <- <-; split; [exact Hh|]; cbn; exact Hl).
      - destruct (send op w) as [o2 w2] eqn:E2. pose proof E2 as E3. apply Hsend in E3; [|exact Hc]. destruct E3 as [H1 H2].
        assert (w1 = w2) as -> by (destruct catch; unfold try_ in E1; rewrite E2 in E1; [destruct o2; congruence|congruence]).
        now rewrite H2.
      - cbn [small_cmd] in Hc. apply demand_healthy in E1; [|lia|exact Hh|intros _; exact Hc]. destruct E1 as [-> E1].
        apply Hsend in E1; [|exact Hc]. destruct E1 as [H1 H2]. now rewrite H2. }
    destruct o1; [exact (IH _ _ _ E Hh1 Hl1)|injection E as <- <-; auto..].
Qed.

Section Pump.
Variable react : react_t.
Hypothesis Hsm : small_react react.
Hypothesis Hns : never_stops react.
Lemma keeps_notify ev w o w' : notify react ev w = (o, w') -> keeps_on (is_ret o) w w'.
Proof.
  intros E. unfold notify in E. destruct (s_listener (w_sock w)) as [l|].
  - intros Hh Hl. eapply keeps_cmds in E; [exact (E Hh Hl)|apply Hsm|apply Hns].
  - injection E as <- <-. intros Hh Hl. auto.
Qed.
Ltac keeps_side :=
  first [intros c a b d H1 H2 Hh Hl; destruct (H1 Hh Hl); auto; fail
        |intros w0 x Hx Hh Hl; split; [exact Hh|]; destruct x; cbn; auto; exfalso; apply Hx; reflexivity].
Lemma keeps_handle h w o w' : pok no_stop_ext w -> (handleFrame react h) w = (o, w') -> pok no_stop_ext w' /\ keeps_on true w w'.
Proof.
  intros Hp E. refine (rinv_handle react no_stop_ext keeps_on _ _ _ _ _ _ keeps_notify h w o w' Hp E); unfold keeps_on; auto; keeps_side.
Qed.
Lemma keeps_header h w o w' : pok no_stop_ext w -> (readFrameHeader h) w = (o, w') -> pok no_stop_ext w' /\ keeps_on true w w'.
Proof.
  intros Hp E. refine (rinv_header no_stop_ext keeps_on _ _ _ _ h w o w' Hp E); unfold keeps_on; auto; keeps_side.
Qed.

Lemma loop_pump fuel : forall h1 h2 w1 w2 o w1', same_but_flag w1 w2 -> pok no_stop_ext w1 -> healthy (w_wr w1) -> s_listening (w_sock w1) = true ->
  listen_loop react fuel h1 w1 = (o, w1') -> exists w2', pump react fuel h2 w2 = (o, w2') /\ same_but_flag w1' w2'.
Proof.
  induction fuel as [|fuel IH]; intros h1 h2 w1 w2 o w1' Hw Hp Hh Hl E; cbn [listen_loop pump] in *.
  - injection E as <- <-. exists w2. auto.
  - unfold iterateFrame, bind in *. destruct (sR_header h1 h2 w1 w2 Hw) as [H1 H2].
    destruct (readFrameHeader h1 w1) as [oh v1] eqn:E1, (readFrameHeader h2 w2) as [oh2 v2]; cbn [fst snd] in *.
    destruct (keeps_header _ _ _ _ Hp E1) as [Hp1 Hk]. destruct (Hk Hh Hl) as [Hh1 Hl1].
    destruct oh as [h1'|e| |u|], oh2 as [h2'|e2| |u2|]; cbn in H1; try contradiction; try discriminate H1;
      try (injection E as <- <-; exists v2; split; [congruence|exact H2]).
    destruct (s2_handle react h1' v1 v2 H2) as [H3 H4]. rewrite (handle_heq react h1' h2' v2 H1).
    destruct (handleFrame react h1' v1) as [oo u1] eqn:E2, (handleFrame react h1' v2) as [oo2 u2]; cbn [fst snd] in *. subst oo2.
    destruct (keeps_handle _ _ _ _ Hp1 E2) as [Hp2 Hk2]. destruct (Hk2 Hh1 Hl1) as [Hh2 Hl2].
    destruct oo as [[]|e| |u|]; try (injection E as <- <-; exists u2; split; [reflexivity|exact H4]).
    unfold get, ret in *. rewrite Hl2, andb_true_r in E.
    assert (h_opcode h2' = h_opcode h1') as -> by (destruct H1 as (m & -> & _); reflexivity).
    change OPCODE_CLOSE with 8 in E. destruct (h_opcode h1' =? 8); cbn [negb] in E.
    + injection E as <- <-. exists u2. auto.
    + eapply IH; eassumption.
Qed.
Lemma pump_more fuel : forall k h w o w', pump react fuel h w = (o, w') -> o <> OutOfFuel -> pump react (fuel + k) h w = (o, w').
Proof.
  induction fuel as [|fuel IH]; intros k h w o w' E Ho; cbn [pump Nat.add] in *; [injection E as <- <-; congruence|].
  unfold bind in *. destruct (iterateFrame react h w) as [o1 w1]. destruct o1; try exact E.
  destruct (_ =? 8); [exact E|]. now apply IH.
Qed.
End Pump.

(** * C65: calling iterateFrame until a Close frame has been handled is listening *)
Theorem C65_pump : forall react h fuel w o w',
  small_react react -> never_stops react -> script_ok no_stop_ext any_err (w_in w) -> healthy (w_wr w) ->
  (script_size (w_in w) < fuel)%nat ->
  listen react w = (o, w') ->
  exists o2 w2, pump react fuel h w = (o2, w2) /\ same_but_flag w' w2 /\
    o = match o2 with Throw _ => Ret tt | _ => o2 end.
Proof.
  intros react h fuel w o w' Hsm Hns Hs Hh Hf E.
  unfold listen, bind, modify_sock, get, try_ in E. set (w0 := set_sock w (set_listening (w_sock w) true)) in E.
  destruct (listen_loop react (S (script_size (w_in w0))) header_init w0) as [o1 w1] eqn:E1.
  pose proof E1 as E2. apply listen_loop_fin in E2; [|lia].
  eapply (loop_pump react Hsm Hns _ _ h w0 w) in E1; [|reflexivity|exact Hs|exact Hh|reflexivity].
  destruct E1 as (w2 & E1 & Hw). change (w_in w0) with (w_in w) in E1.
  apply (pump_more react _ (fuel - S (script_size (w_in w)))) in E1; [|exact E2].
  replace (S (script_size (w_in w)) + (fuel - S (script_size (w_in w))))%nat with fuel in E1 by lia.
  exists o1, w2. split; [exact E1|]. destruct o1; injection E as <- <-; auto.
Qed.
Print Assumptions C65_pump.

Example C65_nonvacuous :
  let w := World [RData x89 [x01; x70; x81; x02; x68]; RIo IoRetry; RExt (XSetListener (Some 7%nat)); RData x69 []; RData x88 [x00]; RData x81 [x00]]
             [WAccept 1; WIo IoRetry] [] (fun i => n2b (N.of_nat i)) 0 [] (set_listener (sock_new false) (Some 7%nat)) in
  let w' := snd (pump (SpecReply.echo 100) 30 (Header true true true true 9 true 77 (Mask4 x01 x02 x03 x04)) w) in
  small_react (SpecReply.echo 100) /\ never_stops (SpecReply.echo 100) /\ script_ok no_stop_ext any_err (w_in w) /\ healthy (w_wr w) /\
  (script_size (w_in w) < 30)%nat /\
  w_log w' = [(7%nat, EvPing [x70]); (7%nat, EvMsg 1 [x68]); (7%nat, EvMsg 1 [x69]); (7%nat, EvEnd 1); (7%nat, EvClose 0 [])] /\
  w_out w' = [x8a; x01; x70] ++ [x81; x02; x68; x69] ++ [x88; x02; x00; x00] /\ w_in w' = [RData x81 [x00]].
Proof.
  cbv zeta. split; [|split; [|split; [repeat constructor; discriminate|split; [repeat constructor|split; [vm_compute; lia|]]]]].
  - intros l log. unfold SpecReply.echo. destruct (snd (last log (0%nat, EvEnd 0))) as [o d|o|p|p|c p]; try constructor.
    + destruct o as [|[[]|[]|]]; try constructor; destruct (N.leb_spec (lenN (collect (removelast log))) 100); repeat constructor; cbn; unfold req_payload; cbn; lia.
    + destruct (N.leb_spec (lenN p) 125); repeat constructor; cbn; unfold req_payload; cbn; lia.
    + destruct (N.leb_spec (lenN p) 123); repeat constructor; cbn; unfold req_payload; cbn; rewrite lenN_app, lenN_be_enc; lia.
  - intros l log. unfold SpecReply.echo. destruct (snd (last log (0%nat, EvEnd 0))) as [o d|o|p|p|c p]; try reflexivity.
    + destruct o as [|[[]|[]|]]; try reflexivity; destruct (N.leb_spec (lenN (collect (removelast log))) 100); reflexivity.
    + destruct (N.leb_spec (lenN p) 125); reflexivity.
    + destruct (N.leb_spec (lenN p) 123); reflexivity.
  - split; [vm_compute; reflexivity|]. split; vm_compute; reflexivity.
Qed.
