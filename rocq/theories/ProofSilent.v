(** A socket without a listener against one with a passive listener (C27). *)
From Verif Require Import Bytes Frame World WebSocket SpecFrame SpecSend SpecListen
  ProofFrame ProofStream ProofSend ProofHeader ProofListen ProofInv ProofRel.
From Coq Require Import ZifyBool ZifyNat ZifyN.
Local Open Scope N_scope.
Local Open Scope m_scope.
Local Arguments takeN : simpl never.
Local Arguments dropN : simpl never.
Local Arguments lenN : simpl never.



Lemma alike_ext l x k1 k2 : no_install x -> alike l k1 k2 -> alike l (apply_ext x k1) (apply_ext x k2).
Proof. intros Hx [-> H]. destruct x; cbn in *; [split; auto|contradiction|split; auto]. Qed.

Lemma read_raw_alike l n s : script_ok no_install any_err s -> forall k1 k2 r s' k1',
  alike l k1 k2 -> read_raw n s k1 = (r, s', k1') ->
  exists k2', read_raw n s k2 = (r, s', k2') /\ alike l k1' k2'.
Proof.
  induction 1 as [|e s He Hs IH]; intros k1 k2 r s' k1' Ha E; cbn [read_raw] in *.
  - triple E. eauto.
  - destruct e as [b bs|e|x]; [triple E; eauto..|]. eapply IH; [|exact E]. now apply alike_ext.
Qed.

Lemma readExact_raw_alike l s : script_ok no_install any_err s -> forall n k1 k2 r s' k1',
  alike l k1 k2 -> readExact_raw n s k1 = (r, s', k1') ->
  exists k2', readExact_raw n s k2 = (r, s', k2') /\ alike l k1' k2'.
Proof.
  induction 1 as [|e s He Hs IH]; intros n k1 k2 r s' k1' Ha E; cbn [readExact_raw] in *.
  - destruct (n =? 0); triple E; eauto.
  - destruct (n =? 0); [triple E; eauto|].
    destruct e as [b bs|e|x].
    + destruct (n <=? lenN (b :: bs)); [triple E; eauto|].
      destruct (readExact_raw (n - lenN (b :: bs)) s k1) as [[r1 s1] k11] eqn:E1.
      eapply IH in E1; [|exact Ha]. destruct E1 as (k2' & -> & Ha').
      destruct r1; triple E; eauto.
    + destruct e; [eapply IH; [exact Ha|exact E]|triple E; eauto..].
    + eapply IH; [|exact E]. now apply alike_ext.
Qed.

Section Silent.
Variable react : react_t.
Variable l : nat.
Hypothesis Hpassive : forall log, react l log = [].

Definition msim {A} (m1 m2 : M A) : Prop := forall w1 w2 o w1',
  script_ok no_install any_err (w_in w1) -> same_but l w1 w2 -> m1 w1 = (o, w1') ->
  exists w2', m2 w2 = (o, w2') /\ same_but l w1' w2' /\ w_log w1' = w_log w1 /\
              script_ok no_install any_err (w_in w1').

Lemma msim_bind {A B} (m1 m2 : M A) (f1 f2 : A -> M B) :
  msim m1 m2 -> (forall a, msim (f1 a) (f2 a)) -> msim (bind m1 f1) (bind m2 f2).
Proof.
  intros Hm Hf w1 w2 o w1' Hs Hw E. unfold bind in *. destruct (m1 w1) as [o1 x1] eqn:E1.
  eapply Hm in E1; [|exact Hs|exact Hw]. destruct E1 as (x2 & -> & Hx & Hl & Hs').
  destruct o1; try (injection E as <- <-; exists x2; auto).
  eapply Hf in E; [|exact Hs'|exact Hx]. destruct E as (w2' & H1 & H2 & H3 & H4). exists w2'.
  repeat (split; [assumption || congruence|]). exact H4.
Qed.

Lemma msim_ret {A} (a : A) : msim (ret a) (ret a).
Proof. intros w1 w2 o w1' Hs Hw E. injection E as <- <-. exists w2. auto. Qed.
Lemma msim_throw {A} e : msim (@throw A e) (throw e).
Proof. intros w1 w2 o w1' Hs Hw E. injection E as <- <-. exists w2. auto. Qed.
Lemma msim_undef {A} e : msim (@undef A e) (undef e).
Proof. intros w1 w2 o w1' Hs Hw E. injection E as <- <-. exists w2. auto. Qed.
Lemma msim_fuel {A} : msim (@out_of_fuel A) out_of_fuel.
Proof. intros w1 w2 o w1' Hs Hw E. injection E as <- <-. exists w2. auto. Qed.

(** Continuations that look at the world only through the parts that agree. *)
Lemma msim_get {A} (f1 f2 : world -> M A) :
  (forall w1 w2, same_but l w1 w2 -> msim (f1 w1) (f2 w2)) -> msim (bind get f1) (bind get f2).
Proof. intros H w1 w2 o w1' Hs Hw E. unfold bind, get in *. eapply H; eassumption. Qed.

Lemma msim_notify ev : msim (notify react ev) (notify react ev).
Proof.
  intros w1 w2 o w1' Hs Hw E. unfold notify in *.
  pose proof Hw as (H1 & H2 & H3 & H4 & H5 & Ha & Hb). rewrite Ha in E. cbn in E. injection E as <- <-.
  rewrite Hb, Hpassive. cbn. eexists. split; [reflexivity|]. split; [|auto].
  unfold same_but, alike. cbn. repeat (split; [assumption|]). exact Hb.
Qed.

Lemma msim_modify f : (forall k, f (set_listener k None) = set_listener (f k) None) ->
  (forall k, s_listener (f k) = s_listener k) -> msim (modify_sock f) (modify_sock f).
Proof.
  intros Hf Hg w1 w2 o w1' Hs (H1 & H2 & H3 & H4 & H5 & Ha & Hb) E. injection E as <- <-.
  eexists. split; [reflexivity|]. split; [|auto]. repeat (split; [assumption|]). cbn. split; [|rewrite Hg; exact Hb].
  now rewrite Ha, Hf.
Qed.

Lemma msim_exact n : msim (readExactSizeDataSimple n) (readExactSizeDataSimple n).
Proof.
  intros w1 w2 o w1' Hs (H1 & H2 & H3 & H4 & H5 & Ha) E. unfold readExactSizeDataSimple in *.
  destruct (readExact_raw n (w_in w1) (w_sock w1)) as [[r s1] k1] eqn:E1.
  pose proof (readExact_ok _ _ _ _ _ _ _ _ E1 Hs) as Hok.
  eapply readExact_raw_alike in E1; [|exact Hs|exact Ha]. destruct E1 as (k2 & E2 & Ha2).
  rewrite H1 in E2. rewrite E2.
  destruct r; injection E as <- <-; (eexists; split; [reflexivity|]; split; [|split; [reflexivity|]]);
    cbn; try (repeat (split; [assumption || reflexivity|]); exact Ha2); apply Hok.
Qed.

Lemma msim_simple n : msim (readSimple n) (readSimple n).
Proof.
  intros w1 w2 o w1' Hs (H1 & H2 & H3 & H4 & H5 & Ha) E. unfold readSimple in *.
  destruct (n <? 0)%Z; [injection E as <- <-; exists w2; split; [reflexivity|]; split; [|auto]|].
  { repeat (split; [assumption|]). exact Ha. }
  destruct (n =? 0)%Z; [injection E as <- <-; exists w2; split; [reflexivity|]; split; [|auto]|].
  { repeat (split; [assumption|]). exact Ha. }
  destruct (read_raw (Z.to_N n) (w_in w1) (w_sock w1)) as [[r s1] k1] eqn:E1.
  pose proof (read_raw_ok _ _ _ _ _ _ _ _ E1 Hs) as Hok.
  eapply read_raw_alike in E1; [|exact Hs|exact Ha]. destruct E1 as (k2 & E2 & Ha2).
  rewrite H1 in E2. rewrite E2.
  destruct r; injection E as <- <-; (eexists; split; [reflexivity|]; split; [|split; [reflexivity|]]);
    cbn; try (repeat (split; [assumption || reflexivity|]); exact Ha2); apply Hok.
Qed.

Lemma msim_header h : msim (readFrameHeader h) (readFrameHeader h).
Proof.
  unfold readFrameHeader. apply msim_bind; [apply msim_exact|]. intros bb.
  destruct (negb _); [apply msim_throw|]. destruct (unpackHeaderBits (be_dec bb) h) as [h1 l7].
  apply msim_bind.
  - destruct (_ <? _); [apply msim_ret|]. destruct (_ =? _).
    + apply msim_bind; [apply msim_exact|]. intros l2. destruct (negb _); [apply msim_throw|apply msim_ret].
    + destruct (_ =? _); [|apply msim_ret]. apply msim_bind; [apply msim_exact|]. intros l3.
      destruct (negb _); [apply msim_throw|apply msim_ret].
  - intros h2. destruct (h_hasMask h2); [|apply msim_ret]. apply msim_bind; [apply msim_exact|]. intros mk.
    destruct (negb _); [apply msim_throw|apply msim_ret].
Qed.

Lemma same_buf w1 w2 : same_but l w1 w2 -> s_buf (w_sock w1) = s_buf (w_sock w2).
Proof. intros (_ & _ & _ & _ & _ & -> & _). reflexivity. Qed.
Lemma same_last w1 w2 : same_but l w1 w2 -> s_last (w_sock w1) = s_last (w_sock w2).
Proof. intros (_ & _ & _ & _ & _ & -> & _). reflexivity. Qed.
Lemma same_listening w1 w2 : same_but l w1 w2 -> s_listening (w_sock w1) = s_listening (w_sock w2).
Proof. intros (_ & _ & _ & _ & _ & -> & _). reflexivity. Qed.

Lemma msim_loop fuel : forall h short alloc progress,
  msim (readPayload_loop react fuel h short alloc progress) (readPayload_loop react fuel h short alloc progress).
Proof.
  induction fuel as [|fuel IH]; intros h short alloc progress; cbn [readPayload_loop]; [apply msim_fuel|].
  destruct (_ <? _)%Z; [|apply msim_ret]. apply msim_get. intros w1 w2 Hw. rewrite (same_buf _ _ Hw). cbv zeta.
  apply msim_bind; [apply msim_simple|]. intros [d|e].
  - destruct (_ <? _)%Z; [apply msim_undef|]. destruct short; [apply IH|].
    apply msim_bind; [apply msim_notify|intros _; apply IH].
  - destruct e; [apply IH|apply msim_throw..].
Qed.

Lemma msim_payload h short : msim (readPayload react h short) (readPayload react h short).
Proof.
  unfold readPayload. destruct (_ && _)%bool; [apply msim_throw|].
  apply msim_get. intros w1 w2 Hw. rewrite (same_buf _ _ Hw). replace (w_in w2) with (w_in w1) by apply Hw.
  destruct (_ <? _)%Z; [apply msim_throw|].
  apply msim_bind; [apply msim_loop|]. intros s. apply msim_bind; [|intros _; apply msim_ret].
  destruct short; [apply msim_ret|]. destruct (h_fin h); [apply msim_notify|apply msim_ret].
Qed.

Lemma msim_handle h : msim (handleFrame react h) (handleFrame react h).
Proof.
  unfold handleFrame.
  assert (forall short, msim (readPayload react h short ;;; ret tt) (readPayload react h short ;;; ret tt)) as Hrp.
  { intros short. apply msim_bind; [apply msim_payload|intros _; apply msim_ret]. }
  assert (forall f, msim (p <- readPayload react h (Some []) ;; notify react (f p))
                         (p <- readPayload react h (Some []) ;; notify react (f p))) as Hc.
  { intros f. apply msim_bind; [apply msim_payload|]. intros a. apply msim_notify. }
  assert (let m := (ok <- checkForContinuation h ;;
      if (ok : bool) then readPayload react h None ;;; ret tt else throw ExContinuationExpected) in msim m m) as Hd.
  { cbv zeta. apply msim_bind.
    - unfold checkForContinuation. apply msim_get. intros w1 w2 Hw. rewrite (same_last _ _ Hw). cbv zeta.
      destruct (_ || _)%bool; [apply msim_ret|]. apply msim_bind; [|intros _; apply msim_ret].
      apply msim_modify; reflexivity.
    - intros []; [apply Hrp|apply msim_throw]. }
  assert (let m := (w0 <- get ;; if (s_last (w_sock w0) <? 0)%Z then throw ExInvalidState
            else readPayload react h None ;;; ret tt) in msim m m) as H0.
  { cbv zeta. apply msim_get. intros w1 w2 Hw. rewrite (same_last _ _ Hw).
    destruct (_ <? 0)%Z; [apply msim_throw|apply Hrp]. }
  cbv zeta in Hd, H0.
  destruct (h_opcode h) as [|[[[[p|p|]|[p|p|]|]|[[p|p|]|[p|p|]|]|]|[[[p|p|]|[p|p|]|]|[[p|p|]|[p|p|]|]|]|]];
    first [exact H0|exact Hd|apply Hc|apply msim_throw].
Qed.

Lemma msim_listen_loop fuel : forall h, msim (listen_loop react fuel h) (listen_loop react fuel h).
Proof.
  induction fuel as [|fuel IH]; intros h; cbn [listen_loop]; [apply msim_fuel|].
  apply msim_bind; [apply msim_header|]. intros h'. apply msim_bind; [apply msim_handle|]. intros _.
  apply msim_get. intros w1 w2 Hw. rewrite (same_listening _ _ Hw).
  destruct (_ && _)%bool; [apply IH|apply msim_ret].
Qed.

Lemma msim_listen : msim (listen react) (listen react).
Proof.
  unfold listen. apply msim_bind; [apply msim_modify; reflexivity|]. intros _.
  apply msim_get. intros w1 w2 Hw. replace (w_in w2) with (w_in w1) by apply Hw.
  intros v1 v2 o v1' Hs Hv E. unfold try_ in *. destruct (listen_loop _ _ _ v1) as [o1 u1] eqn:E1.
  eapply msim_listen_loop in E1; [|exact Hs|exact Hv]. destruct E1 as (u2 & -> & H).
  destruct o1; injection E as <- <-; exists u2; auto.
Qed.
End Silent.
