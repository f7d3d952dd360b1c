(** The relational rule of ProofRel with the sizes of data chunks (used for C64). *)
From Verif Require Import Bytes Frame World WebSocket SpecFrame SpecSend SpecListen
  ProofFrame ProofStream ProofSend ProofHeader ProofListen ProofInv ProofRel.
From Coq Require Import ZifyBool ZifyNat ZifyN.
Local Open Scope N_scope.
Local Open Scope m_scope.
Local Arguments takeN : simpl never.
Local Arguments dropN : simpl never.
Local Arguments lenN : simpl never.
Local Arguments be_enc : simpl never.
Local Arguments be_dec : simpl never.

Section Rel2.
Variable react : react_t.
Variable px : ext -> Prop.
Variable R : bool -> world -> world -> Prop.
Hypothesis R_refl : forall w, R true w w.
Hypothesis R_trans : forall c a b d, R true a b -> R c b d -> R c a d.
Hypothesis R_weak : forall c a b, R true a b -> R c a b.
Hypothesis R_in : forall w s, R true w (set_in w s).
Hypothesis R_ext : forall w x, px x -> R true w (set_sock w (apply_ext x (w_sock w))).
Hypothesis R_last : forall w z, R true w (set_sock w (set_last (w_sock w) z)).
Hypothesis R_on : forall w, R true w (set_sock w (set_listening (w_sock w) true)).
Hypothesis px_buf : forall x k, px x -> s_buf (apply_ext x k) = s_buf k.
Hypothesis R_notify : forall ev w o w', (forall l, ev_size (s_buf (w_sock w)) (l, ev)) -> notify react ev w = (o, w') -> R (is_ret o) w w'.

Definition pok2 (w : world) : Prop := script_ok px any_err (w_in w).

Definition rinv2 {A} (m : M A) : Prop := forall w o w', pok2 w -> m w = (o, w') -> pok2 w' /\ R (is_ret o) w w'.

(** The same without the rule for try (used where exceptions end the run). *)
Lemma rinv2_bind {A B} (m : M A) (f : A -> M B) : rinv2 m -> (forall a, rinv2 (f a)) -> rinv2 (bind m f).
Proof.
  intros Hm Hf w o w' Hp E. unfold bind in E. destruct (m w) as [o1 w1] eqn:E1.
  apply Hm in E1; [|exact Hp]. destruct E1 as [H1 H2].
  destruct o1 as [a|e| |u|].
  - apply Hf in E; [|exact H1]. destruct E as [H3 H4]. split; [exact H3|]. eapply R_trans; eassumption.
  - injection E as <- <-. split; assumption.
  - injection E as <- <-. split; assumption.
  - injection E as <- <-. split; assumption.
  - injection E as <- <-. split; assumption.
Qed.

Lemma rinv2_ret {A} (a : A) : rinv2 (ret a).
Proof. intros w o w' Hp E. injection E as <- <-. split; [exact Hp|apply R_refl]. Qed.
Lemma rinv2_throw {A} e : rinv2 (@throw A e).
Proof. intros w o w' Hp E. injection E as <- <-. split; [exact Hp|]. apply R_weak, R_refl. Qed.
Lemma rinv2_get : rinv2 get.
Proof. intros w o w' Hp E. injection E as <- <-. split; [exact Hp|apply R_refl]. Qed.

Lemma rinv2_notify ev w o w' : (forall l, ev_size (s_buf (w_sock w)) (l, ev)) -> pok2 w -> notify react ev w = (o, w') -> pok2 w' /\ R (is_ret o) w w'.
Proof.
  intros Hev Hp E. pose proof (notify_in _ _ _ _ _ E) as [H _].
  split; [unfold pok2; now rewrite H|]. eapply R_notify; eassumption.
Qed.
Lemma rinv2_notify_ctl ev : (forall B l, ev_size B (l, ev)) -> rinv2 (notify react ev).
Proof. intros Hev w o w' Hp E. apply (rinv2_notify ev); auto. Qed.

Lemma R_ronly2 c w w' : ronly w w' -> pok2 w -> pok2 w' /\ R c w w'.
Proof.
  intros (H1 & H2 & H3 & H4 & H5 & H6 & _) Hp.
  destruct (H6 (fun k => R true w (set_sock (set_in w (w_in w')) k)) px any_err) as [H7 H8]; [|exact Hp| |].
  - intros x y Hx Hy. eapply R_trans; [exact Hy|].
    apply (R_ext (set_sock (set_in w (w_in w')) y) x Hx).
  - assert (set_sock (set_in w (w_in w')) (w_sock w) = set_in w (w_in w')) as -> by (destruct w; reflexivity).
    apply R_in.
  - split; [exact H7|]. apply R_weak. assert (set_sock (set_in w (w_in w')) (w_sock w') = w') as <-; [|exact H8].
    clear - H1 H2 H3 H4 H5. destruct w, w'; cbn in H1, H2, H3, H4, H5 |- *. unfold set_sock, set_in; cbn. subst. reflexivity.
Qed.

Lemma rinv2_header h : rinv2 (readFrameHeader h).
Proof. intros w o w' Hp E. apply readFrameHeader_spec in E. destruct E as [Hr _]. now apply R_ronly2. Qed.

Lemma rinv2_readSimple n : rinv2 (readSimple n).
Proof.
  intros w o w' Hp E. unfold readSimple in E.
  destruct (n <? 0)%Z; [injection E as <- <-; split; [exact Hp|apply R_weak, R_refl]|].
  destruct (n =? 0)%Z; [injection E as <- <-; split; [exact Hp|apply R_refl]|].
  destruct (read_raw (Z.to_N n) (w_in w) (w_sock w)) as [[r s1] k1] eqn:E1.
  assert (ronly w (set_sock (set_in w s1) k1)) as Hro.
  { unfold ronly; cbn. do 5 (split; [reflexivity|]). split.
    - intros J px' pe HJ Hs' Hk. split; [eapply read_raw_ok; eassumption|eapply read_raw_inv; eassumption].
    - intros L Hs'. eapply read_raw_tail; eassumption. }
  destruct r; injection E as <- <-; now apply R_ronly2.
Qed.

Lemma rinv2_fuel {A} : rinv2 (@out_of_fuel A).
Proof. intros w o w' Hp E. injection E as <- <-. split; [exact Hp|]. apply R_weak, R_refl. Qed.
Lemma rinv2_undef {A} u : rinv2 (@undef A u).
Proof. intros w o w' Hp E. injection E as <- <-. split; [exact Hp|]. apply R_weak, R_refl. Qed.

Lemma rinv2_loop fuel : forall h short alloc progress, rinv2 (readPayload_loop react fuel h short alloc progress).
Proof.
  induction fuel as [|fuel IH]; intros h short alloc progress w o w' Hp E; cbn [readPayload_loop] in E; [revert Hp E; apply rinv2_fuel|].
  destruct (Z.ltb_spec progress (h_len h)) as [Hlt|Hge]; [|revert Hp E; apply rinv2_ret].
  unfold bind at 1, get in E. cbv zeta in E. set (B := s_buf (w_sock w)) in E.
  set (desired := (if h_len h - progress <? B then h_len h - progress else B)%Z) in E.
  assert (desired <= B)%Z as Hdes by (unfold desired; destruct (Z.ltb_spec (h_len h - progress) B); lia).
  unfold bind at 1 in E. destruct (readSimple desired w) as [o1 w1] eqn:E1.
  destruct (rinv2_readSimple desired w o1 w1 Hp E1) as [Hp1 HR].
  destruct o1 as [r|e| |u|]; try (injection E as <- <-; split; [exact Hp1|]; exact HR).
  assert (s_buf (w_sock w1) = B /\ match r with inl d => d <> [] /\ (Z.of_N (lenN d) <= B)%Z | _ => True end) as [HB Hd].
  { unfold readSimple in E1. destruct (Z.ltb_spec desired 0); [discriminate|].
    destruct (Z.eqb_spec desired 0); [injection E1 as <- <-; split; [reflexivity|exact I]|].
    destruct (read_raw (Z.to_N desired) (w_in w) (w_sock w)) as [[rr s1] k1] eqn:E2.
    assert (0 < Z.to_N desired) as HdN by lia. pose proof (read_raw_bytes _ _ _ _ _ _ HdN E2) as Hrb.
    assert (s_buf k1 = B) as Hk.
    { eapply (read_raw_inv (fun k => s_buf k = B) px any_err); [|exact E2|exact Hp|reflexivity]. intros x y Hx Hy. now rewrite px_buf. }
    destruct rr as [d|e|]; [| |discriminate]; injection E1 as E1a E1b; subst r w1; (split; [exact Hk|]); [|exact I].
    destruct Hrb as (_ & Hd1 & Hd2 & _). split; [intros Hnil; rewrite Hnil in Hd1; vm_compute in Hd1; discriminate|lia]. }
  cbn [is_ret] in HR.
  assert (forall A (oo : outcome A) w2, pok2 w2 /\ R (is_ret oo) w1 w2 -> pok2 w2 /\ R (is_ret oo) w w2) as Htr.
  { intros A oo w2 [H1 H2]. split; [exact H1|]. eapply R_trans; eassumption. }
  destruct r as [d|e].
  - destruct (alloc <? Z.of_N (lenN d))%Z; [apply Htr; revert Hp1 E; apply rinv2_undef|]. apply Htr. destruct short as [s|]; [revert Hp1 E; apply IH|].
    unfold bind in E. destruct (notify react (EvMsg (h_opcode h) (if h_hasMask h then xor_from (h_mask h) (Z.to_N progress) d else d)) w1) as [o2 w2] eqn:E2.
    apply rinv2_notify in E2; [|intros l; unfold ev_size; cbn [snd]; rewrite HB|exact Hp1].
    + destruct E2 as [H1 H2]. destruct o2 as [[]|e| |u|]; try (injection E as <- <-; split; [exact H1|exact H2]).
      apply IH in E; [|exact H1]. destruct E as [H3 H4]. split; [exact H3|]. eapply R_trans; eassumption.
    + assert (1 <= lenN d) by (destruct d; [tauto|rewrite lenN_cons; lia]).
      destruct (h_hasMask h); rewrite ?lenN_xor_from; split; try tauto; lia.
  - apply Htr. destruct e; [revert Hp1 E; apply IH|revert Hp1 E; apply rinv2_throw..].
Qed.

Lemma rinv2_payload h short : rinv2 (readPayload react h short).
Proof.
  unfold readPayload. destruct (_ && _)%bool; [apply rinv2_throw|].
  apply rinv2_bind; [apply rinv2_get|]. intros w0. destruct (_ <? _)%Z; [apply rinv2_throw|].
  apply rinv2_bind; [apply rinv2_loop|]. intros s. apply rinv2_bind; [|intros _; apply rinv2_ret].
  destruct short; [apply rinv2_ret|]. destruct (h_fin h); [apply rinv2_notify_ctl; intros; exact I|apply rinv2_ret].
Qed.

Lemma rinv2_handle h : rinv2 (handleFrame react h).
Proof.
  unfold handleFrame.
  assert (forall short, rinv2 (readPayload react h short ;;; ret tt)) as Hrp.
  { intros short. apply rinv2_bind; [apply rinv2_payload|intros _; apply rinv2_ret]. }
  assert (forall f, (forall p B l, ev_size B (l, f p)) -> rinv2 (p <- readPayload react h (Some []) ;; notify react (f p))) as Hc.
  { intros f Hf. apply rinv2_bind; [apply rinv2_payload|]. intros a. apply rinv2_notify_ctl. apply Hf. }
  assert (rinv2 (ok <- checkForContinuation h ;;
      if (ok : bool) then readPayload react h None ;;; ret tt else throw ExContinuationExpected)) as Hd.
  { apply rinv2_bind.
    - unfold checkForContinuation. apply rinv2_bind; [apply rinv2_get|]. intros w0.
      destruct (_ || _)%bool; [apply rinv2_ret|]. apply rinv2_bind; [|intros _; apply rinv2_ret].
      intros w o w' Hp E. injection E as <- <-. split; [exact Hp|apply R_last].
    - intros []; [apply Hrp|apply rinv2_throw]. }
  assert (rinv2 (w0 <- get ;; if (s_last (w_sock w0) <? 0)%Z then throw ExInvalidState
            else readPayload react h None ;;; ret tt)) as H0.
  { apply rinv2_bind; [apply rinv2_get|]. intros w0. destruct (_ <? 0)%Z; [apply rinv2_throw|apply Hrp]. }
  destruct (h_opcode h) as [|[[[[p|p|]|[p|p|]|]|[[p|p|]|[p|p|]|]|]|[[[p|p|]|[p|p|]|]|[[p|p|]|[p|p|]|]|]|]];
    first [exact H0|exact Hd|apply Hc; intros; exact I|apply rinv2_throw].
Qed.

Lemma rinv2_iterate h : rinv2 (iterateFrame react h).
Proof.
  unfold iterateFrame. apply rinv2_bind; [apply rinv2_header|]. intros h'.
  apply rinv2_bind; [apply rinv2_handle|intros _; apply rinv2_ret].
Qed.

Lemma rinv2_listen_loop fuel : forall h, rinv2 (listen_loop react fuel h).
Proof.
  induction fuel as [|fuel IH]; intros h; cbn [listen_loop]; [apply rinv2_fuel|].
  apply rinv2_bind; [apply rinv2_header|]. intros h'. apply rinv2_bind; [apply rinv2_handle|]. intros _.
  apply rinv2_bind; [apply rinv2_get|]. intros w0. destruct (_ && _)%bool; [apply IH|apply rinv2_ret].
Qed.

(** listen: the final state is that of the loop, whether or not an exception was swallowed. *)
Lemma rel2_listen w o w' : pok2 w -> listen react w = (o, w') -> pok2 w' /\ R false w w'.
Proof.
  intros Hp E. unfold listen, bind at 1 2, modify_sock, get, try_ in E.
  destruct (listen_loop _ _ _ _) as [o1 w1] eqn:E1. apply rinv2_listen_loop in E1; [|exact Hp].
  destruct E1 as [H1 H2].
  assert (w' = w1) as -> by (destruct o1; injection E as <- <-; reflexivity).
  split; [exact H1|]. eapply R_trans; [apply R_on|].
  destruct o1; cbn [is_ret] in H2; auto.
Qed.
End Rel2.
