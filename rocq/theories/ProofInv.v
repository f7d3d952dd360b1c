(** Invariants of listening that hold for every listener behaviour and every external call:
    termination, chunk sizes and memory safety. *)
From Verif Require Import Bytes Frame World WebSocket SpecFrame SpecSend SpecListen
  ProofFrame ProofStream ProofSend ProofHeader ProofListen.
From Coq Require Import ZifyBool ZifyNat ZifyN.
Local Open Scope N_scope.
Local Open Scope m_scope.
Local Arguments takeN : simpl never.
Local Arguments dropN : simpl never.
Local Arguments lenN : simpl never.
Local Arguments be_enc : simpl never.
Local Arguments be_dec : simpl never.

(** * Termination *)

(** The script does not grow and fuel does not run out. *)
Definition fin_ok {A} (w : world) (o : outcome A) (w' : world) : Prop :=
  (script_size (w_in w') <= script_size (w_in w))%nat /\ o <> OutOfFuel.

Lemma exec_cmds_in cs w o w' : exec_cmds cs w = (o, w') -> w_in w' = w_in w /\ o <> OutOfFuel.
Proof.
  revert w; induction cs as [|c cs IH]; intros w E; cbn [exec_cmds] in E.
  - injection E as <- <-. split; [reflexivity|discriminate].
  - unfold bind in E. destruct (exec_cmd c w) as [o1 w1] eqn:E1.
    assert (w_in w1 = w_in w /\ o1 <> OutOfFuel) as [H1 H2].
    { destruct c as [|l|m b|catch op| | |fin0 opc0 msg0]; cbn [exec_cmd] in E1;
        try (injection E1 as <- <-; split; [reflexivity|discriminate]).
      all: match type of E1 with (?p = _) => match p with (?mm ?ww) => assert (keeps mm) as K by (first [exact (keeps_send_cmd (CSend catch op) I)|auto with keeps]) end end; apply K in E1. all: destruct E1 as [(H & _) Ho]; split; [exact H|]; intros ->; exact Ho. }
    destruct o1; try (injection E as <- <-; split; [exact H1|congruence]).
    apply IH in E. now rewrite <- H1.
Qed.

Section Fin.
Variable react : react_t.

Lemma notify_in ev w o w' : notify react ev w = (o, w') -> w_in w' = w_in w /\ o <> OutOfFuel.
Proof.
  unfold notify. destruct (s_listener (w_sock w)) as [l|]; intros E.
  - apply exec_cmds_in in E. exact E.
  - injection E as <- <-. split; [reflexivity|discriminate].
Qed.

Lemma readExact_fin n w o w' : readExactSizeDataSimple n w = (o, w') -> o <> OutOfFuel.
Proof. intros E. apply readExact_spec in E. destruct E as [_ E]. intros ->. exact E. Qed.

Lemma loop_fin fuel : forall h short alloc progress w o w',
  (script_size (w_in w) < fuel)%nat ->
  readPayload_loop react fuel h short alloc progress w = (o, w') -> fin_ok w o w'.
Proof.
  induction fuel as [|fuel IH]; intros h short alloc progress w o w' Hf E; [lia|].
  cbn [readPayload_loop] in E. destruct (progress <? h_len h)%Z.
  2:{ injection E as <- <-. split; [lia|discriminate]. }
  unfold bind at 1, get in E. cbv zeta in E.
  set (desired := (if h_len h - progress <? s_buf (w_sock w) then h_len h - progress else s_buf (w_sock w))%Z) in E.
  unfold bind at 1, readSimple in E.
  destruct (Z.ltb_spec desired 0); [injection E as <- <-; split; [lia|discriminate]|].
  destruct (Z.eqb_spec desired 0); [injection E as <- <-; split; [lia|discriminate]|].
  destruct (read_raw (Z.to_N desired) (w_in w) (w_sock w)) as [[r s1] k1] eqn:E1.
  assert (0 < Z.to_N desired) as HdN by lia.
  pose proof (read_raw_bytes _ _ _ _ _ _ HdN E1) as Hrb.
  destruct r as [d|e|].
  - destruct Hrb as (_ & _ & _ & Hsz).
    destruct (alloc <? Z.of_N (lenN d))%Z; [injection E as <- <-; split; [cbn; lia|discriminate]|].
    destruct short as [s|].
    + apply IH in E; [|cbn; lia]. destruct E as [H1 H2]. split; [cbn in H1; lia|exact H2].
    + unfold bind at 1 in E.
      destruct (notify react _ _) as [o2 w2] eqn:E2. apply notify_in in E2. destruct E2 as [H2 H3]. cbn in H2.
      destruct o2; try (injection E as <- <-; split; [rewrite H2; lia|congruence]).
      apply IH in E; [|rewrite H2; lia]. destruct E as [H4 H5]. rewrite H2 in H4. split; [lia|exact H5].
  - destruct Hrb as (_ & Hsz).
    destruct e; [|injection E as <- <-; split; [cbn; lia|discriminate]..].
    apply IH in E; [|cbn; lia]. destruct E as [H1 H2]. split; [cbn in H1; lia|exact H2].
  - injection E as <- <-. destruct Hrb as [_ ->]. split; [cbn; lia|discriminate].
Qed.

Lemma readPayload_fin h short w o w' : readPayload react h short w = (o, w') -> fin_ok w o w'.
Proof.
  unfold readPayload. destruct (_ && _)%bool; intros E; [injection E as <- <-; split; [lia|discriminate]|].
  unfold bind at 1, get in E. destruct (_ <? 0)%Z; [injection E as <- <-; split; [lia|discriminate]|].
  unfold bind at 1 in E. destruct (readPayload_loop _ _ _ _ _ _ _) as [o1 w1] eqn:E1.
  apply loop_fin in E1; [|lia]. destruct E1 as [H1 H2].
  destruct o1 as [s| | | |]; try (injection E as <- <-; split; [exact H1|congruence]).
  unfold bind at 1 in E.
  assert (forall o2 w2, (match short with
        | None => if h_fin h then notify react (EvEnd (h_opcode h)) else ret tt | Some _ => ret tt end) w1 = (o2, w2) ->
        w_in w2 = w_in w1 /\ o2 <> OutOfFuel) as Hn.
  { intros o2 w2. destruct short; [intros E2; injection E2 as <- <-; split; [reflexivity|discriminate]|].
    destruct (h_fin h); [apply notify_in|intros E2; injection E2 as <- <-; split; [reflexivity|discriminate]]. }
  match type of E with context [let (_, _) := ?t in _] => destruct t as [o2 w2] eqn:E2 end.
  destruct (Hn _ _ eq_refl) as [H3 H4].
  destruct o2; injection E as <- <-; (split; [rewrite H3; exact H1|congruence]).
Qed.

Lemma fin_bind {A B} (m : M A) (f : A -> M B) w o w' :
  (forall o1 w1, m w = (o1, w1) -> fin_ok w o1 w1) ->
  (forall a w1 o' w', f a w1 = (o', w') -> fin_ok w1 o' w') ->
  bind m f w = (o, w') -> fin_ok w o w'.
Proof.
  intros Hm Hf E. unfold bind in E. destruct (m w) as [o1 w1]. destruct (Hm _ _ eq_refl) as [H1 H2].
  destruct o1; try (injection E as <- <-; split; [exact H1|congruence]).
  apply Hf in E. destruct E as [H3 H4]. split; [lia|exact H4].
Qed.

Lemma fin_notify ev w o w' : notify react ev w = (o, w') -> fin_ok w o w'.
Proof. intros E. apply notify_in in E. destruct E as [H1 H2]. split; [rewrite H1; lia|exact H2]. Qed.

Lemma fin_refl {A} (o : outcome A) w : o <> OutOfFuel -> fin_ok w o w.
Proof. intros H; split; [lia|exact H]. Qed.

Lemma handleFrame_fin h w o w' : handleFrame react h w = (o, w') -> fin_ok w o w'.
Proof.
  unfold handleFrame. intros E.
  assert (forall short w o w', (readPayload react h short ;;; ret tt) w = (o, w') -> fin_ok w o w') as Hrp.
  { intros short w1 o1 w1'. apply fin_bind; [apply readPayload_fin|].
    intros a w2 o2 w2' E2. injection E2 as <- <-. apply fin_refl. discriminate. }
  assert (forall e w o w', @throw unit e w = (o, w') -> fin_ok w o w') as Hth.
  { intros e w1 o1 w1' E1. injection E1 as <- <-. apply fin_refl. discriminate. }
  assert (forall f w o w', (p <- readPayload react h (Some []) ;; notify react (f p)) w = (o, w') -> fin_ok w o w') as Hc.
  { intros f w1 o1 w1'. apply fin_bind; [apply readPayload_fin|]. intros a. apply fin_notify. }
  assert (forall w o w', (ok <- checkForContinuation h ;;
      if (ok : bool) then readPayload react h None ;;; ret tt else throw ExContinuationExpected) w = (o, w') ->
      fin_ok w o w') as Hd.
  { intros w1 o1 w1'. apply fin_bind.
    - unfold checkForContinuation, bind, get. intros o2 w2 E2.
      destruct (_ || _)%bool; injection E2 as <- <-; (split; [cbn; lia|discriminate]).
    - intros [] w2 o2 w2'; [apply Hrp|apply Hth]. }
  assert (forall w o w', (w0 <- get ;; if (s_last (w_sock w0) <? 0)%Z then throw ExInvalidState
            else readPayload react h None ;;; ret tt) w = (o, w') -> fin_ok w o w') as H0.
  { intros w1 o1 w1' E1. unfold bind at 1, get in E1. destruct (_ <? 0)%Z; [eapply Hth|eapply Hrp]; exact E1. }
  destruct (h_opcode h) as [|[[[[p|p|]|[p|p|]|]|[[p|p|]|[p|p|]|]|]|[[[p|p|]|[p|p|]|]|[[p|p|]|[p|p|]|]|]|]];
    first [eapply Hth; exact E|eapply Hd; exact E|eapply Hc; exact E|eapply H0; exact E].
Qed.

(** A header that was read consumed something; everything else at most shrinks the script. *)
Lemma readFrameHeader_fin h0 w o w' : readFrameHeader h0 w = (o, w') ->
  o <> OutOfFuel /\ (forall h, o = Ret h -> (script_size (w_in w') < script_size (w_in w))%nat) /\
  (forall u, o <> Ub u).
Proof.
  intros E. apply readFrameHeader_spec in E. destruct E as [_ E].
  destruct o as [h| | | |]; try contradiction; (split; [discriminate|]); (split; [|discriminate]); intros h1 E1; try discriminate.
  destruct E as (i & _ & _ & E). exact E.
Qed.

Lemma listen_loop_fin fuel : forall h w o w',
  (script_size (w_in w) < fuel)%nat -> listen_loop react fuel h w = (o, w') -> o <> OutOfFuel.
Proof.
  induction fuel as [|fuel IH]; intros h w o w' Hf E; [lia|].
  cbn [listen_loop] in E. unfold bind at 1 in E.
  destruct (readFrameHeader h w) as [o1 w1] eqn:E1. apply readFrameHeader_fin in E1. destruct E1 as (H1 & H2 & _).
  destruct o1 as [h'| | | |]; try (injection E as <- <-; discriminate); [|congruence].
  specialize (H2 _ eq_refl). unfold bind at 1 in E.
  destruct (handleFrame react h' w1) as [o2 w2] eqn:E2. apply handleFrame_fin in E2. destruct E2 as [H3 H4].
  destruct o2; try (injection E as <- <-; discriminate); [|congruence].
  unfold bind at 1, get in E. destruct (_ && _)%bool; [|injection E as <- <-; discriminate].
  eapply IH; [|exact E]. lia.
Qed.

Lemma listen_total w o w' : listen react w = (o, w') -> o = Ret tt \/ o = Wait \/ exists u, o = Ub u.
Proof.
  intros E. unfold listen, bind, modify_sock, get, try_ in E.
  destruct (listen_loop _ _ _ _) as [o1 w1] eqn:E1. apply listen_loop_fin in E1; [|cbn; lia].
  destruct o1 as [[]| | | |]; injection E as <- <-; eauto. congruence.
Qed.
End Fin.

(** * Chunk sizes and memory safety, for a constant buffer size *)



Section Buf.
Variable react : react_t.
Variable B : Z.
Hypothesis Hre : buf_react B react.

Definition bst (w : world) : Prop := buf_script B (w_in w) /\ s_buf (w_sock w) = B.

Definition bres {A} (w : world) (o : outcome A) (w' : world) : Prop :=
  bst w' /\ (exists new, w_log w' = w_log w ++ new /\ Forall (ev_size B) new) /\
  (forall u, o = Ub u -> u = UbSigned /\ ~ small_react react).

Definition binv {A} (m : M A) : Prop := forall w o w', bst w -> m w = (o, w') -> bres w o w'.

Lemma bres_refl {A} w (o : outcome A) : bst w -> (forall u, o = Ub u -> u = UbSigned /\ ~ small_react react) -> bres w o w.
Proof. intros H Hu. split; [exact H|]. split; [exists []; rewrite app_nil_r; auto|exact Hu]. Qed.

Lemma binv_bind {A C} (m : M A) (f : A -> M C) : binv m -> (forall a, binv (f a)) -> binv (bind m f).
Proof.
  intros Hm Hf w o w' Hb E. unfold bind in E. destruct (m w) as [o1 w1] eqn:E1.
  apply Hm in E1; [|exact Hb]. destruct E1 as (H1 & (n1 & H2 & H3) & H4).
  destruct o1 as [a|e| |u|].
  2-5: injection E as <- <-; split; [exact H1|]; split; [eauto|]; intros; try discriminate.
  - apply Hf in E; [|exact H1]. destruct E as (H5 & (n2 & H6 & H7) & H8). split; [exact H5|]. split; [|exact H8].
    exists (n1 ++ n2). rewrite H6, H2, app_assoc. split; [reflexivity|]. apply Forall_app; auto.
  - apply H4. congruence.
Qed.

Lemma binv_ret {A} (a : A) : binv (ret a).
Proof. intros w o w' Hb E. injection E as <- <-. apply bres_refl; [exact Hb|discriminate]. Qed.
Lemma binv_throw {A} e : binv (@throw A e).
Proof. intros w o w' Hb E. injection E as <- <-. apply bres_refl; [exact Hb|discriminate]. Qed.
Lemma binv_get : binv get.
Proof. intros w o w' Hb E. injection E as <- <-. apply bres_refl; [exact Hb|discriminate]. Qed.

Lemma binv_sock f : (forall k, s_buf k = B -> s_buf (f k) = B) -> binv (modify_sock f).
Proof.
  intros Hf w o w' [H1 H2] E. injection E as <- <-. split; [split; [exact H1|cbn; auto]|].
  split; [exists []; rewrite app_nil_r; auto|discriminate].
Qed.

Lemma binv_try m : binv m -> binv (try_ m).
Proof.
  intros Hm w o w' Hb E. unfold try_ in E. destruct (m w) as [o1 w1] eqn:E1.
  apply Hm in E1; [|exact Hb]. destruct E1 as (H1 & H2 & H3).
  destruct o1; injection E as <- <-; (split; [exact H1|]; split; [exact H2|]); intros; try discriminate.
  apply H3. congruence.
Qed.

Lemma binv_send op : (small_react react -> lenN (req_payload op) < 2 ^ 31) -> binv (send op).
Proof.
  intros Hsm w o w' [H1 H2] E. pose proof E as E'. apply keeps_send in E. destruct E as [(E1 & E2 & E3 & (_ & E4 & _) & _) E5].
  split; [split; [rewrite E1; exact H1|congruence]|].
  split; [exists []; rewrite app_nil_r; auto|]. intros u ->. split; [exact E5|].
  intros Hs. specialize (Hsm Hs). apply send_spec in E'; [|lia]. destruct E' as (p & _ & _ & _ & _ & Hu & _).
  destruct (Hu _ eq_refl) as (_ & _ & Hu'). lia.
Qed.

Lemma binv_cmds cs : Forall (buf_cmd B) cs -> (small_react react -> Forall small_cmd cs) -> binv (exec_cmds cs).
Proof.
  intros Hcs. induction Hcs as [|c cs Hc _ IH]; intros Hs; cbn [exec_cmds]; [apply binv_ret|].
  apply binv_bind; [|intros _; apply IH; intros Hx; specialize (Hs Hx); now inversion Hs].
  assert (small_react react -> small_cmd c) as Hs' by (intros Hx; specialize (Hs Hx); now inversion Hs).
  destruct c as [|l|m b|catch op| | |fin0 opc0 msg0]; cbn [exec_cmd].
  - unfold stopListening. apply binv_sock. auto.
  - apply binv_sock. auto.
  - apply binv_sock. cbn in Hc. auto.
  - destruct catch; [apply binv_try|]; apply binv_send; exact Hs'.
  - apply binv_ret.
  - apply binv_throw.
  - intros w o w' Hb E. destruct (demand_send _ _ _ _ _ _ E) as (o2 & E2 & Ho).
    apply binv_send in E2; [|exact Hs'|exact Hb]. destruct Ho as [<-|[-> ->]]; [exact E2|].
    destruct E2 as (H1 & H2 & _). split; [exact H1|]. split; [exact H2|]. discriminate.
Qed.

Lemma binv_notify ev : (forall l, ev_size B (l, ev)) -> binv (notify react ev).
Proof.
  intros Hev w o w' Hb E. unfold notify in E. destruct (s_listener (w_sock w)) as [l|].
  - apply binv_cmds in E; [|apply Hre|intros Hx; apply Hx|exact Hb]. destruct E as (H1 & (n & H2 & H3) & H4).
    split; [exact H1|]. split; [|exact H4]. exists ((l, ev) :: n). cbn [w_log set_log] in H2.
    rewrite H2, <- app_assoc. split; [reflexivity|]. constructor; auto.
  - injection E as <- <-. apply bres_refl; [exact Hb|discriminate].
Qed.

Lemma bst_ronly w w' : ronly w w' -> bst w -> bst w' /\ w_log w' = w_log w.
Proof.
  intros (_ & _ & _ & _ & Hl & H & _) [H1 H2]. split; [|exact Hl].
  apply (H (fun k => s_buf k = B) (buf_ext B) any_err); [|exact H1|exact H2].
  intros [] y; cbn; auto.
Qed.

Lemma binv_header h : binv (readFrameHeader h).
Proof.
  intros w o w' Hb E. apply readFrameHeader_spec in E. destruct E as [Hr E].
  destruct (bst_ronly _ _ Hr Hb) as [H1 H2]. split; [exact H1|]. split.
  - exists []. rewrite app_nil_r. auto.
  - intros u ->. contradiction.
Qed.

Lemma binv_loop fuel : forall h short progress, (0 <= B)%Z ->
  (0 <= progress)%Z -> binv (readPayload_loop react fuel h short B progress).
Proof.
  induction fuel as [|fuel IH]; intros h short progress HB Hp w o w' Hb E; cbn [readPayload_loop] in E.
  { injection E as <- <-. apply bres_refl; [exact Hb|discriminate]. }
  destruct (Z.ltb_spec progress (h_len h)) as [Hlt|Hge].
  2:{ injection E as <- <-. apply bres_refl; [exact Hb|discriminate]. }
  unfold bind at 1, get in E. cbv zeta in E. rewrite (proj2 Hb) in E.
  set (desired := (if h_len h - progress <? B then h_len h - progress else B)%Z) in E.
  assert (0 <= desired <= B)%Z as Hdes by (unfold desired; destruct (Z.ltb_spec (h_len h - progress) B); lia).
  unfold bind at 1, readSimple in E.
  destruct (Z.ltb_spec desired 0); [lia|].
  destruct (Z.eqb_spec desired 0) as [Ed|Ed].
  { injection E as <- <-. apply bres_refl; [exact Hb|discriminate]. }
  destruct (read_raw (Z.to_N desired) (w_in w) (w_sock w)) as [[r s1] k1] eqn:E1.
  assert (0 < Z.to_N desired) as HdN by lia.
  pose proof (read_raw_bytes _ _ _ _ _ _ HdN E1) as Hrb.
  set (w1 := set_sock (set_in w s1) k1) in *.
  assert (bst w1) as Hb1.
  { destruct Hb as [Hb1 Hb2]. split; cbn.
    - eapply read_raw_ok; eassumption.
    - eapply (read_raw_inv (fun k => s_buf k = B)); [|exact E1|exact Hb1|exact Hb2]. intros [] y; cbn; auto. }
  assert (w_log w1 = w_log w) as Hlog by reflexivity.
  assert (forall A (oo : outcome A) w'', bres w1 oo w'' -> bres w oo w'') as Htr.
  { intros A oo w'' (H1 & H2 & H3). rewrite Hlog in H2. split; [exact H1|]. split; assumption. }
  destruct r as [d|e|].
  - destruct Hrb as (_ & Hd1 & Hd2 & _). destruct (Z.ltb_spec B (Z.of_N (lenN d))); [lia|].
    assert (0 <= progress + Z.of_N (lenN d))%Z as Hp' by lia.
    apply Htr. cbv zeta in E. revert E. destruct short as [s|].
    + apply IH; assumption.
    + apply (binv_bind (notify react _)); [|intros _; apply IH; assumption|exact Hb1].
      apply binv_notify. intros l. unfold ev_size. cbn [snd].
      destruct (h_hasMask h); rewrite ?lenN_xor_from; lia.
  - apply Htr. destruct e; [revert E; apply IH; assumption|..];
      injection E as <- <-; (apply bres_refl; [exact Hb1|discriminate]).
  - apply Htr. injection E as <- <-. apply bres_refl; [exact Hb1|discriminate].
Qed.

Lemma binv_payload h short : binv (readPayload react h short).
Proof.
  intros w o w' Hb E. unfold readPayload in E.
  destruct (_ && _)%bool; [injection E as <- <-; apply bres_refl; [exact Hb|discriminate]|].
  unfold bind at 1, get in E. rewrite (proj2 Hb) in E.
  destruct (Z.ltb_spec B 0); [injection E as <- <-; apply bres_refl; [exact Hb|discriminate]|].
  revert E. apply (binv_bind (readPayload_loop react _ h short B 0)); [apply binv_loop; lia| |exact Hb].
  intros s. apply binv_bind; [|intros _; apply binv_ret].
  destruct short; [apply binv_ret|]. destruct (h_fin h); [|apply binv_ret]. apply binv_notify. intros l; exact I.
Qed.

Lemma binv_handle h : binv (handleFrame react h).
Proof.
  unfold handleFrame.
  assert (forall short, binv (readPayload react h short ;;; ret tt)) as Hrp.
  { intros short. apply binv_bind; [apply binv_payload|intros _; apply binv_ret]. }
  assert (forall f, (forall p l, ev_size B (l, f p)) -> binv (p <- readPayload react h (Some []) ;; notify react (f p))) as Hc.
  { intros f Hf. apply binv_bind; [apply binv_payload|]. intros a. apply binv_notify. apply Hf. }
  assert (binv (ok <- checkForContinuation h ;;
      if (ok : bool) then readPayload react h None ;;; ret tt else throw ExContinuationExpected)) as Hd.
  { apply binv_bind.
    - unfold checkForContinuation. apply binv_bind; [apply binv_get|]. intros w0.
      destruct (_ || _)%bool; [apply binv_ret|]. apply binv_bind; [apply binv_sock; auto|intros _; apply binv_ret].
    - intros []; [apply Hrp|apply binv_throw]. }
  assert (binv (w0 <- get ;; if (s_last (w_sock w0) <? 0)%Z then throw ExInvalidState
            else readPayload react h None ;;; ret tt)) as H0.
  { apply binv_bind; [apply binv_get|]. intros w0. destruct (_ <? 0)%Z; [apply binv_throw|apply Hrp]. }
  destruct (h_opcode h) as [|[[[[p|p|]|[p|p|]|]|[[p|p|]|[p|p|]|]|]|[[[p|p|]|[p|p|]|]|[[p|p|]|[p|p|]|]|]|]];
    first [exact H0|exact Hd|apply Hc; intros; exact I|apply binv_throw].
Qed.

Lemma binv_iterate h : binv (iterateFrame react h).
Proof.
  unfold iterateFrame. apply binv_bind; [apply binv_header|]. intros h'.
  apply binv_bind; [apply binv_handle|intros _; apply binv_ret].
Qed.

Lemma binv_listen_loop fuel : forall h, binv (listen_loop react fuel h).
Proof.
  induction fuel as [|fuel IH]; intros h; cbn [listen_loop].
  - intros w o w' Hb E. injection E as <- <-. apply bres_refl; [exact Hb|discriminate].
  - apply binv_bind; [apply binv_header|]. intros h'. apply binv_bind; [apply binv_handle|]. intros _.
    apply binv_bind; [apply binv_get|]. intros w0. destruct (_ && _)%bool; [apply IH|apply binv_ret].
Qed.

Lemma binv_listen : binv (listen react).
Proof.
  unfold listen. apply binv_bind; [apply binv_sock; auto|]. intros _.
  apply binv_bind; [apply binv_get|]. intros w0. apply binv_try, binv_listen_loop.
Qed.
End Buf.

Lemma tame_buf B react : tame_react react -> buf_react B react.
Proof. intros H l log. eapply Forall_impl; [|apply H]. intros []; cbn; tauto. Qed.

Lemma stop_only_buf B s : stop_only s -> buf_script B s.
Proof.
  intros H. eapply Forall_impl; [|exact H]. intros []; cbn; auto. intros ->. exact I.
Qed.

(** With no empty data chunks, a transcript of control observations determines the log. *)
Lemma transcript_single B l c m new :
  Forall (fun e => Some l = Some (fst e)) new -> Forall (ev_size B) new ->
  transcript new = [OClose c m] -> new = [(l, EvClose c m)].
Proof.
  intros H1 H2 H. destruct new as [|[l1 ev] r]; [discriminate|].
  inversion H1 as [|? ? E1 H1']; subst. inversion H2 as [|? ? E2 H2']; subst. cbn in E1. injection E1 as <-.
  assert (forall r, Forall (ev_size B) r -> transcript r = [] -> r = []) as Hnil.
  { intros [|[l2 e2] r2] Hr Et; [reflexivity|]. inversion Hr as [|? ? E3 _]; subst.
    destruct e2 as [op [|b d]|op|x|x|y x]; try discriminate. cbn in E3. destruct E3. unfold lenN in *; cbn in *; lia. }
  unfold transcript in H. cbn [flat_map snd] in H. fold (transcript r) in H.
  destruct ev as [op d|op|x|x|y x]; cbn [observe app] in H; try discriminate.
  - destruct d as [|b d]; [|discriminate]. cbn in E2. destruct E2; unfold lenN in *; cbn in *; lia.
  - injection H as -> -> H. rewrite (Hnil _ H2' H). reflexivity.
Qed.
