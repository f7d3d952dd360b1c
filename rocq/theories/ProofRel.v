(** A relational rule for listening code, and two uses: what is sent, who is called. *)
From Verif Require Import Bytes Frame World WebSocket SpecFrame SpecSend SpecListen
  ProofFrame ProofStream ProofSend ProofHeader ProofListen ProofInv.
From Coq Require Import ZifyBool ZifyNat ZifyN.
Local Open Scope N_scope.
Local Open Scope m_scope.
Local Arguments takeN : simpl never.
Local Arguments dropN : simpl never.
Local Arguments lenN : simpl never.
Local Arguments be_enc : simpl never.
Local Arguments be_dec : simpl never.

Definition is_ret {A} (o : outcome A) : bool := match o with Ret _ => true | _ => false end.

Section Rel.
Variable react : react_t.
Variable px : ext -> Prop.
Variable R : bool -> world -> world -> Prop.
Hypothesis R_refl : forall w, R true w w.
Hypothesis R_trans : forall c a b d, R true a b -> R c b d -> R c a d.
Hypothesis R_weak : forall c a b, R true a b -> R c a b.
Hypothesis R_in : forall w s, R true w (set_in w s).
Hypothesis R_ext : forall w x, px x -> R true w (set_sock w (apply_ext x (w_sock w))).
Hypothesis R_last : forall w z, R true w (set_sock w (set_last (w_sock w) z)).
Hypothesis R_on : forall w, R true w (set_sock w (set_listening (w_sock w) true)).
Hypothesis R_notify : forall ev w o w', notify react ev w = (o, w') -> R (is_ret o) w w'.

Definition pok (w : world) : Prop := script_ok px any_err (w_in w).

Definition rinv {A} (m : M A) : Prop := forall w o w', pok w -> m w = (o, w') -> pok w' /\ R (is_ret o) w w'.

(** The same without the rule for try (used where exceptions end the run). *)
Lemma rinv_bind {A B} (m : M A) (f : A -> M B) : rinv m -> (forall a, rinv (f a)) -> rinv (bind m f).
Proof.
  intros Hm Hf w o w' Hp E. unfold bind in E. destruct (m w) as [o1 w1] eqn:E1.
  apply Hm in E1; [|exact Hp]. destruct E1 as [H1 H2].
  destruct o1 as [a|e| |u|].
  - apply Hf in E; [|exact H1]. destruct E as [H3 H4]. split; [exact H3|]. eapply R_trans; eassumption.
  - injection E as <- <-. split; assumption.
  - injection E as <- <-. split; assumption.
  - injection E as <- <-. split; assumption.
  - injection E as <- <-. split; assumption.
Qed.

Lemma rinv_ret {A} (a : A) : rinv (ret a).
Proof. intros w o w' Hp E. injection E as <- <-. split; [exact Hp|apply R_refl]. Qed.
Lemma rinv_throw {A} e : rinv (@throw A e).
Proof. intros w o w' Hp E. injection E as <- <-. split; [exact Hp|]. apply R_weak, R_refl. Qed.
Lemma rinv_get : rinv get.
Proof. intros w o w' Hp E. injection E as <- <-. split; [exact Hp|apply R_refl]. Qed.

Lemma rinv_notify ev : rinv (notify react ev).
Proof.
  intros w o w' Hp E. pose proof (notify_in _ _ _ _ _ E) as [H _].
  split; [unfold pok; now rewrite H|]. eapply R_notify; eassumption.
Qed.

Lemma R_ronly c w w' : ronly w w' -> pok w -> pok w' /\ R c w w'.
Proof.
  intros (H1 & H2 & H3 & H4 & H5 & H6 & _) Hp.
  destruct (H6 (fun k => R true w (set_sock (set_in w (w_in w')) k)) px any_err) as [H7 H8]; [|exact Hp| |].
  - intros x y Hx Hy. eapply R_trans; [exact Hy|].
    apply (R_ext (set_sock (set_in w (w_in w')) y) x Hx).
  - assert (set_sock (set_in w (w_in w')) (w_sock w) = set_in w (w_in w')) as -> by (destruct w; reflexivity).
    apply R_in.
  - split; [exact H7|]. apply R_weak. assert (set_sock (set_in w (w_in w')) (w_sock w') = w') as <-; [|exact H8].
    clear - H1 H2 H3 H4 H5. destruct w, w'; cbn in H1, H2, H3, H4, H5 |- *. unfold set_sock, set_in; cbn. subst. reflexivity.
Qed.

Lemma rinv_header h : rinv (readFrameHeader h).
Proof. intros w o w' Hp E. apply readFrameHeader_spec in E. destruct E as [Hr _]. now apply R_ronly. Qed.

Lemma rinv_readSimple n : rinv (readSimple n).
Proof.
  intros w o w' Hp E. unfold readSimple in E.
  destruct (n <? 0)%Z; [injection E as <- <-; split; [exact Hp|apply R_weak, R_refl]|].
  destruct (n =? 0)%Z; [injection E as <- <-; split; [exact Hp|apply R_refl]|].
  destruct (read_raw (Z.to_N n) (w_in w) (w_sock w)) as [[r s1] k1] eqn:E1.
  assert (ronly w (set_sock (set_in w s1) k1)) as Hro.
  { unfold ronly; cbn. do 5 (split; [reflexivity|]). split.
    - intros J px' pe HJ Hs' Hk. split; [eapply read_raw_ok; eassumption|eapply read_raw_inv; eassumption].
    - intros L Hs'. eapply read_raw_tail; eassumption. }
  destruct r; injection E as <- <-; now apply R_ronly.
Qed.

Lemma rinv_fuel {A} : rinv (@out_of_fuel A).
Proof. intros w o w' Hp E. injection E as <- <-. split; [exact Hp|]. apply R_weak, R_refl. Qed.
Lemma rinv_undef {A} u : rinv (@undef A u).
Proof. intros w o w' Hp E. injection E as <- <-. split; [exact Hp|]. apply R_weak, R_refl. Qed.

Lemma rinv_loop fuel : forall h short alloc progress, rinv (readPayload_loop react fuel h short alloc progress).
Proof.
  induction fuel as [|fuel IH]; intros h short alloc progress; cbn [readPayload_loop]; [apply rinv_fuel|].
  destruct (_ <? _)%Z; [|apply rinv_ret].
  apply rinv_bind; [apply rinv_get|]. intros w0. cbv zeta. apply rinv_bind; [apply rinv_readSimple|].
  intros [d|e].
  - destruct (_ <? _)%Z; [apply rinv_undef|]. destruct short; [apply IH|].
    apply rinv_bind; [apply rinv_notify|intros _; apply IH].
  - destruct e; [apply IH|apply rinv_throw..].
Qed.

Lemma rinv_payload h short : rinv (readPayload react h short).
Proof.
  unfold readPayload. destruct (_ && _)%bool; [apply rinv_throw|].
  apply rinv_bind; [apply rinv_get|]. intros w0. destruct (_ <? _)%Z; [apply rinv_throw|].
  apply rinv_bind; [apply rinv_loop|]. intros s. apply rinv_bind; [|intros _; apply rinv_ret].
  destruct short; [apply rinv_ret|]. destruct (h_fin h); [apply rinv_notify|apply rinv_ret].
Qed.

Lemma rinv_handle h : rinv (handleFrame react h).
Proof.
  unfold handleFrame.
  assert (forall short, rinv (readPayload react h short ;;; ret tt)) as Hrp.
  { intros short. apply rinv_bind; [apply rinv_payload|intros _; apply rinv_ret]. }
  assert (forall f, rinv (p <- readPayload react h (Some []) ;; notify react (f p))) as Hc.
  { intros f. apply rinv_bind; [apply rinv_payload|]. intros a. apply rinv_notify. }
  assert (rinv (ok <- checkForContinuation h ;;
      if (ok : bool) then readPayload react h None ;;; ret tt else throw ExContinuationExpected)) as Hd.
  { apply rinv_bind.
    - unfold checkForContinuation. apply rinv_bind; [apply rinv_get|]. intros w0.
      destruct (_ || _)%bool; [apply rinv_ret|]. apply rinv_bind; [|intros _; apply rinv_ret].
      intros w o w' Hp E. injection E as <- <-. split; [exact Hp|apply R_last].
    - intros []; [apply Hrp|apply rinv_throw]. }
  assert (rinv (w0 <- get ;; if (s_last (w_sock w0) <? 0)%Z then throw ExInvalidState
            else readPayload react h None ;;; ret tt)) as H0.
  { apply rinv_bind; [apply rinv_get|]. intros w0. destruct (_ <? 0)%Z; [apply rinv_throw|apply Hrp]. }
  destruct (h_opcode h) as [|[[[[p|p|]|[p|p|]|]|[[p|p|]|[p|p|]|]|]|[[[p|p|]|[p|p|]|]|[[p|p|]|[p|p|]|]|]|]];
    first [exact H0|exact Hd|apply Hc|apply rinv_throw].
Qed.

Lemma rinv_iterate h : rinv (iterateFrame react h).
Proof.
  unfold iterateFrame. apply rinv_bind; [apply rinv_header|]. intros h'.
  apply rinv_bind; [apply rinv_handle|intros _; apply rinv_ret].
Qed.

Lemma rinv_listen_loop fuel : forall h, rinv (listen_loop react fuel h).
Proof.
  induction fuel as [|fuel IH]; intros h; cbn [listen_loop]; [apply rinv_fuel|].
  apply rinv_bind; [apply rinv_header|]. intros h'. apply rinv_bind; [apply rinv_handle|]. intros _.
  apply rinv_bind; [apply rinv_get|]. intros w0. destruct (_ && _)%bool; [apply IH|apply rinv_ret].
Qed.

(** listen: the final state is that of the loop, whether or not an exception was swallowed. *)
Lemma rel_listen w o w' : pok w -> listen react w = (o, w') -> pok w' /\ R false w w'.
Proof.
  intros Hp E. unfold listen, bind at 1 2, modify_sock, get, try_ in E.
  destruct (listen_loop _ _ _ _) as [o1 w1] eqn:E1. apply rinv_listen_loop in E1; [|exact Hp].
  destruct E1 as [H1 H2].
  assert (w' = w1) as -> by (destruct o1; injection E as <- <-; reflexivity).
  split; [exact H1|]. eapply R_trans; [apply R_on|].
  destruct o1; cbn [is_ret] in H2; auto.
Qed.
End Rel.

(** * What is sent (C24) *)



Definition sends_rel (m : bool) (_ : bool) (w w' : world) : Prop :=
  s_mask (w_sock w) = m ->
  s_mask (w_sock w') = m /\
  exists fs, w_out w' = w_out w ++ concat (map snd fs) /\ Forall (frame_piece m) fs /\
             (healthy (w_wr w) -> healthy (w_wr w') /\ Forall frame_whole fs).

Lemma sends_refl m c w : sends_rel m c w w.
Proof. intros Hm. split; [exact Hm|]. exists []. cbn. rewrite app_nil_r. auto. Qed.

Lemma sends_trans m c a b d : sends_rel m true a b -> sends_rel m c b d -> sends_rel m c a d.
Proof.
  intros H1 H2 Hm. destruct (H1 Hm) as (Hm1 & f1 & E1 & P1 & W1). destruct (H2 Hm1) as (Hm2 & f2 & E2 & P2 & W2).
  split; [exact Hm2|]. exists (f1 ++ f2). rewrite E2, E1, map_app, concat_app, app_assoc. split; [reflexivity|].
  split; [apply Forall_app; auto|]. intros Hh. destruct (W1 Hh) as [W3 W4]. destruct (W2 W3) as [W5 W6].
  split; [exact W5|]. apply Forall_app; auto.
Qed.

Lemma sends_send m op w o w' : fits m op -> send op w = (o, w') -> sends_rel m true w w'.
Proof.
  intros [Hl Hl2] E Hm. apply send_spec in E; [|lia].
  destruct E as (p & Hp & Ho & _ & (Ht & _) & _ & _ & _ & _ & Hh).
  split; [congruence|]. exists [(frame_for (next_key_opt w) op, p)]. cbn. rewrite app_nil_r.
  split; [exact Ho|]. split.
  - repeat constructor; cbn; [|exact Hp]. unfold next_key_opt. rewrite Hm. now destruct m.
  - intros Hw. destruct (Hh Hw (fun _ => Hl2 ltac:(congruence))) as (_ & Hpf & Hw' & _). split; [exact Hw'|]. constructor; [exact Hpf|constructor].
Qed.

Lemma sends_cmds m cs w o w' : Forall (mask_cmd m) cs -> exec_cmds cs w = (o, w') -> sends_rel m true w w'.
Proof.
  intros Hc. revert w; induction Hc as [|c cs Hc _ IH]; intros w E; cbn [exec_cmds] in E.
  - injection E as <- <-. apply sends_refl.
  - unfold bind in E. destruct (exec_cmd c w) as [o1 w1] eqn:E1.
    assert (sends_rel m true w w1) as H1.
    { destruct c as [|l|m' b|catch op| | |fin0 opc0 msg0]; cbn [exec_cmd] in E1.
      - injection E1 as <- <-. intros Hm; split; [exact Hm|]. exists []. cbn. rewrite app_nil_r. auto.
      - injection E1 as <- <-. intros Hm; split; [exact Hm|]. exists []. cbn. rewrite app_nil_r. auto.
      - injection E1 as <- <-. intros Hm; split; [exact Hc|]. exists []. cbn. rewrite app_nil_r. auto.
      - cbn in Hc. destruct catch.
        + unfold try_ in E1. destruct (send op w) as [o2 w2] eqn:E2. apply (sends_send m) in E2; [|exact Hc].
          destruct o2; injection E1 as <- <-; exact E2.
        + eapply sends_send; eassumption.
      - injection E1 as <- <-. apply sends_refl.
      - injection E1 as <- <-. apply sends_refl.
      - destruct (demand_send _ _ _ _ _ _ E1) as (o2 & E2 & _). eapply sends_send; eassumption. }
    destruct o1; try (injection E as <- <-; exact H1).
    eapply sends_trans; [exact H1|]. apply IH. exact E.
Qed.

Lemma sends_notify m react ev w o w' :
  mask_react m react -> notify react ev w = (o, w') -> sends_rel m (is_ret o) w w'.
Proof.
  intros Hr E. unfold notify in E. destruct (s_listener (w_sock w)) as [l|].
  - eapply sends_cmds in E; [|apply Hr]. intros Hm. apply E. exact Hm.
  - injection E as <- <-. apply sends_refl.
Qed.

Section Sends.
Variable react : react_t.
Variable m : bool.
Hypothesis Hr : mask_react m react.

Lemma sends_sock (f : sock -> sock) c w :
  (s_mask (f (w_sock w)) = s_mask (w_sock w) \/ s_mask (f (w_sock w)) = m) -> sends_rel m c w (set_sock w (f (w_sock w))).
Proof.
  intros H Hm. split; [cbn; destruct H; congruence|]. exists []. cbn. rewrite app_nil_r. auto.
Qed.

Lemma sends_listen w o w' :
  script_ok (mask_ext m) any_err (w_in w) -> listen react w = (o, w') ->
  script_ok (mask_ext m) any_err (w_in w') /\ sends_rel m true w w'.
Proof.
  intros Hp E. eapply (rel_listen react (mask_ext m) (sends_rel m)) in E; [exact E|..]; try exact Hp.
  - intros; apply sends_refl.
  - intros c a b d; apply sends_trans.
  - intros c a b H; exact H.
  - intros w0 s Hm. split; [exact Hm|]. exists []. cbn. rewrite app_nil_r. auto.
  - intros w0 x Hx. apply sends_sock. destruct x; cbn in *; auto.
  - intros w0 z. apply (sends_sock (fun k => set_last k z)). auto.
  - intros w0. apply (sends_sock (fun k => set_listening k true)). auto.
  - intros ev w0 o0 w0' E0. eapply sends_notify; eassumption.
Qed.

Lemma sends_iterate h w o w' :
  script_ok (mask_ext m) any_err (w_in w) -> iterateFrame react h w = (o, w') ->
  script_ok (mask_ext m) any_err (w_in w') /\ sends_rel m true w w'.
Proof.
  intros Hp E. eapply (rinv_iterate react (mask_ext m) (sends_rel m)) in E; [exact E|..]; try exact Hp.
  - intros; apply sends_refl.
  - intros c a b d; apply sends_trans.
  - intros c a b H; exact H.
  - intros w0 s Hm. split; [exact Hm|]. exists []. cbn. rewrite app_nil_r. auto.
  - intros w0 x Hx. apply sends_sock. destruct x; cbn in *; auto.
  - intros w0 z. apply (sends_sock (fun k => set_last k z)). auto.
  - intros ev w0 o0 w0' E0. eapply sends_notify; eassumption.
Qed.
End Sends.

(** * Who is called (C45) *)




Lemma after_calls_app react l log n1 n2 :
  after_calls react l log (n1 ++ n2) = after_calls react (after_calls react l log n1) (log ++ n1) n2.
Proof.
  revert l log; induction n1 as [|e r IH]; intros l log; cbn; [now rewrite app_nil_r|].
  rewrite IH. now rewrite <- app_assoc.
Qed.

Lemma well_addressed_app react l log n1 n2 :
  well_addressed react l log (n1 ++ n2) <->
  well_addressed react l log n1 /\ well_addressed react (after_calls react l log n1) (log ++ n1) n2.
Proof.
  revert l log; induction n1 as [|e r IH]; intros l log; cbn; [rewrite app_nil_r; tauto|].
  rewrite IH, <- app_assoc. tauto.
Qed.

Definition addr_rel (react : react_t) (ok : bool) (w w' : world) : Prop :=
  exists new, w_log w' = w_log w ++ new /\ well_addressed react (s_listener (w_sock w)) (w_log w) new /\
    (ok = true -> s_listener (w_sock w') = after_calls react (s_listener (w_sock w)) (w_log w) new).

Lemma addr_nil react ok w w' : w_log w' = w_log w -> s_listener (w_sock w') = s_listener (w_sock w) ->
  addr_rel react ok w w'.
Proof. intros H1 H2. exists []. rewrite app_nil_r. cbn. auto. Qed.

Lemma addr_trans react c a b d : addr_rel react true a b -> addr_rel react c b d -> addr_rel react c a d.
Proof.
  intros (n1 & H1 & H2 & H3) (n2 & G1 & G2 & G3). specialize (H3 eq_refl). rewrite H1, H3 in *.
  exists (n1 ++ n2). rewrite G1, app_assoc. split; [reflexivity|]. split.
  - apply well_addressed_app. auto.
  - intros Hc. rewrite (G3 Hc). now rewrite after_calls_app.
Qed.

Lemma addr_cmds cs w o w' : exec_cmds cs w = (o, w') ->
  w_log w' = w_log w /\ (is_ret o = true -> s_listener (w_sock w') = after_cmds (s_listener (w_sock w)) cs).
Proof.
  revert w; induction cs as [|c cs IH]; intros w E; cbn [exec_cmds] in E.
  - injection E as <- <-. auto.
  - unfold bind in E. destruct (exec_cmd c w) as [o1 w1] eqn:E1.
    assert (w_log w1 = w_log w /\ s_listener (w_sock w1) = after_cmds (s_listener (w_sock w)) [c]) as [H1 H2].
    { destruct c as [|l|m b|catch op| | |fin0 opc0 msg0]; cbn [exec_cmd] in E1; try (injection E1 as <- <-; auto; fail).
      all: match type of E1 with (?p = _) => match p with (?mm ?ww) => assert (keeps mm) as K by (first [exact (keeps_send_cmd (CSend catch op) I)|auto with keeps]) end end; apply K in E1. all: destruct E1 as [(_ & H & _ & (_ & _ & Hl & _) & _) _]; auto. }
    destruct o1; try (injection E as <- <-; split; [exact H1|discriminate]).
    apply IH in E. destruct E as [E2 E3]. split; [congruence|]. intros Hr. rewrite (E3 Hr), H2.
    destruct c; reflexivity.
Qed.

Lemma addr_notify react ev w o w' : notify react ev w = (o, w') -> addr_rel react (is_ret o) w w'.
Proof.
  intros E. unfold notify in E. destruct (s_listener (w_sock w)) as [l|] eqn:El.
  - apply addr_cmds in E. cbn [w_log set_log w_sock] in E. destruct E as [H1 H2].
    exists [(l, ev)]. split; [exact H1|]. cbn. rewrite El in *. auto.
  - injection E as <- <-. apply addr_nil; reflexivity.
Qed.


Lemma addr_listen react w o w' :
  script_ok no_install any_err (w_in w) -> listen react w = (o, w') -> addr_rel react false w w'.
Proof.
  intros Hp E. eapply (rel_listen react no_install (addr_rel react)) in E; [exact (proj2 E)|..]; try exact Hp.
  - intros. apply addr_nil; reflexivity.
  - intros c a b d; apply addr_trans.
  - intros c a b (n & H1 & H2 & H3). exists n. auto.
  - intros. apply addr_nil; reflexivity.
  - intros w0 x Hx. apply addr_nil; [reflexivity|]. destruct x; cbn in *; tauto.
  - intros. apply addr_nil; reflexivity.
  - intros. apply addr_nil; reflexivity.
  - intros ev w0 o0 w0' E0. eapply addr_notify; eassumption.
Qed.
