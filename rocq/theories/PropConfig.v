(** Property theorem about reconfiguring a socket from its own callbacks (C64). *)
From Verif Require Import Bytes Frame World WebSocket SpecFrame SpecSend SpecListen SpecApi SpecReply SpecConfig
  ProofFrame ProofStream ProofSend ProofHeader ProofListen ProofReading ProofApi ProofInv ProofRel ProofSilent ProofProps
  ProofConfig PropListen.
From Coq Require Import ZifyBool ZifyNat ZifyN.
Local Open Scope N_scope.
Local Arguments takeN : simpl never.
Local Arguments dropN : simpl never.
Local Arguments lenN : simpl never.
Local Arguments be_enc : simpl never.
Local Arguments be_dec : simpl never.

(** Bytes of the random source used by commands. *)
Fixpoint spent (m : bool) (cs : list cmd) : nat :=
  match cs with
  | [] => 0
  | CSend _ _ :: r | CDemand _ _ _ :: r => used m + spent m r
  | CSetConfig m' _ :: r => spent m' r
  | _ :: r => spent m r
  end%nat.

Lemma done_by_app react n1 : forall log n2,
  done_by react log (n1 ++ n2) = done_by react log n1 ++ done_by react (log ++ n1) n2.
Proof.
  induction n1 as [|e r IH]; intros log n2; cbn [done_by app]; [now rewrite app_nil_r|].
  rewrite IH, <- !app_assoc. reflexivity.
Qed.
Lemma config_after_app a : forall c b, config_after c (a ++ b) = config_after (config_after c a) b.
Proof. induction a as [|x r IH]; intros c b; [reflexivity|]. destruct x; cbn [config_after app]; apply IH. Qed.
Lemma config_fst a : forall m b b', fst (config_after (m, b) a) = fst (config_after (m, b') a).
Proof. induction a as [|x r IH]; intros m b b'; [reflexivity|]. destruct x; cbn [config_after]; auto. Qed.
Lemma spent_app a : forall m b B, spent m (a ++ b) = (spent m a + spent (fst (config_after (m, B) a)) b)%nat.
Proof.
  induction a as [|x r IH]; intros m b B; [reflexivity|].
  destruct x as [|l|m' b'|catch op| | |fin o d]; cbn [spent config_after app]; rewrite ?(IH m b B), ?(IH m' b b'); lia.
Qed.
Lemma written_app rnd a : forall m pos b B,
  written m rnd pos (a ++ b) = written m rnd pos a ++ written (fst (config_after (m, B) a)) rnd (pos + spent m a) b.
Proof.
  induction a as [|x r IH]; intros m pos b B; cbn [app].
  - cbn. now rewrite Nat.add_0_r.
  - destruct x as [|l|m' b'|catch op| | |fin o d]; cbn [written spent config_after];
      rewrite ?(IH m _ b B), ?(IH m' _ b b'), ?app_assoc, ?Nat.add_assoc; reflexivity.
Qed.
Lemma sized_app react n1 : forall c log n2,
  sized react c log (n1 ++ n2) <-> sized react c log n1 /\ sized react (config_after c (done_by react log n1)) (log ++ n1) n2.
Proof.
  induction n1 as [|e r IH]; intros c log n2; cbn [sized done_by app].
  - cbn. rewrite app_nil_r. tauto.
  - rewrite IH, config_after_app, <- app_assoc. cbn [app]. tauto.
Qed.

Definition conf (w : world) : bool * Z := (s_mask (w_sock w), s_buf (w_sock w)).
Definition conf_rel (react : react_t) (_ : bool) (w w' : world) : Prop :=
  healthy (w_wr w) ->
  healthy (w_wr w') /\ w_rnd w' = w_rnd w /\
  exists new, w_log w' = w_log w ++ new /\
    w_out w' = w_out w ++ written (s_mask (w_sock w)) (w_rnd w) (w_rpos w) (done_by react (w_log w) new) /\
    w_rpos w' = (w_rpos w + spent (s_mask (w_sock w)) (done_by react (w_log w) new))%nat /\
    conf w' = config_after (conf w) (done_by react (w_log w) new) /\
    sized react (conf w) (w_log w) new.

Lemma conf_same react c w w' :
  conf w' = conf w -> w_wr w' = w_wr w -> w_rnd w' = w_rnd w ->
  w_log w' = w_log w -> w_out w' = w_out w -> w_rpos w' = w_rpos w -> conf_rel react c w w'.
Proof.
  intros H1 H2 H3 H4 H5 H6 Hh. split; [now rewrite H2|]. split; [exact H3|].
  exists []. cbn. rewrite !app_nil_r, Nat.add_0_r. auto.
Qed.
Lemma conf_trans react c a b d : conf_rel react true a b -> conf_rel react c b d -> conf_rel react c a d.
Proof.
  intros H G Hh. destruct (H Hh) as (A2 & A3 & n1 & A4 & A5 & A6 & A7 & A8).
  destruct (G A2) as (B2 & B3 & n2 & B4 & B5 & B6 & B7 & B8).
  split; [exact B2|]. split; [congruence|].
  assert (s_mask (w_sock b) = fst (config_after (conf a) (done_by react (w_log a) n1))) as Hm by now rewrite <- A7.
  exists (n1 ++ n2). rewrite done_by_app, A4 in *. unfold conf in Hm at 1.
  rewrite (written_app _ _ _ _ _ (s_buf (w_sock a))), (spent_app _ _ _ (s_buf (w_sock a))), config_after_app, sized_app.
  rewrite A7, Hm in *. rewrite B4, B5, B6, A3, A5, A6, !app_assoc. unfold conf in *.
  split; [reflexivity|]. split; [reflexivity|]. split; [lia|]. split; [exact B7|]. split; [exact A8|exact B8].
Qed.

Lemma conf_cmds cs : Forall small_cmd cs -> forall w o w', exec_cmds cs w = (o, w') ->
  healthy (w_wr w) ->
  healthy (w_wr w') /\ w_rnd w' = w_rnd w /\ w_log w' = w_log w /\
    w_out w' = w_out w ++ written (s_mask (w_sock w)) (w_rnd w) (w_rpos w) (until_throw cs) /\
    w_rpos w' = (w_rpos w + spent (s_mask (w_sock w)) (until_throw cs))%nat /\
    conf w' = config_after (conf w) (until_throw cs).
Proof.
  assert (2 ^ 31 < 2 ^ 63) as Hpow by reflexivity.
  induction 1 as [|c cs Hc _ IH]; intros w o w' E Hh; cbn [exec_cmds] in E.
  - injection E as <- <-. cbn. rewrite app_nil_r, Nat.add_0_r. auto 7.
  - unfold bind in E. destruct (exec_cmd c w) as [o1 w1] eqn:E1.
    assert (forall op o2 w2, lenN (req_payload op) < 2 ^ 31 -> send op w = (o2, w2) ->
      o2 = Ret tt /\ healthy (w_wr w2) /\ w_rnd w2 = w_rnd w /\ w_log w2 = w_log w /\ conf w2 = conf w /\ w_sock w2 = w_sock w /\
      w_out w2 = w_out w ++ sent_wire (key_at (s_mask (w_sock w)) (w_rnd w) (w_rpos w)) op /\
      w_rpos w2 = (w_rpos w + used (s_mask (w_sock w)))%nat) as Hsend.
    { intros op o2 w2 Hl E2. pose proof (keeps_send op w _ _ E2) as [(_ & Kl & Kr & _) _].
      apply send_spec in E2; [|lia]. destruct E2 as (p & _ & Ho & Hrp & _ & _ & _ & _ & _ & Hx).
      destruct (Hx Hh (fun _ => Hl)) as (-> & -> & Hh1 & Hs1).
      repeat (apply conj); try assumption; [reflexivity|unfold conf; now rewrite Hs1]. }
    destruct c as [|l|m' b|catch op| | |fin0 opc0 msg0]; cbn [exec_cmd] in E1; cbn [until_throw written spent config_after];
      try (injection E1 as <- <-; apply IH in E; [exact E|exact Hh]).
    + cbn [small_cmd] in Hc.
      destruct (send op w) as [o2 w2] eqn:E2. pose proof E2 as E3.
      apply Hsend in E2; [|exact Hc]. destruct E2 as (-> & S1 & S2 & S3 & S4 & S5 & S6 & S7).
      assert (o1 = Ret tt /\ w1 = w2) as [-> ->].
      { destruct catch; unfold try_ in E1; rewrite E3 in E1; injection E1 as <- <-; auto. }
      apply IH in E; [|exact S1]. destruct E as (B2 & B3 & B4 & B5 & B6 & B7).
      rewrite S2, S3, S4, S5, S6, S7 in *. rewrite B5, <- app_assoc. repeat (apply conj); solve [auto|lia].
    + injection E1 as <- <-. injection E as <- <-. cbn. rewrite app_nil_r, Nat.add_0_r. auto 7.
    + cbn [small_cmd] in Hc. apply demand_healthy in E1; [|lia|exact Hh|intros _; exact Hc]. destruct E1 as [-> E1].
      apply Hsend in E1; [|exact Hc]. destruct E1 as (_ & S1 & S2 & S3 & S4 & S5 & S6 & S7).
      apply IH in E; [|exact S1]. destruct E as (B2 & B3 & B4 & B5 & B6 & B7).
      rewrite S2, S3, S4, S5, S6, S7 in *. rewrite B5, <- app_assoc. repeat (apply conj); solve [auto|lia].
Qed.

Lemma conf_notify react ev w o w' : small_react react -> (forall l, ev_size (s_buf (w_sock w)) (l, ev)) ->
  notify react ev w = (o, w') -> conf_rel react (is_ret o) w w'.
Proof.
  intros Hr Hev E. unfold notify in E. destruct (s_listener (w_sock w)) as [l|].
  - intros Hh. eapply conf_cmds in E; [|apply Hr|exact Hh].
    destruct E as (B2 & B3 & B4 & B5 & B6 & B7). cbn [set_log w_log w_out w_rnd w_rpos w_sock conf] in *.
    split; [exact B2|]. split; [exact B3|]. exists [(l, ev)]. split; [exact B4|].
    cbn [done_by sized fst snd]. rewrite app_nil_r. repeat (split; [solve [assumption|apply Hev]|]). exact I.
  - injection E as <- <-. apply conf_same; auto.
Qed.

(** * C64: a configuration set by a callback is in force from that point on *)
Theorem C64_config : forall react w o w',
  small_react react -> script_ok no_config any_err (w_in w) -> healthy (w_wr w) ->
  listen react w = (o, w') ->
  exists new, w_log w' = w_log w ++ new /\
    let cs := done_by react (w_log w) new in
    w_out w' = w_out w ++ written (s_mask (w_sock w)) (w_rnd w) (w_rpos w) cs /\
    (s_mask (w_sock w'), s_buf (w_sock w')) = config_after (s_mask (w_sock w), s_buf (w_sock w)) cs /\
    sized react (s_mask (w_sock w), s_buf (w_sock w)) (w_log w) new.
Proof.
  intros react w o w' Hr Hs Hh E.
  eapply (rel2_listen react no_config (conf_rel react)) in E.
  - destruct E as [_ H]. destruct (H Hh) as (_ & _ & new & H1 & H2 & _ & H3 & H4). exists new. cbv zeta. auto.
  - intros. apply conf_same; auto.
  - intros c a b d. apply conf_trans.
  - intros c a b H; exact H.
  - intros. apply conf_same; auto.
  - intros w0 x Hx. apply conf_same; auto. destruct x; cbn in *; auto; contradiction.
  - intros. apply conf_same; auto.
  - intros. apply conf_same; auto.
  - intros x k Hx. destruct x; cbn in *; auto; contradiction.
  - intros ev w0 o0 w0' Hev E0. eapply conf_notify; eassumption.
  - exact Hs.
Qed.
Print Assumptions C64_config.

(** A server socket (no masking, buffer of 4) whose listener, at the end of the first message, sends a text, turns masking
    on and shrinks the buffer to 2, then sends another text: the second message is delivered in pieces of 2. *)
Definition reconf : react_t := fun _ log =>
  match snd (last log (0%nat, EvEnd 0)) with
  | EvEnd _ => [CSend false (SoText (Some [x61])); CSetConfig true 2; CSend false (SoText (Some [x62]))]
  | _ => []
  end.
Example C64_nonvacuous :
  let w := World [RData x81 [x05; x68; x65; x6c; x6c; x6f; x81; x05; x77; x6f]; RData x72 [x6c; x64]] [WAccept 1; WIo IoRetry] []
             (fun i => n2b (N.of_nat i)) 0 [] (set_config (set_listener (sock_new false) (Some 7%nat)) false 4) in
  let w' := snd (listen reconf w) in
  small_react reconf /\ script_ok no_config any_err (w_in w) /\ healthy (w_wr w) /\
  w_log w' = [(7%nat, EvMsg 1 [x68; x65; x6c; x6c]); (7%nat, EvMsg 1 [x6f]); (7%nat, EvEnd 1);
              (7%nat, EvMsg 1 [x77; x6f]); (7%nat, EvMsg 1 [x72; x6c]); (7%nat, EvMsg 1 [x64]); (7%nat, EvEnd 1)] /\
  w_out w' = [x81; x01; x61] ++ [x81; x81; x00; x01; x02; x03; x62] ++ [x81; x81; x04; x05; x06; x07; x65] ++ [x81; x81; x08; x09; x0a; x0b; x6a] /\
  (s_mask (w_sock w'), s_buf (w_sock w')) = (true, 2%Z).
Proof.
  cbv zeta. split.
  { intros l log. unfold reconf. destruct (snd (last log (0%nat, EvEnd 0))); constructor; [reflexivity|constructor; [exact I|constructor; [reflexivity|constructor]]]. }
  split; [repeat constructor|]. split; [repeat constructor|]. split; [vm_compute; reflexivity|]. split; [vm_compute; reflexivity|].
  vm_compute; reflexivity.
Qed.
