(** Property theorems about a blocking socket on which other threads call stopListening, setListener and setConfig, part 2 (C70, C71). *)
From Verif Require Import Bytes Frame World WebSocket SpecFrame SpecSend SpecListen SpecApi SpecConfig SpecAsync Threads SpecThreads
  ProofFrame ProofStream ProofSend ProofHeader ProofListen ProofInv ProofAsync ProofThreads ProofThreads2.
From Coq Require Import ZifyBool ZifyNat ZifyN.
Local Open Scope N_scope.
Local Arguments takeN : simpl never.
Local Arguments dropN : simpl never.
Local Arguments lenN : simpl never.
Local Arguments be_enc : simpl never.
Local Arguments be_dec : simpl never.

Lemma exec_cmd_ub c w u w' : exec_cmd c w = (Ub u, w') -> u = UbSigned /\ ~ small_cmd c.
Proof.
  intros E.
  assert (is_send_cmd c) as Hs by (destruct c; cbn in E |- *; try discriminate; exact I).
  pose proof E as E'. apply (keeps_send_cmd c Hs) in E'. destruct E' as [_ E']. split; [exact E'|]. intros Hsm.
  assert (forall op w1, lenN (req_payload op) < 2 ^ 31 -> send op w <> (Ub u, w1)) as HU.
  { intros op w1 Hl E1. apply send_spec in E1; [|lia]. destruct E1 as (p & _ & _ & _ & _ & Hu & _). destruct (Hu _ eq_refl) as (_ & _ & Hu'). lia. }
  destruct c as [| | |catch op| | |fin0 opc0 msg0]; try contradiction; cbn [exec_cmd small_cmd] in *.
  - destruct catch; [|exact (HU op w' Hsm E)]. unfold try_ in E. destruct (send op w) as [o1 w1] eqn:E1.
    destruct o1; try discriminate. injection E as -> ->. exact (HU op _ Hsm E1).
  - destruct (demand_send _ _ _ _ _ _ E) as (o2 & E2 & Ho). destruct Ho as [Ho|Ho]; [subst o2; exact (HU (SoFrame fin0 opc0 msg0) w' Hsm E2)|destruct Ho; discriminate].
Qed.
Lemma interleave_ret t o t' : interleave t = (o, t') -> o = Ret tt.
Proof. unfold interleave. destruct (t_calls t); intros E; injection E as <- <-; reflexivity. Qed.

(** A command is: calls of other threads, its mark, its effect. *)
Definition cmd_mark (c : cmd) : list tev :=
  match c with CStop => [TStop] | CSetListener l => [TInstall l] | CSetConfig m b => [TConfig m b] | _ => [] end.
Lemma texec_cmd_inv c t o t' : texec_cmd c t = (o, t') ->
  exists t1 w', interleave t = (Ret tt, t1) /\ exec_cmd c (t_world t1) = (o, w') /\ t' = TWorld w' (t_calls t1) (t_trace t1 ++ cmd_mark c).
Proof.
  intros E. unfold texec_cmd in E. unfold tbind at 1 in E. destruct (interleave t) as [o0 t0] eqn:E0. pose proof (interleave_ret _ _ _ E0) as ->.
  exists t0. destruct (exec_cmd c (t_world t0)) as [o1 w1] eqn:E1. exists w1. split; [reflexivity|].
  destruct c; unfold tbind, mark, tret, local in E; cbn [t_world t_calls t_trace] in E; rewrite E1 in E; injection E as <- <-; cbn [cmd_mark]; rewrite ?app_nil_r; auto.
Qed.
Lemma interleave_inv t o t' : interleave t = (o, t') ->
  (t_calls t = [] /\ t' = t) \/ exists xs r, t_calls t = xs :: r /\
    t' = TWorld (set_sock (t_world t) (fold_left (fun k x => apply_ext x k) xs (w_sock (t_world t)))) r (t_trace t ++ map TOther xs).
Proof. unfold interleave. destruct (t_calls t) as [|xs r] eqn:E; intros E1; injection E1 as <- <-; [auto|right; eauto]. Qed.

(** * C70: who is called *)
Definition received (t : list tev) : list (nat * event) := flat_map (fun e => match e with TCall (Some l) ev => [(l, ev)] | _ => [] end) t.
Definition addressed (l0 : option nat) (t : list tev) : Prop :=
  forall t1 l ev t2, t = t1 ++ TCall l ev :: t2 -> l = current l0 t1.
Lemma addressed_snoc l0 t e : addressed l0 t -> (forall l ev, e = TCall l ev -> l = current l0 t) -> addressed l0 (t ++ [e]).
Proof.
  intros H He t1 l ev t2 E. destruct t2 as [|x t2] using List.rev_ind.
  - apply app_inj_tail in E. destruct E as [-> ->]. eauto.
  - clear IHt2. rewrite app_comm_cons, app_assoc in E. apply app_inj_tail in E. destruct E as [E _]. eapply H. exact E.
Qed.
Lemma addressed_app l0 t s : addressed l0 t -> (forall e, In e s -> match e with TCall _ _ => False | _ => True end) -> addressed l0 (t ++ s).
Proof.
  revert t. induction s as [|e s IH]; intros t H He; [now rewrite app_nil_r|]. replace (t ++ e :: s) with ((t ++ [e]) ++ s) by now rewrite <- app_assoc.
  apply IH; [|intros; apply He; now right]. apply addressed_snoc; [exact H|]. intros l ev ->. destruct (He (TCall l ev)); now left.
Qed.
Lemma current_app l t s : current l (t ++ s) = current (current l t) s.
Proof. apply fold_left_app. Qed.
Lemma current_others xs : forall k, s_listener (fold_left (fun k x => apply_ext x k) xs k) = current (s_listener k) (map TOther xs).
Proof. unfold current. induction xs as [|x xs IH]; intros k; [reflexivity|]. cbn [map fold_left]. rewrite IH. now destruct x. Qed.
Lemma received_app t s : received (t ++ s) = received t ++ received s.
Proof. apply flat_map_app. Qed.
Lemma received_others xs : received (map TOther xs) = [].
Proof. induction xs; [reflexivity|exact IHxs]. Qed.

Definition whoI (l0 : option nat) (log0 : list (nat * event)) (t : tworld) : Prop :=
  io_only (w_in (t_world t)) /\ s_listener (w_sock (t_world t)) = current l0 (t_trace t) /\
  w_log (t_world t) = log0 ++ received (t_trace t) /\ addressed l0 (t_trace t).
Lemma whoI_interleave l0 log0 t o t' : whoI l0 log0 t -> interleave t = (o, t') -> whoI l0 log0 t'.
Proof.
  intros (H1 & H2 & H3 & H4) E. apply interleave_inv in E. destruct E as [[_ ->]|(xs & r & _ & ->)]; [repeat split; assumption|].
  unfold whoI. cbn [t_world t_trace w_in set_sock w_sock w_log]. split; [exact H1|]. split; [rewrite current_others, current_app, H2; reflexivity|].
  split; [rewrite received_app, received_others, app_nil_r; exact H3|]. apply addressed_app; [exact H4|]. intros e He. apply in_map_iff in He. destruct He as (x & <- & _). exact I.
Qed.

(** Every notification is made to the listener installed at that moment, whoever installed it and whenever; and exactly those
    made to a listener are received. *)
Theorem C70_who : forall react w xss o t', io_only (w_in w) -> tlisten react (TWorld w xss []) = (o, t') ->
  addressed (s_listener (w_sock w)) (t_trace t') /\ w_log (t_world t') = w_log w ++ received (t_trace t').
Proof.
  intros react w xss o t' Hio E. set (l0 := s_listener (w_sock w)).
  assert (whoI l0 (w_log w) t') as (_ & _ & H1 & H2); [|auto].
  unfold tlisten in E. unfold tbind at 1 in E. destruct (interleave (TWorld w xss [])) as [o0 t0] eqn:E0. pose proof (interleave_ret _ _ _ E0) as ->.
  apply (whoI_interleave l0 (w_log w)) in E0.
  2: { split; [exact Hio|]. split; [reflexivity|]. split; [cbn; now rewrite app_nil_r|]. intros t1 l ev t2 Ht. destruct t1; discriminate. }
  unfold tbind, mark, local, modify_sock, tget in E. cbn [t_world t_calls t_trace] in E. unfold ttry in E.
  destruct (tlisten_loop _ _ _ _) as [o1 t1] eqn:E1.
  assert (whoI l0 (w_log w) t1) as HT; [|destruct o1; injection E as <- <-; exact HT].
  eapply (kept_listen_loop react (whoI l0 (w_log w)) (fun _ => True)) with (B := 0%Z) in E1; [apply E1|..]; try tauto.
  - intros t H. apply H.
  - apply whoI_interleave.
  - intros l log c t o2 t2 _ HI E2. split; [|intros; exact Logic.I]. apply texec_cmd_inv in E2. destruct E2 as (t3 & w3 & E3 & E4 & ->).
    apply (whoI_interleave l0 (w_log w) _ _ _ HI) in E3. destruct E3 as (G1 & G2 & G3 & G4).
    destruct (exec_cmd_effect _ _ _ _ E4) as (F1 & F2 & _ & _ & F5 & _). unfold whoI. cbn [t_world t_trace]. rewrite F1, F2, F5, current_app, received_app.
    split; [exact G1|]. split; [rewrite <- G2; destruct c; reflexivity|]. split; [rewrite G3; destruct c; cbn; now rewrite app_nil_r|].
    apply addressed_app; [exact G4|]. intros e He. destruct c; cbn in He; try contradiction; destruct He as [<-|[]]; exact Logic.I.
  - intros w0 s xs tr (G1 & G2 & G3 & G4) Hs. split; [exact Hs|]. auto.
  - intros w0 xs tr ev (G1 & G2 & G3 & G4). cbn [t_world t_trace] in *. destruct (s_listener (w_sock w0)) as [l|] eqn:El;
      unfold whoI; cbn [t_world t_trace w_in set_log w_sock w_log]; (split; [exact G1|]; split; [rewrite current_app, El; exact G2|];
      split; [rewrite received_app, ?G3; cbn; now rewrite ?app_assoc, ?app_nil_r|]; apply addressed_snoc; [exact G4|]; intros ? ? He; injection He as <- <-; exact G2).
  - intros w0 xs tr (G1 & G2 & G3 & G4) _. unfold whoI. cbn [t_world t_trace] in *. split; [exact G1|]. split; [rewrite current_app; exact G2|].
    split; [rewrite received_app; cbn; now rewrite app_nil_r|]. apply addressed_snoc; [exact G4|]. intros; discriminate.
  - destruct E0 as (G1 & G2 & G3 & G4). unfold whoI. cbn [t_world t_trace w_in set_sock w_sock set_listening s_listener w_log]. split; [exact G1|].
    split; [rewrite current_app; exact G2|]. split; [rewrite received_app; cbn; now rewrite app_nil_r|]. apply addressed_snoc; [exact G4|]. intros; discriminate.
Qed.
Print Assumptions C70_who.

(** * C71: stopListening, by anybody at any moment *)
Definition no_frame_after_stop (t : list tev) : Prop := forall t1 t2, t = t1 ++ TFrame :: t2 -> stopped t1 = false.
Lemma nf_snoc t e : no_frame_after_stop t -> (e = TFrame -> stopped t = false) -> no_frame_after_stop (t ++ [e]).
Proof.
  intros H He t1 t2 E. destruct t2 as [|x t2] using List.rev_ind.
  - apply app_inj_tail in E. destruct E as [-> ->]. auto.
  - clear IHt2. rewrite app_comm_cons, app_assoc in E. apply app_inj_tail in E. destruct E as [E _]. eapply H. exact E.
Qed.
Lemma nf_app t s : no_frame_after_stop t -> (forall e, In e s -> e <> TFrame) -> no_frame_after_stop (t ++ s).
Proof.
  revert t. induction s as [|e s IH]; intros t H He; [now rewrite app_nil_r|]. replace (t ++ e :: s) with ((t ++ [e]) ++ s) by now rewrite <- app_assoc.
  apply IH; [|intros; apply He; now right]. apply nf_snoc; [exact H|]. intros ->. destruct (He TFrame); [now left|reflexivity].
Qed.
Definition stopI (t : tworld) : Prop :=
  io_only (w_in (t_world t)) /\ (stopped (t_trace t) = true -> s_listening (w_sock (t_world t)) = false) /\ no_frame_after_stop (t_trace t).
Lemma stopped_app t s : stopped (t ++ s) = fold_left (fun b e => match e with TListen => false | TOther XStop | TStop => true | _ => b end) s (stopped t).
Proof. apply fold_left_app. Qed.
Lemma stopped_others xs : forall b k, (b = true -> s_listening k = false) ->
  fold_left (fun b e => match e with TListen => false | TOther XStop | TStop => true | _ => b end) (map TOther xs) b = true ->
  s_listening (fold_left (fun k x => apply_ext x k) xs k) = false.
Proof.
  induction xs as [|x xs IH]; intros b k Hb H; [exact (Hb H)|]. cbn [map fold_left] in *. eapply IH; [|exact H].
  destruct x; cbn; auto.
Qed.
Lemma stopI_interleave t o t' : stopI t -> interleave t = (o, t') -> stopI t'.
Proof.
  intros (H1 & H2 & H3) E. apply interleave_inv in E. destruct E as [[_ ->]|(xs & r & _ & ->)]; [repeat split; assumption|].
  unfold stopI. cbn [t_world t_trace w_in set_sock w_sock]. split; [exact H1|]. split; [rewrite stopped_app; apply stopped_others; exact H2|].
  apply nf_app; [exact H3|]. intros e He. apply in_map_iff in He. destruct He as (x & <- & _). discriminate.
Qed.
Lemma keep_stop_on c w o w' : exec_cmd c w = (o, w') -> s_listening (w_sock w) = false -> s_listening (w_sock w') = false.
Proof. intros E H. destruct (exec_cmd_effect _ _ _ _ E) as (_ & _ & _ & _ & _ & F & _). destruct (s_listening (w_sock w')); [destruct (F eq_refl); congruence|reflexivity]. Qed.

(** Once stopListening has been called after listen() began, by listener code or another thread, no further frame is begun. *)
Theorem C71_no_further_frame : forall react w xss o t', io_only (w_in w) -> tlisten react (TWorld w xss []) = (o, t') ->
  no_frame_after_stop (t_trace t').
Proof.
  intros react w xss o t' Hio E. enough (stopI t') by apply H.
  unfold tlisten in E. unfold tbind at 1 in E. destruct (interleave (TWorld w xss [])) as [o0 t0] eqn:E0. pose proof (interleave_ret _ _ _ E0) as ->.
  assert (io_only (w_in (t_world t0)) /\ no_frame_after_stop (t_trace t0)) as [Q1 Q2].
  { apply interleave_inv in E0. destruct E0 as [[_ ->]|(xs & r & _ & ->)]; cbn [t_world t_trace w_in set_sock app]; (split; [exact Hio|]).
    - intros t1 t2 Ht. destruct t1; discriminate.
    - apply (nf_app []); [intros t1 t2 Ht; destruct t1; discriminate|]. intros e He. apply in_map_iff in He. destruct He as (x & <- & _). discriminate. }
  unfold tbind, mark, local, modify_sock, tget in E. cbn [t_world t_calls t_trace] in E. unfold ttry in E.
  destruct (tlisten_loop _ _ _ _) as [o1 t1] eqn:E1.
  assert (stopI t1) as HT; [|destruct o1; injection E as <- <-; exact HT].
  eapply (kept_listen_loop react stopI (fun _ => True)) with (B := 0%Z) in E1; [apply E1|..]; try tauto.
  - intros t H. apply H.
  - apply stopI_interleave.
  - intros l log c t o2 t2 _ HI E2. split; [|intros; exact Logic.I]. apply texec_cmd_inv in E2. destruct E2 as (t3 & w3 & E3 & E4 & ->).
    apply (stopI_interleave _ _ _ HI) in E3. destruct E3 as (G1 & G2 & G3).
    destruct (exec_cmd_effect _ _ _ _ E4) as (F1 & _ & _ & _ & _ & F6 & _). unfold stopI. cbn [t_world t_trace]. rewrite F1, stopped_app.
    split; [exact G1|]. split.
    + destruct c; cbn [cmd_mark fold_left]; try (intros Hs; eapply keep_stop_on; [exact E4|exact (G2 Hs)]).
      intros _. destruct (s_listening (w_sock w3)); [destruct (F6 eq_refl); congruence|reflexivity].
    + apply nf_app; [exact G3|]. intros e He. destruct c; cbn in He; try contradiction; destruct He as [<-|[]]; discriminate.
  - intros w0 s xs tr (G1 & G2 & G3) Hs. split; [exact Hs|]. auto.
  - intros w0 xs tr ev (G1 & G2 & G3). cbn [t_world t_trace] in *. destruct (s_listener (w_sock w0)) as [l|] eqn:El;
      unfold stopI; cbn [t_world t_trace w_in set_log w_sock w_log]; (split; [exact G1|]; split; [rewrite stopped_app; exact G2|]; apply nf_snoc; [exact G3|]; discriminate).
  - intros w0 xs tr (G1 & G2 & G3) Hl. unfold stopI. cbn [t_world t_trace] in *. split; [exact G1|]. split; [rewrite stopped_app; exact G2|].
    apply nf_snoc; [exact G3|]. intros _. destruct (stopped tr); [rewrite (G2 eq_refl) in Hl; discriminate|reflexivity].
  - unfold stopI. cbn [t_world t_trace w_in set_sock]. split; [exact Q1|]. split; [rewrite stopped_app; discriminate|]. apply nf_snoc; [exact Q2|discriminate].
Qed.
Print Assumptions C71_no_further_frame.

(** * C70: safety *)
Definition plainI (P : ext -> Prop) (Q : sock -> Prop) (t : tworld) : Prop :=
  io_only (w_in (t_world t)) /\ others P (t_calls t) /\ Q (w_sock (t_world t)).
Lemma nonnull_stays t o t' : others no_null (t_calls t) -> s_listener (w_sock (t_world t)) <> None -> interleave t = (o, t') ->
  s_listener (w_sock (t_world t')) <> None.
Proof.
  intros H1 H2 E. unfold interleave in E. destruct (t_calls t) as [|xs r]; injection E as <- <-; [exact H2|].
  cbn [t_world w_sock set_sock]. apply Forall_cons_iff in H1.
  apply (apply_exts_inv (fun k => s_listener k <> None) no_null); [|apply H1|exact H2]. intros [|[]|] y Hn Hy; cbn in *; try tauto; discriminate.
Qed.
Lemma tlisten_safe react w xss o t' (P : ext -> Prop) (B : Z) (fixed : bool) (U : ub -> Prop) :
  io_only (w_in w) -> others P xss ->
  (fixed = true -> s_buf (w_sock w) = B /\ (forall x, P x -> no_config x) /\ forall l log, Forall no_config_cmd (react l log)) ->
  (fixed = false -> U UbOverflow /\ U UbNegativeCount) ->
  ((forall x, P x -> no_null x) \/ U UbNull) -> (small_react react \/ U UbSigned) ->
  tlisten react (TWorld w xss []) = (o, t') -> forall u, o = Ub u -> U u.
Proof.
  intros Hio Hx Hf Hnf Hn Hs E.
  set (Q := fun k => if fixed then s_buf k = B else True).
  assert (forall x k, P x -> Q k -> Q (apply_ext x k)) as HQ.
  { unfold Q. destruct fixed; [|auto]. destruct (Hf eq_refl) as (_ & Hp & _). intros x k Hx0 Hk. specialize (Hp _ Hx0). destruct x; cbn in *; tauto. }
  assert (forall t o t', plainI P Q t -> interleave t = (o, t') -> plainI P Q t') as HI.
  { intros t o1 t1 (G1 & G2 & G3) E0. apply interleave_inv in E0. destruct E0 as [[_ ->]|(xs & r & Ec & ->)]; [repeat split; assumption|].
    rewrite Ec in G2. apply Forall_cons_iff in G2. split; [exact G1|]. split; [apply G2|]. cbn [t_world w_sock set_sock]. eapply apply_exts_inv; [exact HQ|apply G2|exact G3]. }
  unfold tlisten in E. unfold tbind at 1 in E. destruct (interleave (TWorld w xss [])) as [o0 t0] eqn:E0. pose proof (interleave_ret _ _ _ E0) as ->.
  apply HI in E0. 2: { split; [exact Hio|]. split; [exact Hx|]. unfold Q. destruct fixed; [apply Hf; reflexivity|exact I]. }
  unfold tbind, mark, local, modify_sock, tget in E. cbn [t_world t_calls t_trace] in E. unfold ttry in E.
  destruct (tlisten_loop _ _ _ _) as [o1 t1] eqn:E1.
  eapply (kept_listen_loop react (plainI P Q) U) with (B := B) in E1.
  - destruct E1 as [_ E1]. intros u ->. apply E1. destruct o1; congruence.
  - intros t H. apply H.
  - exact HI.
  - intros l log c t o2 t2 Hin Ht E2. apply texec_cmd_inv in E2. destruct E2 as (t3 & w3 & E3 & E4 & ->). apply (HI _ _ _ Ht) in E3. destruct E3 as (G1 & G2 & G3).
    destruct (exec_cmd_effect _ _ _ _ E4) as (F1 & _ & _ & F4 & _). split.
    + split; [cbn [t_world]; rewrite F1; exact G1|]. split; [exact G2|]. cbn [t_world]. unfold Q in *. destruct fixed; [|exact I].
      destruct (Hf eq_refl) as (_ & _ & Hp). specialize (Hp l log). rewrite Forall_forall in Hp. rewrite (F4 (Hp c Hin)). exact G3.
    + intros u ->. apply exec_cmd_ub in E4. destruct E4 as [-> E4]. destruct Hs as [Hs|Hs]; [|exact Hs]. exfalso. apply E4. specialize (Hs l log). rewrite Forall_forall in Hs. auto.
  - intros w0 s xs tr (G1 & G2 & G3) Hs0. split; [exact Hs0|]. auto.
  - intros w0 z xs tr (G1 & G2 & G3). split; [exact G1|]. split; [exact G2|]. unfold Q in *. destruct fixed; exact G3.
  - intros w0 xs tr ev G. destruct (s_listener (w_sock w0)); exact G.
  - intros w0 xs tr G _. exact G.
  - intros t o2 t2 (G1 & G2 & G3) Hl E2 Hl2. destruct Hn as [Hn|Hn]; [|exact Hn]. exfalso.
    apply nonnull_stays in E2; [congruence| |exact Hl]. eapply Forall_impl; [|exact G2]. intros xs. apply Forall_impl. exact Hn.
  - intros t (G1 & G2 & G3). unfold Q in G3. destruct fixed; [left; exact G3|right; apply Hnf; reflexivity].
  - destruct E0 as (G1 & G2 & G3). split; [exact G1|]. split; [exact G2|]. cbn [t_world w_sock set_sock]. unfold Q in *. destruct fixed; exact G3.
  - reflexivity.
Qed.

(** Whatever other threads call at any moments: the null listener is only dereferenced if one of them calls setListener(nullptr);
    the read buffer is only overrun, or a negative count read, if somebody calls setConfig; masking only overflows for a message of
    2^31 bytes or more; nothing else is undefined, and no exception leaves listen(). *)
Theorem C70_safe_partial : forall react w xss o t', io_only (w_in w) -> tlisten react (TWorld w xss []) = (o, t') ->
  (forall e, o <> Throw e) /\
  (others no_null xss -> o <> Ub UbNull) /\
  (others no_config xss -> (forall l log, Forall no_config_cmd (react l log)) -> o <> Ub UbOverflow /\ o <> Ub UbNegativeCount) /\
  (small_react react -> o <> Ub UbSigned) /\ o <> Ub UbDangling.
Proof.
  intros react w xss o t' Hio E. split.
  { intros e ->. unfold tlisten in E. unfold tbind at 1 in E. destruct (interleave (TWorld w xss [])) as [o0 t0] eqn:E0. pose proof (interleave_ret _ _ _ E0) as ->.
    unfold tbind, mark, local, modify_sock, tget, ttry in E. destruct (tlisten_loop _ _ _ _) as [[] ?]; discriminate. }
  assert (others (fun _ => True) xss) as Ht by (apply Forall_forall; intros xs _; apply Forall_forall; auto).
  split; [|split; [|split]].
  - intros Hn Ho. refine (tlisten_safe react w xss o t' no_null 0 false (fun u => u <> UbNull) Hio Hn _ _ _ _ E UbNull Ho eq_refl); try discriminate; auto.
    + split; discriminate.
    + right. discriminate.
  - intros Hc Hr. assert (forall u, o = Ub u -> u <> UbOverflow /\ u <> UbNegativeCount) as H.
    { refine (tlisten_safe react w xss o t' no_config (s_buf (w_sock w)) true (fun u => u <> UbOverflow /\ u <> UbNegativeCount) Hio Hc _ _ _ _ E); try discriminate; auto.
      - right. split; discriminate.
      - right. split; discriminate. }
    split; intros Ho; destruct (H _ Ho); congruence.
  - intros Hs Ho. refine (tlisten_safe react w xss o t' (fun _ => True) 0 false (fun u => u <> UbSigned) Hio Ht _ _ _ _ E UbSigned Ho eq_refl); try discriminate; auto.
    + split; discriminate.
    + right. discriminate.
  - intros Ho. refine (tlisten_safe react w xss o t' (fun _ => True) 0 false (fun u => u <> UbDangling) Hio Ht _ _ _ _ E UbDangling Ho eq_refl); try discriminate; auto.
    + split; discriminate.
    + right. discriminate.
    + right. discriminate.
Qed.
Print Assumptions C70_safe_partial.
