(** Property theorems about the asynchronous socket: C28, C29, C31, C45. *)
From Verif Require Import Bytes Frame World WebSocket AsyncWebSocket SpecFrame SpecSend SpecListen SpecAsync
  ProofFrame ProofStream ProofSend ProofCodec ProofInv ProofAsync ProofAsync2.
From Coq Require Import ZifyBool ZifyNat ZifyN.
Local Open Scope N_scope.
Local Arguments takeN : simpl never.
Local Arguments dropN : simpl never.
Local Arguments lenN : simpl never.
Local Arguments be_enc : simpl never.
Local Arguments be_dec : simpl never.

(** * C28: listenAsync is equivalent to listen *)
Lemma listen_halts strict react w o w' :
  s_listening (w_sock w) = false -> io_only (w_in w) -> async_react strict react -> env_ok strict w ->
  listen_try react w = (o, w') ->
  exists st2 c2, halts react (start_listen w) st2 c2 /\ same_end st2 o /\ c_world c2 = er w'.
Proof.
  intros Hl Hio Hre He E. unfold listen_try, bind, modify_sock, get in E.
  set (w1 := set_sock w (set_listening (w_sock w) true)) in *. change (w_in w1) with (w_in w) in E.
  assert (er w1 = w) as Hw1 by (change (er w1) with (er w); now apply er_id).
  assert (inv true (s_listener (w_sock w)) (s_buf (w_sock w)) strict w1) as Hi by (repeat split; assumption).
  pose proof (loop_listen_sim react true (s_listener (w_sock w)) (s_buf (w_sock w)) strict Hre _ header_init
    (Header false false false false 255 false 0 mask0) [] [] w1 o w' eq_refl Hi eq_refl eq_refl ltac:(discriminate) E) as HS.
  rewrite Hw1 in HS. eapply sim_halts; [exact HS|].
  exact (listen_loop_fin react _ _ w1 _ _ (Nat.lt_succ_diag_r _) E).
Qed.

(** Any schedule of executor steps and arrivals, stopped at any time: if it has ended (finished, failed, undefined),
    it ended as the blocking loop does on the whole input, with the same effects; if not, its listener calls and its
    output are a prefix of those of the blocking loop. *)
Theorem C28_any_schedule_partial : forall strict react w evs st c o w',
  s_listening (w_sock w) = false -> io_only (w_in w) -> io_only (arrivals evs) ->
  async_react strict react -> env_ok strict w ->
  run react evs (ARun, start_listen w) = (st, c) ->
  listen_try react (give w (arrivals evs)) = (o, w') ->
  match st with
  | ARun | AWait => prefix (w_log (c_world c)) (w_log w') /\ prefix (w_out (c_world c)) (w_out w')
  | _ => same_end st o /\ same_effects (c_world c) w'
  end.
Proof.
  intros strict react w evs st c o w' Hl Hio Har Hre He E ES.
  assert (io_only (w_in (give w (arrivals evs)))) as Hgo by (apply io_only_app; assumption).
  destruct (listen_halts strict react (give w (arrivals evs)) o w' Hl Hgo Hre He ES) as (st2 & c2 & Hh & Hend & Hw).
  change (start_listen (give w (arrivals evs))) with (arrive (arrivals evs) (start_listen w)) in Hh.
  destruct (run_halts react _ ARun (start_listen w) _ _ _ _ (or_introl eq_refl) Hio Har E Hh) as [[Hg Hh2]|(Hn & <- & <-)].
  - apply halts_grows in Hh2. rewrite Hw in Hh2. destruct Hh2 as (_ & H1 & H2).
    destruct Hg as [-> | ->]; split; assumption.
  - pose proof (same_effects_er _ _ Hw). destruct st; try (split; assumption); exfalso; apply Hn; [now left|now right].
Qed.
Print Assumptions C28_any_schedule_partial.

(** After any schedule, if nothing more arrives, the coroutine reaches within finitely many further steps the very
    state in which listen() returns, throws inside, or blocks: finished iff it returned, failed iff an exception was
    swallowed, suspended iff it blocks. *)
Theorem C28_completion_partial : forall strict react w evs o w',
  s_listening (w_sock w) = false -> io_only (w_in w) -> io_only (arrivals evs) ->
  async_react strict react -> env_ok strict w ->
  listen_try react (give w (arrivals evs)) = (o, w') ->
  exists n, forall m, (n <= m)%nat -> forall st c, run react (evs ++ ticks m) (ARun, start_listen w) = (st, c) ->
  same_end st o /\ same_effects (c_world c) w'.
Proof.
  intros strict react w evs o w' Hl Hio Har Hre He ES.
  assert (io_only (w_in (give w (arrivals evs)))) as Hgo by (apply io_only_app; assumption).
  destruct (listen_halts strict react (give w (arrivals evs)) o w' Hl Hgo Hre He ES) as (st2 & c2 & Hh & Hend & Hw).
  change (start_listen (give w (arrivals evs))) with (arrive (arrivals evs) (start_listen w)) in Hh.
  destruct (run react evs (ARun, start_listen w)) as [st1 c1] eqn:E1.
  pose proof (same_effects_er _ _ Hw) as HE.
  pose proof (run_io react _ ARun (start_listen w) _ _ (or_introl eq_refl) Hio Har E1) as Hio1.
  destruct (run_halts react _ ARun (start_listen w) _ _ _ _ (or_introl eq_refl) Hio Har E1 Hh) as [[Hg Hh2]|(Hn & -> & ->)].
  - destruct (halts_ticks react _ _ _ Hh2 Hio1) as [n Hnn]. exists n. intros m Hm st c E. rewrite run_app, E1 in E.
    rewrite (Hnn _ _ Hm Hg) in E. injection E as <- <-. auto.
  - exists 0%nat. intros m _ st c E. rewrite run_app, E1, run_ticks_stopped in E by exact Hn. injection E as <- <-. auto.
Qed.
Print Assumptions C28_completion_partial.

(** A world with a listener and some input. *)
Definition aworld (i : list rev) (q : list wev) : world :=
  World i q [] (fun i => n2b (N.of_nat i)) 0 [] (set_listener (sock_new false) (Some 7%nat)).
Definition echo : react_t := fun _ log =>
  match snd (last log (0%nat, EvEnd 0)) with
  | EvMsg _ d => [CSend false (SoText (Some d))]
  | EvPing d => [CSend false (SoPong (Some d))]
  | _ => []
  end.
Lemma echo_async : async_react true echo.
Proof. intros l log. unfold echo. destruct (snd _); repeat constructor. Qed.

(** A masked text frame arriving in three pieces, then a close, with partial writes. *)
Example C28_nonvacuous :
  let w := aworld [] [WAccept 1; WIo IoRetry; WAccept 1] in
  let evs := ticks 3 ++ [Arrive [RData x81 [x82]; RIo IoRetry]] ++ ticks 5 ++ [Arrive [RData x01 [x02; x03; x04; x60]]; Tick; Arrive [RData x63 []]] ++ ticks 10 ++
             [Arrive [RData x88 [x00]]] ++ ticks 60 in
  env_ok true w /\ io_only (arrivals evs) /\
  match run echo evs (ARun, start_listen w) with
  | (st, c) => st = ADone /\ map snd (w_log (c_world c)) = [EvMsg 1 [x61]; EvMsg 1 [x61]; EvEnd 1; EvClose 0 []] /\
               w_out (c_world c) = [x81; x01; x61; x81; x01; x61]
  end.
Proof.
  cbv zeta. split; [discriminate|]. split; [repeat constructor|]. vm_compute. repeat split.
Qed.

(** The full claim is false for listeners that swallow the failure of a send: the blocking socket then stops
    listening, the asynchronous one goes on. *)
Definition swallower : react_t := fun _ _ => [CSend true (SoText (Some [x61]))].
Theorem C28_swallowed_failure_refuted :
  let w := aworld [RData x89 [x00; x89; x00]] [WAccept 2; WIo IoBroken] in
  map snd (w_log (snd (listen swallower w))) = [EvPing []] /\ fst (listen swallower w) = Ret tt /\
  map snd (w_log (c_world (snd (run swallower (ticks 100) (ARun, start_listen w))))) = [EvPing []; EvPing []] /\
  fst (run swallower (ticks 100) (ARun, start_listen w)) = AWait.
Proof. cbv zeta. repeat split; vm_compute; reflexivity. Qed.
Print Assumptions C28_swallowed_failure_refuted.

(** ... and for listeners that use sendOneFrame without looking at its result: the blocking call returns false, the
    asynchronous one is an error that ends listening. *)
Definition raw_sender : react_t := fun _ _ => [CSend false (SoFrame true 1 (Some [x61]))].
Theorem C28_raw_send_failure_refuted :
  let w := aworld [RData x89 [x00; x89; x00]] [WAccept 2; WIo IoBroken] in
  map snd (w_log (snd (listen raw_sender w))) = [EvPing []; EvPing []] /\
  map snd (w_log (c_world (snd (run raw_sender (ticks 100) (ARun, start_listen w))))) = [EvPing []] /\
  fst (run raw_sender (ticks 100) (ARun, start_listen w)) = AFail ExAsyncIO.
Proof. cbv zeta. repeat split; vm_compute; reflexivity. Qed.
Print Assumptions C28_raw_send_failure_refuted.

(** * C29: asynchronous sending *)
Lemma send_halts react op w o w' :
  s_listening (w_sock w) = false -> io_only (w_in w) -> send_reporting op w = (o, w') ->
  exists st2 c2, halts react (start_sending op w) st2 c2 /\ same_send_end st2 o /\ c_world c2 = er w'.
Proof.
  intros Hl Hio E.
  assert (inv false (s_listener (w_sock w)) (s_buf (w_sock w)) true w) as Hi by (repeat split; try assumption; discriminate).
  assert (exists fin c m o1 w1, start_send op = CoSend fin c m header_init SfAct /\ checked fin c m w = (o1, w1) /\ er w1 = er w' /\
     (forall st, same_end st o1 -> same_send_end st o) /\ o1 <> OutOfFuel) as (fin & c & m & o1 & w1 & Hs & E1 & Hw & Hend & Hf).
  { assert (forall f c m, (sendChecked f c m ;;; ret true)%m w = (o, w') ->
      exists fin c' m' o1 w1, CoSend f c m header_init SfAct = CoSend fin c' m' header_init SfAct /\ checked fin c' m' w = (o1, w1) /\
       er w1 = er w' /\ (forall st, same_end st o1 -> same_send_end st o) /\ o1 <> OutOfFuel) as Haux.
    { clear E. intros f c m E. exists f, c, m. unfold bind in E. destruct (sendChecked f c m w) as [o2 w2] eqn:E2.
      destruct (sendChecked_checked _ _ _ _ _ _ E2) as (w1 & E1 & Her & Hr). exists o2, w1.
      split; [reflexivity|]. split; [exact E1|].
      assert (w2 = w') as -> by (destruct o2; injection E; congruence).
      split; [exact Her|].
      assert (o2 <> OutOfFuel) as Ho.
      { assert (keeps (sendChecked f c m)) as K by auto with keeps. apply K in E2. destruct E2 as [_ E2]. now destruct o2. }
      split; [|exact Ho]. intros st Hse. destruct o2; injection E as <- ; destruct st; cbn in *; tauto. }
    destruct op as [fin c m|code m| |m|m|m|m]; unfold start_send; cbn [send_args].
    { exists fin, c, m. destruct (checked fin c m w) as [o1 w1] eqn:E1. exists o1, w1. split; [reflexivity|]. split; [reflexivity|].
      unfold checked, bind in E1. cbn [send_reporting] in E. rewrite E in E1.
      assert (o <> OutOfFuel) as Ho.
      { assert (keeps (sendOneFrame fin c m)) as K by auto with keeps. apply K in E. destruct E as [_ E]. now destruct o. }
      destruct o as [[]|e| |u|]; injection E1 as <- <-;
        (split; [reflexivity|]); (split; [|congruence]); intros [] Hse; cbn in *; tauto. }
    all: apply Haux; exact E. }
  unfold start_sending. rewrite Hs.
  pose proof (simT_sim _ _ _ _ _ _ _ _ _ _ _ (checked_sim react false _ _ true fin c m header_init [] [] w o1 w1 Hi E1)) as HS.
  rewrite er_id in HS by exact Hl.
  destruct (sim_halts _ _ _ _ _ _ _ _ _ HS Hf) as (st2 & c2 & H1 & H2 & H3).
  exists st2, c2. split; [exact H1|]. split; [now apply Hend|congruence].
Qed.

(** Any schedule of a send coroutine: ended means ended as the blocking call does (with sendOneFrame's [false] a
    failure), with the same bytes written and the same randomness used; not ended means a prefix has been written. *)
Theorem C29_any_schedule : forall react op w evs st c o w',
  s_listening (w_sock w) = false -> io_only (w_in w) -> io_only (arrivals evs) ->
  run react evs (ARun, start_sending op w) = (st, c) ->
  send_reporting op (give w (arrivals evs)) = (o, w') ->
  match st with
  | ARun | AWait => prefix (w_out (c_world c)) (w_out w')
  | _ => same_send_end st o /\ same_effects (c_world c) w'
  end.
Proof.
  intros react op w evs st c o w' Hl Hio Har E ES.
  assert (io_only (w_in (give w (arrivals evs)))) as Hgo by (apply io_only_app; assumption).
  destruct (send_halts react op (give w (arrivals evs)) o w' Hl Hgo ES) as (st2 & c2 & Hh & Hend & Hw).
  change (start_sending op (give w (arrivals evs))) with (arrive (arrivals evs) (start_sending op w)) in Hh.
  destruct (run_halts react _ ARun (start_sending op w) _ _ _ _ (or_introl eq_refl) Hio Har E Hh) as [[Hg Hh2]|(Hn & <- & <-)].
  - apply halts_grows in Hh2. rewrite Hw in Hh2. destruct Hh2 as (_ & H1 & H2).
    destruct Hg as [-> | ->]; assumption.
  - pose proof (same_effects_er _ _ Hw). destruct st; try (split; assumption); exfalso; apply Hn; [now left|now right].
Qed.
Print Assumptions C29_any_schedule.

(** ... and it does end (or waits for the connection, as the blocking call does). *)
Theorem C29_completion : forall react op w o w',
  s_listening (w_sock w) = false -> io_only (w_in w) ->
  send_reporting op w = (o, w') ->
  exists n, forall m, (n <= m)%nat -> forall st c, run react (ticks m) (ARun, start_sending op w) = (st, c) ->
  same_send_end st o /\ same_effects (c_world c) w'.
Proof.
  intros react op w o w' Hl Hio ES.
  destruct (send_halts react op w o w' Hl Hio ES) as (st2 & c2 & Hh & Hend & Hw).
  destruct (halts_ticks react _ _ _ Hh Hio) as [n Hnn]. exists n. intros m Hm st c E.
  rewrite (Hnn _ _ Hm (or_introl eq_refl)) in E. injection E as <- <-. split; [exact Hend|]. now apply same_effects_er.
Qed.
Print Assumptions C29_completion.

(** On the wire: a finished coroutine has written exactly the RFC 6455 frame its call asks for, masked with the next
    key of the random source iff masking is configured; otherwise it has written a prefix of it, a proper one if it
    failed. *)
Theorem C29_frame_on_the_wire : forall react op w evs st c,
  s_listening (w_sock w) = false -> io_only (w_in w) -> io_only (arrivals evs) -> lenN (req_payload op) < 2 ^ 63 ->
  run react evs (ARun, start_sending op w) = (st, c) ->
  exists p, w_out (c_world c) = w_out w ++ p /\ prefix p (sent_wire (next_key_opt w) op) /\
  (st = ADone -> p = sent_wire (next_key_opt w) op) /\
  (forall e, st = AFail e -> p <> sent_wire (next_key_opt w) op).
Proof.
  intros react op w evs st c Hl Hio Har Hlen E.
  destruct (send_reporting op (give w (arrivals evs))) as [o w'] eqn:ES.
  pose proof (C29_any_schedule _ _ _ _ _ _ _ _ Hl Hio Har E ES) as H.
  pose proof (run_star react evs ARun (start_sending op w) st c (or_introl eq_refl) Hio Har E) as Hst.
  assert (prefix (w_out w) (w_out (c_world c))) as Hp0.
  { destruct Hst as [[_ Hs]|[_ (c1 & Hs & H1)]].
    - apply star_grows in Hs. apply Hs.
    - apply star_grows in Hs. apply step_grows in H1. destruct Hs as (_ & _ & Hs). destruct H1 as (_ & _ & H1). eapply prefix_trans; eassumption. }
  clear Hst. destruct Hp0 as [p Hp]. exists p. split; [exact Hp|].
  change (next_key_opt w) with (next_key_opt (give w (arrivals evs))).
  assert (exists q, w_out w' = w_out w ++ q /\ prefix q (sent_wire (next_key_opt (give w (arrivals evs))) op) /\
    (o = Ret true -> q = sent_wire (next_key_opt (give w (arrivals evs))) op) /\
    ((o = Ret false \/ exists e, o = Throw e) -> q <> sent_wire (next_key_opt (give w (arrivals evs))) op)) as (q & Hq & Hpre & Hok & Hbad).
  { destruct op as [fin k m|code m| |m|m|m|m]; cbn [send_reporting] in ES.
    { destruct (sendOneFrame_reported _ _ _ _ _ _ Hlen ES) as (q & H1 & H2 & H3). exists q. split; [exact H1|]. split; [exact H2|].
      split; [intros ->; exact H3|]. intros [-> | [e ->]]; exact H3. }
    all: unfold bind, ret in ES; match type of ES with context [send ?opp ?ww] => destruct (send opp ww) as [o1 w1] eqn:E1 end;
      destruct (send_reported _ _ _ _ Hlen E1) as (q & H1 & H2 & H3 & H4);
      (assert (w1 = w') as -> by (destruct o1; injection ES; congruence));
      exists q; (split; [exact H1|]); (split; [exact H2|]); (split;
      [intros ->; destruct o1 as [[]| | | |]; try discriminate; apply H4; [reflexivity|discriminate]
      |intros [-> | [e ->]]; destruct o1; try discriminate; eapply H3; reflexivity ]). }
  destruct st.
  1,2: (split; [|split; discriminate]); eapply prefix_trans; [|exact Hpre]; rewrite Hp, Hq in H; destruct H as [t Ht]; exists t;
    rewrite <- app_assoc in Ht; now apply app_inv_head in Ht.
  all: destruct H as [He (_ & _ & H3 & _)]; rewrite Hp, Hq in H3; apply app_inv_head in H3; subst q; split; [exact Hpre|].
  - split; [|discriminate]. intros _. apply Hok. cbn in He. destruct o as [[]| | | |]; tauto.
  - split; [discriminate|]. intros e' _. apply Hbad. cbn in He. destruct o as [[]|e''| | |]; try tauto. right. eauto.
  - split; discriminate.
Qed.
Print Assumptions C29_frame_on_the_wire.

Example C29_nonvacuous :
  let w := World [] [WAccept 3; WIo IoRetry; WAccept 1] [] (fun i => n2b (N.of_nat i)) 0 [] (sock_new true) in
  let op := SoPing (Some [x61; x62]) in
  match run echo (ticks 20) (ARun, start_sending op w) with
  | (st, c) => st = ADone /\ w_out (c_world c) = [x89; x82; x00; x01; x02; x03; x61; x63]
  end /\
  fst (run echo (ticks 20) (ARun, start_sending op (set_wr w [] [WAccept 3; WIo IoBroken]))) = AFail ExAsyncIO.
Proof. cbv zeta. split; vm_compute; repeat split. Qed.

(** * C31: lifetime of the data pointer *)
(** Masked frames: the pointer dangles as soon as the listener's coroutine runs (for all of them: PropDangling.v). *)
Definition user : react_t := fun _ log => match snd (last log (0%nat, EvEnd 0)) with EvMsg _ _ => [CUseData] | _ => [] end.
Example C31_masked_witness :
  let w := aworld [RData x81 [x81; x01; x02; x03; x04; x60]] [] in
  fst (run user (ticks 20) (ARun, start_listen w)) = AUb UbDangling.
Proof. vm_compute. reflexivity. Qed.

(** It happens with masked frames only: for every schedule, input, and listener. *)
Section Dangling.
Variable react : react_t.
Definition kept (co : cor) : Prop := match co with CoUser _ true => False | _ => True end.
Fixpoint fresh (hdr : header) (st : list cor) : Prop :=
  match st with
  | [] => True
  | co :: K => fresh hdr K /\
    match co with
    | CoListen | CoReadFrame _ | CoHandle _ _ | CoPayload _ _ _ _ _ => Forall kept K
    | CoUser _ true => h_hasMask hdr = true
    | _ => True
    end
  end.
Lemma fresh_kept h1 h2 K : Forall kept K -> fresh h1 K -> fresh h2 K.
Proof.
  induction 1 as [|co K Hc _ IH]; intros HF; [exact I|]. destruct HF as [HF1 HF2]. split; [now apply IH|].
  destruct co; try exact HF2. destruct freed; [destruct Hc|exact I].
Qed.
Lemma fresh_unwind hdr st st' : fresh hdr st -> unwind st = Some st' -> fresh hdr st'.
Proof.
  induction st as [|co K IH]; intros HF E; [discriminate|]. destruct HF as [HF _]. destruct co; cbn in E; try (now apply IH). congruence.
Qed.
Lemma fresh_fail e h s K w st c : fresh h K -> fail e (Conf h s K w) = (st, c) ->
  fresh (c_hdr c) (c_stack c) /\ (st = AUb UbDangling -> h_hasMask (c_hdr c) = true).
Proof.
  intros HF E. unfold fail in E. cbn [c_stack c_hdr c_short c_world] in E. destruct (unwind K) eqn:Eu; injection E as <- <-; cbn.
  - split; [eapply fresh_unwind; eassumption|discriminate].
  - split; [exact I|discriminate].
Qed.
Ltac fr E := first
  [ eapply fresh_fail; [|exact E]; cbn [fresh]; tauto
  | injection E as <- <-; cbn [c_hdr c_stack fresh]; (split; [|discriminate]); repeat split; repeat constructor; tauto ].
Lemma fresh_step c st c' : fresh (c_hdr c) (c_stack c) -> step react c = (st, c') ->
  fresh (c_hdr c') (c_stack c') /\ (st = AUb UbDangling -> h_hasMask (c_hdr c') = true).
Proof.
  intros HF E. destruct c as [hdr short stk w]. cbn [c_hdr c_stack] in HF.
  unfold AsyncWebSocket.step in E. destruct stk as [|co K]; [fr E|]. cbn [fresh] in HF. destruct HF as [HF HT].
  destruct co as [|p|l p|l us al pr p|fin op m h p|h p|cs frd|].
  - destruct (h_opcode hdr =? OPCODE_CLOSE); fr E.
  - unfold step_readFrame in E.
    assert (forall h, fresh h K) as HFk by (intros h; eapply fresh_kept; eassumption).
    destruct p as [got|bb|ty got|ty d|got].
    + destruct (readExactAsyncInline 2 got w) as [r w1]; destruct r; fr E.
    + destruct (unpackHeaderBits (be_dec bb) hdr) as [h l1]. specialize (HFk h).
      destruct (l1 <? 126).
      { injection E as <- <-. cbn [c_hdr c_stack fresh]. split; [|discriminate]. split; [|exact HT]. eapply fresh_kept; eassumption. }
      destruct (l1 =? 126); [fr E|]. destruct (l1 =? 127); fr E.
    + destruct (readExactAsyncInline (if ty =? 2 then 2 else 8) got w) as [r w1]; destruct r; fr E.
    + cbv zeta in E. match type of E with context [h_hasMask ?h] => specialize (HFk h); destruct (h_hasMask h) end; fr E.
    + destruct (readExactAsyncInline 4 got w) as [r w1]; destruct r; try (fr E).
      injection E as <- <-. cbn. split; [apply HFk|discriminate].
  - unfold step_handle in E. cbv zeta in E.
    assert (forall us nx sh w0 st c',
      match readPayloadAsync hdr us w0 with inl e => fail e (Conf hdr sh K w0) | inr co => (ARun, Conf hdr sh (co :: CoHandle l nx :: K) w0) end = (st, c') ->
      fresh (c_hdr c') (c_stack c') /\ (st = AUb UbDangling -> h_hasMask (c_hdr c') = true)) as Hp.
    { clear -HF HT. intros us nx sh w0 st c' E. unfold readPayloadAsync in E. destruct (us && _)%bool; [fr E|]. destruct (_ <? 0)%Z; [fr E|].
      injection E as <- <-. cbn. split; [|discriminate]. split; [split; assumption|]. constructor; [exact I|exact HT]. }
    destruct p.
    + assert (forall st c', (let (ok, w') := checkForContinuationA hdr w in
          if (ok : bool) then match readPayloadAsync hdr false w' with inl e => fail e (Conf hdr short K w') | inr co => (ARun, Conf hdr short (co :: CoHandle l HfFinish :: K) w') end
          else fail ExContinuationExpected (Conf hdr short K w')) = (st, c') -> fresh (c_hdr c') (c_stack c') /\ (st = AUb UbDangling -> h_hasMask (c_hdr c') = true)) as Hc.
      { clear -HF Hp. intros st c' E. unfold checkForContinuationA in *. cbv zeta in *.
        destruct (_ || _)%bool; [fr E|]. eapply Hp; exact E. }
      destruct (h_opcode hdr) as [|[[[[p|p|]|[p|p|]|]|[[p|p|]|[p|p|]|]|]|[[[p|p|]|[p|p|]|]|[[p|p|]|[p|p|]|]|]|]];
        first [eapply Hp; exact E | eapply Hc; exact E | fr E| idtac].
      destruct (_ <? 0)%Z; [fr E|eapply Hp; exact E].
    + destruct l; fr E.
    + destruct l; fr E.
    + destruct l; fr E.
    + fr E.
  - unfold step_payload in E. cbv zeta in E. destruct p as [|n|got|].
    + destruct (pr <? h_len hdr)%Z; [fr E|]. destruct (negb us && h_fin hdr)%bool; [|fr E]. destruct l; fr E.
    + destruct (readSomeAsyncInline n w) as [r w1]. destruct r; [destruct (al <? Z.of_N (lenN d))%Z| | |]; fr E.
    + destruct got; [fr E|]. destruct us; [fr E|]. destruct l; [|fr E].
      injection E as <- <-. cbn [c_hdr c_stack fresh call_listener]. split; [|discriminate]. split; [auto|]. destruct (h_hasMask hdr); auto.
    + fr E.
  - unfold step_send in E. cbv zeta in E.
    assert (forall n h' co w1, sendFrameHeaderAsync h fin op n w = (h', co, w1) -> exists p, co = CoWrite h' p) as Hs.
    { intros n h' co w1. unfold sendFrameHeaderAsync. cbv zeta. cbn [h_hasMask]. destruct (s_mask (w_sock w)); intros Eq; injection Eq as <- <- <-; eauto. }
    destruct p as [| |left|].
    + destruct m as [[|b bs]|]; destruct (sendFrameHeaderAsync h fin op _ w) as [[h' co] w1] eqn:Es; apply Hs in Es; destruct Es as [pp ->]; fr E.
    + destruct (h_hasMask h); [|fr E]. destruct (_ <=? _); fr E.
    + destruct (writeExactAsyncInline left w) as [r w1]; destruct r; fr E.
    + fr E.
  - unfold step_writeFrame in E. cbv zeta in E. destruct p as [left| |left| |left].
    + destruct (writeExactAsyncInline left w) as [r w1]; destruct r; fr E.
    + destruct (_ =? 2); [fr E|]. destruct (_ =? 3); fr E.
    + destruct (writeExactAsyncInline left w) as [r w1]; destruct r; fr E.
    + destruct (h_hasMask h); fr E.
    + destruct (writeExactAsyncInline left w) as [r w1]; destruct r; fr E.
  - unfold step_user in E. destruct cs as [|cm cs]; [fr E|]. cbv zeta in E.
    destruct cm as [|l|mk b|catch o| | |fin0 opc0 msg0]; try (fr E).
    + injection E as <- <-. cbn [c_hdr c_stack]. split; [|discriminate].
      assert (match start_send o with CoSend _ _ _ _ _ => True | _ => False end) as Hs
        by (unfold start_send; destruct (send_args o) as [[? ?] ?]; exact I).
      destruct (start_send o); try (destruct Hs; fail). destruct catch; cbn [app fresh]; auto.
    + destruct frd; [|fr E]. injection E as <- <-. cbn. auto.
  - fr E.
Qed.
End Dangling.

(** Whatever the schedule, input (other threads' calls included), failures and listener code: if a listener's use of
    its data pointer is undefined, the frame being read is masked. *)
Theorem C31_unmasked_partial : forall react w evs c,
  run react evs (ARun, start_listen w) = (AUb UbDangling, c) -> h_hasMask (c_hdr c) = true.
Proof.
  intros react w evs c E.
  assert (forall evs sc st c, fresh (c_hdr (snd sc)) (c_stack (snd sc)) /\ (fst sc = AUb UbDangling -> h_hasMask (c_hdr (snd sc)) = true) ->
    run react evs sc = (st, c) -> st = AUb UbDangling -> h_hasMask (c_hdr c) = true) as H.
  { clear. induction evs as [|[|s] evs IH]; intros [st0 c0] st c [H1 H2] E Hst; cbn [run fst snd] in *.
    - injection E as <- <-. auto.
    - eapply IH; [|exact E|exact Hst]. unfold tick.
      destruct st0; try (split; assumption);
      destruct (step react c0) as [st1 c1] eqn:E1; apply fresh_step in E1; assumption.
    - eapply IH; [|exact E|exact Hst]. cbn [fst snd]. destruct c0; cbn in *. auto. }
  eapply H; [|exact E|reflexivity]. cbn. split; [auto|discriminate].
Qed.
Print Assumptions C31_unmasked_partial.

Example C31_nonvacuous :
  let w := aworld [RData x81 [x01; x60; x89; x00]] [] in
  match run user (ticks 40) (ARun, start_listen w) with
  | (st, c) => st = AWait /\ map snd (w_log (c_world c)) = [EvMsg 1 [x60]; EvEnd 1; EvPing []]
  end.
Proof. vm_compute. repeat split. Qed.

(** * C45, asynchronous socket (see also PropInstall.v) *)
Definition userish (co : cor) : Prop := match co with CoSend _ _ _ _ _ | CoWrite _ _ | CoUser _ _ | CoCatch => True | _ => False end.
Lemma readSomeA_log n w r w' : readSomeAsyncInline n w = (r, w') -> w_log w' = w_log w.
Proof.
  unfold readSomeAsyncInline. destruct (n <=? 0)%Z; intros E; [injection E as <- <-; auto|].
  destruct (read_raw (Z.to_N n) (w_in w) (w_sock w)) as [[r0 s'] k'] eqn:Er.
  assert (w' = set_sock (set_in w s') k') as -> by (destruct r0 as [d|[]|]; congruence). auto.
Qed.
Lemma writeA_log d w r w' : writeExactAsyncInline d w = (r, w') -> w_log w' = w_log w.
Proof.
  unfold writeExactAsyncInline. destruct d as [|b d]; [intros E; injection E as <- <-; auto|].
  destruct (w_wr w) as [|[n|[]|] q]; intros E; injection E as <- <-; reflexivity.
Qed.

(** A listener installed by another thread while the socket waits for the next frame does not receive that frame
    if it is a control frame: the old listener does. *)
Theorem C45_async_external_install_refuted :
  let w := aworld [RExt (XSetListener (Some 8%nat)); RData x89 [x01; x2a]] [] in
  w_log (c_world (snd (run (fun _ _ => []) (ticks 60) (ARun, start_listen w)))) = [(7%nat, EvPing [x2a])] /\
  w_log (snd (listen (fun _ _ => []) w)) = [(8%nat, EvPing [x2a])].
Proof. cbv zeta. split; vm_compute; reflexivity. Qed.
Print Assumptions C45_async_external_install_refuted.

(** Listener 7 installs listener 8 at its first call; 8 is called from the next frame on. *)
Example C45_async_nonvacuous :
  let r : react_t := fun l log => match l with 7%nat => [CSetListener (Some 8%nat)] | _ => [] end in
  let w := aworld [RData x81 [x02; x61]; RData x62 []; RData x89 [x00]] [] in
  w_log (c_world (snd (run r (ticks 80) (ARun, start_listen w)))) =
    [(7%nat, EvMsg 1 [x61]); (7%nat, EvMsg 1 [x62]); (7%nat, EvEnd 1); (8%nat, EvPing [])].
Proof. vm_compute. reflexivity. Qed.
