(** Asynchronous listening in general: C52 (any sending, throwing, looking listener under any failures), C53 (delivery),
    C54 (what every callback can rely on), C55 (protocol errors). *)
From Verif Require Import Bytes Frame World WebSocket AsyncWebSocket SpecFrame SpecSend SpecListen SpecApi SpecAsync
  ProofFrame ProofStream ProofSend ProofCodec ProofHeader ProofListen ProofReading ProofApi ProofInv ProofHistory ProofProps
  ProofAsync ProofAsync2 ProofAsync3 PropListen2 PropAsync.
From Coq Require Import ZifyBool ZifyNat ZifyN.
Local Open Scope N_scope.
Local Arguments takeN : simpl never.
Local Arguments dropN : simpl never.
Local Arguments lenN : simpl never.
Local Arguments be_enc : simpl never.
Local Arguments be_dec : simpl never.
Notation step := AsyncWebSocket.step.
Notation star := ProofAsync.star.

(** * C52 *)
Lemma blind_async react : user_react react -> async_react false (blind react).
Proof.
  intros H l log. unfold blind. specialize (H l log). induction H as [|c cs Hc _ IH]; [constructor|].
  destruct c; cbn [filter not_use]; try (constructor; [|exact IH]); cbn in *; try tauto; discriminate.
Qed.

Lemma user_halts react w o w' :
  s_listening (w_sock w) = false -> io_only (w_in w) -> user_react react ->
  listen_try (as_blocking react) w = (o, w') ->
  exists st2 c2, halts react (start_listen w) st2 c2 /\
    ((same_end st2 o /\ c_world c2 = er w') \/
     (st2 = AUb UbDangling /\ grows (c_world c2) (er w'))).
Proof.
  intros Hl Hio Hu E.
  assert (listen_try (as_blocking (blind react)) w = (o, w')) as E'.
  { rewrite <- E. apply listen_try_ext. intros l log w0. apply exec_blind. }
  assert (env_ok true w) as He by discriminate.
  destruct (listen_halts true (as_blocking (blind react)) w o w' Hl Hio) as (st2 & c2 & H1 & H2 & H3);
    [apply as_blocking_async, blind_async, Hu|exact He|exact E'|].
  change (start_listen w) with (mapc (start_listen w)) in H1. apply halts_map in H1. destruct H1 as (c3 & H1 & H4).
  change (start_listen w) with (bc (start_listen w)) in H1. apply halts_b in H1.
  destruct H1 as [(c4 & H1 & H5)|(c4 & H1 & H5)].
  - exists st2, c4. split; [exact H1|]. left. split; [exact H2|congruence].
  - exists (AUb UbDangling), c4. split; [exact H1|]. right. split; [reflexivity|]. rewrite H4, H3 in H5. exact H5.
Qed.

(** Any schedule of executor steps and arrivals, any failures of reads and writes, stopped at any time. *)
Theorem C52_any_schedule : forall react w evs st c o w',
  s_listening (w_sock w) = false -> io_only (w_in w) -> io_only (arrivals evs) -> user_react react ->
  run react evs (ARun, start_listen w) = (st, c) ->
  listen_try (as_blocking react) (give w (arrivals evs)) = (o, w') ->
  match st with
  | ARun | AWait | AUb UbDangling => prefix (w_log (c_world c)) (w_log w') /\ prefix (w_out (c_world c)) (w_out w')
  | _ => same_end st o /\ same_effects (c_world c) w'
  end.
Proof.
  intros react w evs st c o w' Hl Hio Har Hre E ES.
  assert (io_only (w_in (give w (arrivals evs)))) as Hgo by (apply io_only_app; assumption).
  destruct (user_halts react (give w (arrivals evs)) o w' Hl Hgo Hre ES) as (st2 & c2 & Hh & Hend).
  change (start_listen (give w (arrivals evs))) with (arrive (arrivals evs) (start_listen w)) in Hh.
  destruct (run_halts react _ ARun (start_listen w) _ _ _ _ (or_introl eq_refl) Hio Har E Hh) as [[Hg Hh2]|(Hn & <- & <-)].
  - apply halts_grows in Hh2.
    assert (grows (c_world c) (er w')) as Hgr.
    { destruct Hend as [[_ Hw]|[_ Hw]]; [rewrite <- Hw; exact Hh2|eapply grows_trans; eassumption]. }
    destruct Hgr as (_ & G1 & G2). destruct Hg as [-> | ->]; split; assumption.
  - destruct Hend as [[Hend Hw]|[-> (_ & G1 & G2)]]; [|split; assumption].
    pose proof (same_effects_er _ _ Hw) as He.
    destruct st as [| | | |u]; try (split; assumption); try (exfalso; apply Hn; first [now left|now right]).
    destruct u; try (split; assumption). destruct He as (_ & _ & H1 & _ & H2 & _). rewrite H1, H2. split; apply prefix_refl.
Qed.
Print Assumptions C52_any_schedule.

(** If nothing more arrives, a state is reached within finitely many steps and kept. *)
Theorem C52_completion : forall react w evs o w',
  s_listening (w_sock w) = false -> io_only (w_in w) -> io_only (arrivals evs) -> user_react react ->
  listen_try (as_blocking react) (give w (arrivals evs)) = (o, w') ->
  exists n, forall m, (n <= m)%nat -> forall st c, run react (evs ++ ticks m) (ARun, start_listen w) = (st, c) ->
  same_end st o /\ same_effects (c_world c) w' \/ st = AUb UbDangling.
Proof.
  intros react w evs o w' Hl Hio Har Hre ES.
  assert (io_only (w_in (give w (arrivals evs)))) as Hgo by (apply io_only_app; assumption).
  destruct (user_halts react (give w (arrivals evs)) o w' Hl Hgo Hre ES) as (st2 & c2 & Hh & Hend).
  change (start_listen (give w (arrivals evs))) with (arrive (arrivals evs) (start_listen w)) in Hh.
  destruct (run react evs (ARun, start_listen w)) as [st1 c1] eqn:E1.
  assert (same_end st2 o /\ same_effects (c_world c2) w' \/ st2 = AUb UbDangling) as Hfin.
  { destruct Hend as [[Hend Hw]|[-> _]]; [left; split; [exact Hend|now apply same_effects_er]|now right]. }
  pose proof (run_io react _ ARun (start_listen w) _ _ (or_introl eq_refl) Hio Har E1) as Hio1.
  destruct (run_halts react _ ARun (start_listen w) _ _ _ _ (or_introl eq_refl) Hio Har E1 Hh) as [[Hg Hh2]|(Hn & -> & ->)].
  - destruct (halts_ticks react _ _ _ Hh2 Hio1) as [n Hnn]. exists n. intros m Hm st c E. rewrite run_app, E1 in E.
    rewrite (Hnn _ _ Hm Hg) in E. injection E as <- <-. exact Hfin.
  - exists 0%nat. intros m _ st c E. rewrite run_app, E1, run_ticks_stopped in E by exact Hn. injection E as <- <-. exact Hfin.
Qed.
Print Assumptions C52_completion.

(** * The data pointer: the only way to a dangling use *)
Definition sendish (co : cor) : Prop := match co with CoSend _ _ _ _ _ | CoWrite _ _ | CoCatch => True | _ => False end.
Definition core (co : cor) : Prop := match co with CoListen | CoReadFrame _ | CoHandle _ _ | CoPayload _ _ _ _ _ => True | _ => False end.
Definition of_call (react : react_t) (log : list (nat * event)) (cs : list cmd) (f : bool) : Prop :=
  exists log0 l ev pre, log = log0 ++ [(l, ev)] /\ react l log = pre ++ cs /\ (f = true -> exists op d, ev = EvMsg op d).
Inductive ustack (react : react_t) (log : list (nat * event)) : list cor -> Prop :=
| us_core K : Forall core K -> ustack react log K
| us_user ss cs f K : Forall sendish ss -> of_call react log cs f -> Forall core K -> ustack react log (ss ++ CoUser cs f :: K).

Lemma unwind_core K : Forall core K -> unwind K = None.
Proof. induction 1 as [|[] K H _ IH]; cbn in *; tauto. Qed.
Lemma ustack_unwind react log st st' : ustack react log st -> unwind st = Some st' -> ustack react log st'.
Proof.
  intros [K HK|ss cs f K Hs Ho HK] E; [rewrite unwind_core in E by exact HK; discriminate|].
  induction Hs as [|co ss Hc Hs IH]; cbn [app unwind] in E; [rewrite unwind_core in E by exact HK; discriminate|].
  destruct co; cbn in Hc; try contradiction; auto. injection E as <-. now constructor.
Qed.
Lemma ustack_fail react e h s st w st' c : ustack react (w_log w) st -> fail e (Conf h s st w) = (st', c) ->
  ustack react (w_log (c_world c)) (c_stack c).
Proof.
  intros H. unfold fail. cbn [c_stack c_hdr c_short c_world]. destruct (unwind st) as [st2|] eqn:E; intros Eq; injection Eq as <- <-.
  - eapply ustack_unwind; eassumption.
  - apply us_core. constructor.
Qed.

Lemma ustack_log react log log' st : log' = log -> ustack react log st -> ustack react log' st.
Proof. now intros ->. Qed.
Lemma readExactA_log n got w r w' : readExactAsyncInline n got w = (r, w') -> w_log w' = w_log w.
Proof.
  unfold readExactAsyncInline. destruct (n <=? lenN got); intros E; [injection E as <- <-; auto|].
  destruct (read_raw (n - lenN got) (w_in w) (w_sock w)) as [[r0 s'] k'] eqn:Er.
  assert (w' = set_sock (set_in w s') k') as -> by (destruct r0 as [d|[]|]; congruence). auto.
Qed.

Section UStep.
Variable react : react_t.
Definition uok (c : conf) : Prop := ustack react (w_log (c_world c)) (c_stack c).

Lemma uok_core h s K w : Forall core K -> uok (Conf h s K w).
Proof. intros H. now apply us_core. Qed.
Lemma uok_call h s K w l ev f co w' : Forall core K -> call_listener react l ev f w = (co, w') ->
  (f = true -> exists op d, ev = EvMsg op d) -> uok (Conf h s (co :: K) w').
Proof.
  unfold call_listener. intros HK E Hf. injection E as <- <-. red. cbn [c_world c_stack w_log set_log].
  apply (us_user _ _ []); [constructor| |exact HK]. exists (w_log w), l, ev, []. auto.
Qed.
Ltac corek := repeat (constructor; [exact I|]); assumption.
Ltac okcore := apply uok_core; corek.
Ltac failcore := eapply ustack_fail; [|eassumption]; apply us_core; corek.

Lemma step_uok c st c' : uok c -> step react c = (st, c') -> uok c'.
Proof.
  destruct c as [h s sk w]. intros Hu E. red in Hu. cbn [c_stack c_world] in Hu. destruct Hu as [K HK|ss cs f K Hs Ho HK].
  - destruct K as [|co K]; [injection E as <- <-; now apply uok_core|]. inversion HK as [|? ? Hc HK']; subst.
    destruct co as [|p|l p|l ush al pr p|fin op m hh p|hh p|cs frd|]; cbn in Hc; try contradiction; cbn [AsyncWebSocket.step] in E.
    + destruct (h_opcode h =? OPCODE_CLOSE); injection E as <- <-; okcore.
    + unfold step_readFrame in E. destruct p as [got|bb|ty got|ty d|got].
      * destruct (readExactAsyncInline 2 got w) as [[] w1]; try (injection E as <- <-; okcore). failcore.
      * destruct (unpackHeaderBits (be_dec bb) h) as [h1 l1].
        destruct (l1 <? 126); [injection E as <- <-; okcore|]. destruct (l1 =? 126); [injection E as <- <-; okcore|]. destruct (l1 =? 127); [injection E as <- <-; okcore|]. failcore.
      * destruct (readExactAsyncInline (if ty =? 2 then 2 else 8) got w) as [[] w1]; try (injection E as <- <-; okcore). failcore.
      * cbv zeta in E. destruct (h_hasMask _); injection E as <- <-; okcore.
      * destruct (readExactAsyncInline 4 got w) as [[] w1]; try (injection E as <- <-; okcore). failcore.
    + unfold step_handle in E. cbv zeta in E.
      assert (forall us nx sh w0 st c',
        match readPayloadAsync h us w0 with inl e => fail e (Conf h sh K w0) | inr co => (ARun, Conf h sh (co :: CoHandle l nx :: K) w0) end = (st, c') -> uok c') as Hp.
      { clear E. intros us nx sh w0 st1 c1 E. unfold readPayloadAsync in E. destruct (us && _)%bool; [failcore|].
        destruct (_ <? 0)%Z; [failcore|]. injection E as <- <-. okcore. }
      destruct p.
      2,3,4: destruct l as [l|]; [|injection E as <- <-; okcore];
        match type of E with context [call_listener react ?a ?b ?cc ?d] => destruct (call_listener react a b cc d) as [co w1] eqn:Ec end;
        injection E as <- <-; eapply uok_call; [|exact Ec|discriminate]; corek.
      2: injection E as <- <-; okcore.
      assert (forall cc st c', (let (ok, w') := cc : bool * world in
          if (ok : bool) then match readPayloadAsync h false w' with inl e => fail e (Conf h s K w') | inr co => (ARun, Conf h s (co :: CoHandle l HfFinish :: K) w') end
          else fail ExContinuationExpected (Conf h s K w')) = (st, c') -> uok c') as Hc2.
      { clear E. intros [[] w'] st1 c1 E; [eapply Hp; exact E|failcore]. }
      destruct (h_opcode h) as [|[[[[p|p|]|[p|p|]|]|[[p|p|]|[p|p|]|]|]|[[[p|p|]|[p|p|]|]|[[p|p|]|[p|p|]|]|]|]];
        first [failcore | eapply Hp; exact E | eapply Hc2; exact E | idtac].
      destruct (_ <? 0)%Z; [failcore|eapply Hp; exact E].
    + unfold step_payload in E. cbv zeta in E. destruct p as [|n|got|].
      * destruct (pr <? h_len h)%Z; [injection E as <- <-; okcore|]. destruct (negb ush && h_fin h)%bool; [|injection E as <- <-; okcore].
        destruct l as [l|]; [|injection E as <- <-; okcore].
        match type of E with context [call_listener react ?a ?b ?cc ?d] => destruct (call_listener react a b cc d) as [co w1] eqn:Ec end.
        injection E as <- <-. eapply uok_call; [|exact Ec|discriminate]. corek.
      * destruct (readSomeAsyncInline n w) as [[d|d| |] w1]; try (injection E as <- <-; okcore); [destruct (al <? _)%Z; injection E as <- <-; [apply uok_core; constructor|okcore]|failcore].
      * destruct got as [|g0 got]; [failcore|]. destruct ush; [injection E as <- <-; okcore|]. destruct l as [l|]; [|injection E as <- <-; okcore].
        match type of E with context [call_listener react ?a ?b ?cc ?d] => destruct (call_listener react a b cc d) as [co w1] eqn:Ec end.
        injection E as <- <-. eapply uok_call; [|exact Ec|eauto]. corek.
      * injection E as <- <-. okcore.
  - destruct ss as [|co ss]; cbn [app] in E.
    + cbn [AsyncWebSocket.step] in E. unfold step_user in E. destruct cs as [|cm cs]; [injection E as <- <-; okcore|].
      assert (of_call react (w_log w) cs f) as Ho'.
      { destruct Ho as (l0 & l & ev & pre & O1 & O2 & O3). exists l0, l, ev, (pre ++ [cm]). split; [exact O1|]. split; [|exact O3]. rewrite <- app_assoc. exact O2. }
      cbv zeta in E. assert (forall op, sendish (start_send op)) as Hss by (intros []; exact I).
      destruct cm as [|l|mk b|catch o| | |fin0 opc0 msg0];
        try (injection E as <- <-; apply (us_user _ _ []); [constructor|exact Ho'|assumption]).
      * injection E as <- <-. destruct catch; red; cbn [c_stack c_world app].
        -- apply (us_user _ _ [start_send o; CoCatch]); [|exact Ho'|assumption]. constructor; [apply Hss|]. corek || (constructor; [exact I|constructor]).
        -- apply (us_user _ _ [start_send o]); [|exact Ho'|assumption]. constructor; [apply Hss|constructor].
      * destruct f; injection E as <- <-; [apply uok_core; constructor|]. apply (us_user _ _ []); [constructor|exact Ho'|assumption].
      * eapply ustack_fail; [|exact E]. now apply us_core.
      * injection E as <- <-. red; cbn [c_stack c_world]. apply (us_user _ _ [start_send (SoFrame fin0 opc0 msg0)]); [|exact Ho'|assumption]. constructor; [apply Hss|constructor].
    + inversion Hs as [|? ? Hc Hs']; subst.
      assert (forall w1, w_log w1 = w_log w -> ustack react (w_log w1) (ss ++ CoUser cs f :: K)) as Hrest by (intros w1 ->; now constructor).
      assert (forall co' w1 hh, sendish co' -> w_log w1 = w_log w -> uok (Conf hh s (co' :: ss ++ CoUser cs f :: K) w1)) as Hone.
      { intros co' w1 hh Hc' Hl. red. cbn [c_stack c_world]. rewrite Hl. apply (us_user _ _ (co' :: ss)); [now constructor|exact Ho|exact HK]. }
      destruct co as [|p|l p|l ush al pr p|fin op m hh p|hh p|cs0 frd|]; cbn in Hc; try contradiction; cbn [AsyncWebSocket.step] in E.
      * unfold step_send in E. destruct p as [| |left|].
        -- assert (forall n w1 h' co', sendFrameHeaderAsync hh fin op n w = (h', co', w1) -> sendish co' /\ w_log w1 = w_log w) as Hsf.
           { clear E. intros n w1 h' co'. unfold sendFrameHeaderAsync. cbv zeta. cbn [h_hasMask].
             destruct (s_mask (w_sock w)); intros E; injection E as <- <- <-; split; try exact I; reflexivity. }
           assert (forall co' pc w1 h', sendish co' -> w_log w1 = w_log w -> uok (Conf h s (co' :: CoSend fin op m h' pc :: ss ++ CoUser cs f :: K) w1)) as Htwo.
           { clear E. intros co' pc w1 h' Hc' Hl. red. cbn [c_stack c_world]. rewrite Hl. apply (us_user _ _ (co' :: CoSend fin op m h' pc :: ss)); [|exact Ho|exact HK].
             constructor; [exact Hc'|]. constructor; [exact I|exact Hs']. }
           destruct m as [[|b bs]|];
             match type of E with context [sendFrameHeaderAsync hh fin op ?n w] => destruct (sendFrameHeaderAsync hh fin op n w) as [[h' co'] w1] eqn:Es end;
             apply Hsf in Es; destruct Es as [Es1 Es2]; injection E as <- <-; now apply Htwo.
        -- cbv zeta in E. destruct (h_hasMask hh); [destruct (_ <=? _)|]; injection E as <- <-; first [apply uok_core; now constructor|now apply Hone].
        -- destruct (writeExactAsyncInline left w) as [r w1] eqn:Ew. apply writeA_log in Ew.
           destruct r; try (injection E as <- <-; first [now apply Hone|now apply Hrest]). eapply ustack_fail; [|exact E]. now apply Hrest.
        -- injection E as <- <-. now apply Hrest.
      * unfold step_writeFrame in E. cbv zeta in E.
        destruct p as [left| |left| |left].
        -- destruct (writeExactAsyncInline left w) as [r w1] eqn:Ew. apply writeA_log in Ew.
           destruct r; try (injection E as <- <-; first [now apply Hone|now apply Hrest]). eapply ustack_fail; [|exact E]. now apply Hrest.
        -- destruct (_ =? 2); [|destruct (_ =? 3)]; injection E as <- <-; now apply Hone.
        -- destruct (writeExactAsyncInline left w) as [r w1] eqn:Ew. apply writeA_log in Ew.
           destruct r; try (injection E as <- <-; first [now apply Hone|now apply Hrest]). eapply ustack_fail; [|exact E]. now apply Hrest.
        -- destruct (h_hasMask hh); injection E as <- <-; first [now apply Hone|now apply Hrest].
        -- destruct (writeExactAsyncInline left w) as [r w1] eqn:Ew. apply writeA_log in Ew.
           destruct r; try (injection E as <- <-; first [now apply Hone|now apply Hrest]). eapply ustack_fail; [|exact E]. now apply Hrest.
      * injection E as <- <-. now apply Hrest.
Qed.

Lemma step_dangling c c' : uok c -> step react c = (AUb UbDangling, c') ->
  exists log0 l op d, w_log (c_world c') = log0 ++ [(l, EvMsg op d)] /\ In CUseData (react l (w_log (c_world c'))).
Proof.
  destruct c as [h s sk w]. intros Hu E. red in Hu. cbn [c_stack c_world] in Hu.
  destruct sk as [|co K]; [discriminate E|].
  destruct co as [|p|l p|l ush al pr p|fin op m hh p|hh p|cs frd|]; cbn [AsyncWebSocket.step] in E.
  7: {
    unfold step_user in E. destruct cs as [|cm cs]; [discriminate|]. cbv zeta in E.
    destruct cm; try discriminate.
    - destruct frd; [|discriminate]. injection E as <-. cbn [c_world].
      inversion Hu as [K0 HK|ss cs' f K0 Hs Ho HK Heq].
      + inversion HK; subst. contradiction.
      + destruct ss as [|co ss]; cbn [app] in Heq; [|exfalso; injection Heq as -> _; inversion Hs; contradiction].
        injection Heq as -> -> ->. destruct Ho as (l0 & l & ev & pre & O1 & O2 & O3). destruct (O3 eq_refl) as (op & d & ->).
        exists l0, l, op, d. split; [exact O1|]. rewrite O2. apply in_or_app. right. now left.
    - unfold fail in E. cbn in E. destruct (unwind K); discriminate. }
  all: exfalso; revert E.
  - destruct (h_opcode h =? OPCODE_CLOSE); discriminate.
  - unfold step_readFrame, fail. destruct p; cbv zeta; cbn [c_stack]; try discriminate;
      repeat match goal with |- context [match ?x with _ => _ end] => destruct x; try discriminate end.
  - unfold step_handle, fail. destruct p; cbv zeta; cbn [c_stack]; try (destruct l; discriminate); try discriminate.
    destruct (checkForContinuationA h w) as [ok w'].
    destruct (h_opcode h) as [|[[[[p|p|]|[p|p|]|]|[[p|p|]|[p|p|]|]|]|[[[p|p|]|[p|p|]|]|[[p|p|]|[p|p|]|]|]|]];
      repeat match goal with |- context [match ?x with _ => _ end] => destruct x; try discriminate end.
  - unfold step_payload, fail. destruct p; cbv zeta; cbn [c_stack]; try discriminate;
      repeat match goal with |- context [match ?x with _ => _ end] => destruct x; try discriminate end.
  - unfold step_send, fail. destruct p; cbv zeta; cbn [c_stack]; try discriminate;
      repeat match goal with |- context [match ?x with _ => _ end] => destruct x; try discriminate end.
  - unfold step_writeFrame, fail. destruct p; cbv zeta; cbn [c_stack]; try discriminate;
      repeat match goal with |- context [match ?x with _ => _ end] => destruct x; try discriminate end.
  - discriminate.
Qed.

Lemma run_dangling evs : forall st c st' c', uok c ->
  (st = AUb UbDangling -> exists log0 l op d, w_log (c_world c) = log0 ++ [(l, EvMsg op d)] /\ In CUseData (react l (w_log (c_world c)))) ->
  run react evs (st, c) = (st', c') -> st' = AUb UbDangling ->
  exists log0 l op d, w_log (c_world c') = log0 ++ [(l, EvMsg op d)] /\ In CUseData (react l (w_log (c_world c'))).
Proof.
  induction evs as [|[|s] evs IH]; intros st c st' c' Hu Hst E Hd.
  - injection E as <- <-. auto.
  - cbn [run] in E. destruct (tick react (st, c)) as [st1 c1] eqn:Et. unfold tick in Et.
    destruct st; try (injection Et as <- <-; eapply IH; eassumption).
    all: eapply IH; [eapply step_uok; eassumption| |exact E|exact Hd]; intros ->; eapply step_dangling; eassumption.
  - cbn [run fst snd] in E. eapply (IH st (arrive s c) st' c'); [exact Hu|exact Hst|exact E|exact Hd].
Qed.
End UStep.

(** Whatever the listener does and the connection does: a dangling use can only happen in the coroutine returned by a
    readMessage call with data, that looks at that data. *)
Theorem C31_only_way : forall react w evs c,
  run react evs (ARun, start_listen w) = (AUb UbDangling, c) ->
  exists log l op d, w_log (c_world c) = log ++ [(l, EvMsg op d)] /\ In CUseData (react l (w_log (c_world c))).
Proof.
  intros react w evs c E. eapply (run_dangling react evs ARun (start_listen w)); [|discriminate|exact E|reflexivity]. apply uok_core. repeat constructor.
Qed.
Print Assumptions C31_only_way.

(** * From the blocking socket to the asynchronous one *)
Lemma user_tame react : user_react react -> tame_react (as_blocking react).
Proof.
  intros H l log. unfold as_blocking. apply Forall_map. eapply Forall_impl; [|apply H].
  intros c Hc. destruct c as [| | |[] o| | |]; cbn in *; auto; [destruct o; exact I].
Qed.
Lemma args_payload op fin opcode m : send_args op = (fin, opcode, m) -> request op = (fin, opcode, msg_of m).
Proof. destruct op; cbn; intros E; injection E as <- <- <-; reflexivity. Qed.
Lemma as_blocking_forall (P : cmd -> Prop) react :
  (forall fin opcode m op, request op = (fin, opcode, msg_of m) -> P (CSend true op) -> P (CSend true (SoFrame fin opcode m))) ->
  (forall fin opcode m, P (CSend false (SoFrame fin opcode m)) -> P (CDemand fin opcode m)) ->
  (forall l log, Forall P (react l log)) -> forall l log, Forall P (as_blocking react l log).
Proof.
  intros H1 H2 H l log. unfold as_blocking. apply Forall_map. eapply Forall_impl; [|apply H].
  intros c Hc. destruct c as [| | |[] o| | |]; cbn; auto.
  - refine (H1 _ _ _ o _ Hc). destruct o; reflexivity.
  - destruct o; auto.
Qed.
Lemma as_blocking_polite react : polite_react react -> polite_react (as_blocking react).
Proof.
  intros Hp. refine (as_blocking_forall polite_cmd react _ _ Hp); cbn [polite_cmd]; auto. intros fin opcode m op Hr. unfold req_payload. rewrite Hr. auto.
Qed.
Lemma as_blocking_small react : small_react react -> small_react (as_blocking react).
Proof.
  intros Hp. refine (as_blocking_forall small_cmd react _ _ Hp); cbn [small_cmd]; auto. intros fin opcode m op Hr. unfold req_payload. rewrite Hr. auto.
Qed.
Lemma as_blocking_mask m0 react : mask_react m0 react -> mask_react m0 (as_blocking react).
Proof.
  intros Hp. refine (as_blocking_forall (mask_cmd m0) react _ _ Hp); cbn [mask_cmd]; auto. intros fin opcode m op Hr. unfold fits, req_payload. rewrite Hr. auto.
Qed.
Lemma user_never_stops react : user_react react -> never_stops (as_blocking react).
Proof.
  intros H l log. unfold as_blocking. specialize (H l log). induction H as [|c cs Hc _ IH]; [reflexivity|]. cbn [map existsb]. rewrite IH.
  destruct c as [| | |[] o| | |]; cbn in *; try contradiction; try reflexivity; [destruct o; reflexivity].
Qed.
Lemma io_only_stop_only s : io_only s -> stop_only s.
Proof. apply Forall_impl. intros [] H; cbn in *; auto; contradiction. Qed.
Lemma clean_io_only s : clean s -> io_only s.
Proof. apply Forall_impl. intros [| |] H; cbn in *; auto. exact I. Qed.

Lemma listen_try_unfold react w o w' :
  stop_only (w_in w) -> last_ok (w_sock w) -> tame_react react ->
  listen_try react w = (o, w') -> listen_result react (entered w) o w'.
Proof.
  intros Hs Hl Ht E. unfold listen_try, bind, modify_sock, get in E.
  change (set_sock w (set_listening (w_sock w) true)) with (entered w) in E.
  eapply listen_loop_spec; [exact Ht| |exact Hs|exact Hl|exact E]. cbn. lia.
Qed.
Lemma listen_try_exact react w o w' : good react w -> listen_try react w = (o, w') ->
  exists new, w_log w' = w_log w ++ new /\ Forall (fun e => s_listener (w_sock w) = Some (fst e)) new /\
    transcript new = seen (w_sock w) (stream_reading (opn_of w) (bs_of w)) /\
    match stream_ending (opn_of w) (bs_of w) with
    | Blocked => o = Wait /\ w_in w' = []
    | Closed rest => o = Ret tt /\ bs_of w' = rest
    | Rejected rest => (exists e, o = Throw e) /\ bs_of w' = rest
    | Stopped _ => False
    end.
Proof.
  intros (Hc & Hh & Hp & Hns & Hb & Hl) E.
  apply listen_try_unfold in E; [|now apply clean_stop_only|exact Hl|now apply polite_tame].
  assert (calm react (entered w)) as C by (apply calm_entered; split; [now apply clean_steady|auto]).
  destruct E as (new & os & k & Hf & Htr & Hpx & Hl' & Hm & _).
  destruct Hf as (H1 & H2 & H3 & _ & _ & _ & _ & H8 & _).
  destruct (H8 C) as (C' & _ & H9). destruct (H9 Hc) as [Hc' Hlis].
  rewrite never_stops_stops in Hlis by exact Hns. cbn in Hlis.
  cbn [entered set_sock w_sock w_in] in *.
  change (open_of (set_listening (w_sock w) true)) with (open_of (w_sock w)) in *.
  set (R := reading k (open_of (w_sock w)) (bytes_of (w_in w))) in *.
  assert (is_stopped (snd R) = false -> os = fst R ->
      exists new : list (nat * event), w_log w' = w_log w ++ new /\
      Forall (fun e => s_listener (w_sock w) = Some (fst e)) new /\
    transcript new = seen (w_sock w) (stream_reading (opn_of w) (bs_of w)) /\
    stream_ending (opn_of w) (bs_of w) = snd R) as Hfin.
  { intros Hst ->. subst R. destruct (reading_whole _ _ _ Hst) as [Hr1 Hr2].
    exists new. split; [exact H1|]. split; [exact H2|]. rewrite Htr, Hr1, Hr2. auto. }
  destruct o as [[]|e| |u|].
  - destruct Hm as [Hos [Hm|[Hm Hlf]]]; [|congruence].
    destruct Hfin as (n & F1 & F2 & F3 & F4); [now rewrite Hm|exact Hos|]. exists n. rewrite F4, Hm. auto.
  - destruct (Hm C) as [Hos Hm'].
    destruct Hfin as (n & F1 & F2 & F3 & F4); [now rewrite Hm'|exact Hos|]. exists n. rewrite F4, Hm'. eauto 6.
  - destruct (Hm C) as (Hos & Hm' & Hin).
    destruct Hfin as (n & F1 & F2 & F3 & F4); [now rewrite Hm'|exact Hos|]. exists n. rewrite F4, Hm'. auto.
  - destruct Hm as [_ Hm]. contradiction.
  - contradiction.
Qed.

(** What the asynchronous run shows at any time is the beginning of a blocking run. *)
Lemma async_begins react w evs st c :
  s_listening (w_sock w) = false -> io_only (w_in w) -> io_only (arrivals evs) -> user_react react ->
  run react evs (ARun, start_listen w) = (st, c) ->
  exists o w', listen (as_blocking react) (give w (arrivals evs)) = (o, w') /\
    (exists new more, w_log (c_world c) = w_log w ++ new /\ w_log w' = w_log w ++ new ++ more) /\
    prefix (w_out (c_world c)) (w_out w') /\
    forall u, st = AUb u -> u <> UbDangling -> o = Ub u.
Proof.
  intros Hl Hio Har Hu E.
  destruct (listen_try (as_blocking react) (give w (arrivals evs))) as [o w'] eqn:ES.
  exists (match o with Throw _ => Ret tt | _ => o end), w'. split; [rewrite listen_of_try, ES; destruct o; reflexivity|].
  pose proof (C52_any_schedule _ _ _ _ _ _ _ Hl Hio Har Hu E ES) as H.
  assert (prefix (w_log (c_world c)) (w_log w') /\ prefix (w_out (c_world c)) (w_out w')) as [P1 P2].
  { assert (same_effects (c_world c) w' -> prefix (w_log (c_world c)) (w_log w') /\ prefix (w_out (c_world c)) (w_out w')) as Hse.
    { intros (_ & _ & -> & _ & -> & _). split; apply prefix_refl. }
    destruct st as [| | | |u]; try exact H; try (apply Hse, H). destruct u; try exact H; apply Hse, H. }
  split.
  - assert (prefix (w_log w) (w_log (c_world c))) as [new Hn].
    { pose proof (run_star react evs ARun (start_listen w) st c (or_introl eq_refl) Hio Har E) as Hst.
      destruct Hst as [[_ Hs]|[_ (c1 & Hs & H1)]].
      - apply star_grows in Hs. apply Hs.
      - apply star_grows in Hs. apply step_grows in H1. destruct Hs as (_ & Hs & _). destruct H1 as (_ & H1 & _). eapply prefix_trans; eassumption. }
    destruct P1 as [more P1]. exists new, more. split; [exact Hn|]. rewrite P1, Hn, <- app_assoc. reflexivity.
  - split; [exact P2|]. intros u -> Hd. destruct u; try congruence; destruct H as [H _]; destruct o; cbn in H; congruence || contradiction.
Qed.

Lemma prefix_app_l {A} (a b c : list A) : prefix (a ++ b) c -> prefix a c.
Proof. intros [r ->]. exists (b ++ r). now rewrite app_assoc. Qed.

(** * C53: delivery *)
(** At any time, whatever happens: the callbacks so far go to the installed listener and show a beginning of the reading
    of the bytes that have arrived. *)
Theorem C53_only_a_prefix : forall react w evs st c,
  s_listening (w_sock w) = false -> io_only (w_in w) -> io_only (arrivals evs) -> user_react react -> last_ok (w_sock w) ->
  run react evs (ARun, start_listen w) = (st, c) ->
  exists new, w_log (c_world c) = w_log w ++ new /\ Forall (fun e => s_listener (w_sock w) = Some (fst e)) new /\
    prefix (transcript new) (stream_reading (open_of (w_sock w)) (bytes_of (w_in w ++ arrivals evs))).
Proof.
  intros react w evs st c Hl Hio Har Hu Hlo E.
  destruct (async_begins _ _ _ _ _ Hl Hio Har Hu E) as (o & w' & EL & (new & more & N1 & N2) & _).
  destruct (listen_safe (as_blocking react) (give w (arrivals evs)) o w') as (_ & new' & G1 & G2 & G3 & _);
    [apply io_only_stop_only, io_only_app; assumption|exact Hlo|now apply user_tame|exact EL|].
  cbn [w_log give set_in] in G1. rewrite N2 in G1. apply app_inv_head in G1. subst new'.
  exists new. split; [exact N1|]. split; [now apply Forall_app in G2|].
  rewrite transcript_app in G3. now apply prefix_app_l in G3.
Qed.
Print Assumptions C53_only_a_prefix.

(** When nothing fails and nothing more arrives: after finitely many steps exactly the reading of the arrived bytes has
    been shown; the coroutine is suspended if the bytes end inside or before a frame, finished after a Close frame with
    the bytes behind it left, failed after a rejected frame. *)
Theorem C53_delivery : forall react w evs,
  s_listening (w_sock w) = false -> user_react react -> good react (give w (arrivals evs)) ->
  exists n, forall m, (n <= m)%nat -> forall st c, run react (evs ++ ticks m) (ARun, start_listen w) = (st, c) ->
  st = AUb UbDangling \/
  exists new, w_log (c_world c) = w_log w ++ new /\ Forall (fun e => s_listener (w_sock w) = Some (fst e)) new /\
    transcript new = seen (w_sock w) (stream_reading (open_of (w_sock w)) (bytes_of (w_in w ++ arrivals evs))) /\
    match stream_ending (open_of (w_sock w)) (bytes_of (w_in w ++ arrivals evs)) with
    | Blocked => st = AWait /\ w_in (c_world c) = []
    | Closed rest => st = ADone /\ bytes_of (w_in (c_world c)) = rest
    | Rejected rest => (exists e, st = AFail e) /\ bytes_of (w_in (c_world c)) = rest
    | Stopped _ => False
    end.
Proof.
  intros react w evs Hl Hu Hg.
  assert (clean (w_in w) /\ clean (arrivals evs)) as [Hc1 Hc2] by (destruct Hg as (Hg & _); apply Forall_app in Hg; exact Hg).
  destruct (listen_try (as_blocking react) (give w (arrivals evs))) as [o w'] eqn:ES.
  assert (good (as_blocking react) (give w (arrivals evs))) as Hg'.
  { destruct Hg as (G1 & G2 & G3 & G4 & G5). repeat (split; [first [assumption|now apply as_blocking_polite|now apply user_never_stops]|]). exact G5. }
  destruct (listen_try_exact _ _ _ _ Hg' ES) as (new & N1 & N2 & N3 & N4).
  destruct (C52_completion react w evs o w' Hl (clean_io_only _ Hc1) (clean_io_only _ Hc2) Hu ES) as [n Hn].
  exists n. intros m Hm st c E. destruct (Hn m Hm st c E) as [[Hend He]| ->]; [right|now left].
  destruct He as (E1 & _ & _ & _ & E2 & _). exists new. rewrite E1, E2. split; [exact N1|]. split; [exact N2|]. split; [exact N3|].
  cbn [give set_in w_in w_sock] in N4. destruct (stream_ending _ _).
  - destruct N4 as [-> N4]. destruct st; cbn in Hend; try contradiction. auto.
  - destruct N4 as [-> N4]. destruct st; cbn in Hend; try contradiction. auto.
  - destruct N4 as [[e ->] N4]. destruct st; cbn in Hend; try contradiction. eauto.
  - contradiction.
Qed.
Print Assumptions C53_delivery.

(** A listener that answers pings with a raw send it checks and texts with one whose failure it ignores, on a connection
    whose second write is refused: both calls happen, the ignored failure does not end listening, the checked one does. *)
Example C52_nonvacuous :
  let r : react_t := fun _ log => match snd (last log (0%nat, EvEnd 0)) with
    | EvEnd _ => [CUseData; CSend true (SoText (Some [x61; x62]))]
    | EvPing p => [CDemand true 10 (Some p)]
    | EvPong _ => [CThrow]
    | _ => [] end in
  let w := aworld [] [WAccept 1; WIo IoBroken; WAccept 9; WAccept 9; WIo IoBroken] in
  let evs := ticks 3 ++ [Arrive [RData x81 [x01]; RIo IoRetry]] ++ ticks 5 ++ [Arrive [RData x78 []]; Tick; Arrive [RData x89 []]] ++ ticks 30 ++
             [Arrive [RData x01 [x79; x89; x01; x7a; x8a; x00]]] ++ ticks 90 in
  user_react r /\ io_only (arrivals evs) /\
  match run r evs (ARun, start_listen w), listen_try (as_blocking r) (give w (arrivals evs)) with
  | (st, c), (o, w') =>
    (exists e, st = AFail e) /\ (exists e, o = Throw e) /\
    map snd (w_log (c_world c)) = [EvMsg 1 [x78]; EvEnd 1; EvPing [x79]; EvPing [x7a]] /\
    w_log w' = w_log (c_world c) /\ w_out (c_world c) = [x81; x8a; x01; x79] /\ w_out w' = w_out (c_world c)
  end.
Proof.
  cbv zeta. split.
  { intros l log. destruct (snd (last log (0%nat, EvEnd 0))); repeat constructor. }
  split; [repeat constructor|]. vm_compute. repeat split; eexists; reflexivity.
Qed.

(** Three segments, a suspended read, a looking listener: everything is shown. *)
Example C53_nonvacuous :
  let w := aworld [RData x02 [x01; x61]] [WAccept 1] in
  let evs := ticks 7 ++ [Arrive [RData x89 []; RIo IoRetry; RData x00 [x80]]; Tick; Arrive [RData x01 [x62]]] in
  user_react user /\ good user (give w (arrivals evs)) /\ stream_ending false (bytes_of (w_in w ++ arrivals evs)) = Blocked /\
  match run user (evs ++ ticks 90) (ARun, start_listen w) with
  | (st, c) => st = AWait /\ map snd (w_log (c_world c)) = [EvMsg 2 [x61]; EvPing []; EvMsg 0 [x62]; EvEnd 0]
  end.
Proof.
  cbv zeta. split. { intros l log. unfold user. destruct (snd (last log (0%nat, EvEnd 0))); repeat constructor. }
  split. { split; [repeat constructor|]. split; [repeat constructor|].
    split; [intros l log; unfold user; destruct (snd (last log (0%nat, EvEnd 0))); repeat constructor|].
    split; [intros l log; unfold user; destruct (snd (last log (0%nat, EvEnd 0))); reflexivity|].
    split; [reflexivity|left; reflexivity]. }
  split; [vm_compute; reflexivity|]. vm_compute. split; reflexivity.
Qed.
