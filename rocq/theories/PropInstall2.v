(** C45, asynchronous socket: what callbacks install is what the next frame uses. *)
From Verif Require Import Bytes Frame World WebSocket AsyncWebSocket SpecFrame SpecSend SpecListen SpecAsync
  ProofFrame ProofStream ProofSend ProofHeader ProofListen ProofInv ProofRel ProofAsync ProofAsync2 PropAsync PropInstall.
From Coq Require Import ZifyBool ZifyNat ZifyN.
Local Open Scope N_scope.
Local Arguments takeN : simpl never.
Local Arguments dropN : simpl never.
Local Arguments lenN : simpl never.
Local Arguments be_enc : simpl never.
Local Arguments be_dec : simpl never.
Notation step := AsyncWebSocket.step.
Notation quiet_in := (script_ok PropInstall.no_install any_err).

(** Listener code in progress, and the commands it still has to execute. *)
Inductive ustack : list cor -> list cmd -> Prop :=
| us_nil : ustack [] []
| us_user cs f : ustack [CoUser cs f] cs
| us_catch cs f : ustack [CoCatch; CoUser cs f] cs
| us_send fin op m h p us cs : us <> [] -> ustack us cs -> ustack (CoSend fin op m h p :: us) cs
| us_write h p us cs : us <> [] -> ustack us cs -> ustack (CoWrite h p :: us) cs.

Section Frame.
Variable react : react_t.
Variable L : option nat.
Variable log0 : list (nat * event).
Notation base := (base2 L L).

Definition book (w : world) (cs : list cmd) : Prop :=
  quiet_in (w_in w) /\ exists new, w_log w = log0 ++ new /\ Forall (fun e => Some (fst e) = L) new /\
  after_cmds (s_listener (w_sock w)) cs = after_calls react L log0 new.
Inductive frameI : conf -> Prop :=
| fi_live h s us cs K w : ustack us cs -> base K -> book w cs -> frameI (Conf h s (us ++ K) w)
| fi_dead h s w : frameI (Conf h s [] w).

Lemma fi0 h s K w : base K -> book w [] -> frameI (Conf h s K w).
Proof. intros HK Hb. exact (fi_live h s [] [] K w us_nil HK Hb). Qed.
Lemma book_eq w w' cs : w_in w' = w_in w -> w_log w' = w_log w -> s_listener (w_sock w') = s_listener (w_sock w) -> book w cs -> book w' cs.
Proof. intros H1 H2 H3. unfold book. now rewrite H1, H2, H3. Qed.
Lemma after_calls_app l log n1 n2 : after_calls react l log (n1 ++ n2) = after_calls react (after_calls react l log n1) (log ++ n1) n2.
Proof. revert l log. induction n1 as [|e n1 IH]; intros l log; cbn [app after_calls]; [now rewrite app_nil_r|]. rewrite IH, <- app_assoc. reflexivity. Qed.
Lemma book_call w l ev : book w [] -> L = Some l -> book (set_log w (w_log w ++ [(l, ev)])) (react l (w_log w ++ [(l, ev)])).
Proof.
  intros (H0 & new & H1 & H2 & H3) HL. split; [exact H0|]. exists (new ++ [(l, ev)]). cbn [w_log set_log w_sock].
  split; [now rewrite H1, app_assoc|]. split; [apply Forall_app; split; [exact H2|constructor; [cbn; congruence|constructor]]|].
  rewrite after_calls_app, <- H3. cbn [after_calls fst after_cmds]. now rewrite <- H1.
Qed.
Lemma writeA_sock d w r w' : writeExactAsyncInline d w = (r, w') -> w_in w' = w_in w /\ w_sock w' = w_sock w.
Proof.
  unfold writeExactAsyncInline. destruct d as [|b d]; [intros E; injection E as <- <-; auto|].
  destruct (w_wr w) as [|[n|[]|] q]; intros E; injection E as <- <-; auto.
Qed.
Lemma book_write d w r w' cs : writeExactAsyncInline d w = (r, w') -> book w cs -> book w' cs.
Proof. intros E. pose proof (writeA_log _ _ _ _ E) as H1. apply writeA_sock in E. destruct E as [H2 H3]. apply book_eq; [exact H2|exact H1|now rewrite H3]. Qed.
Lemma book_read n w r w' cs : readSomeAsyncInline n w = (r, w') -> book w cs -> book w' cs.
Proof.
  intros E. pose proof (readSomeA_log _ _ _ _ E) as H1. unfold readSomeAsyncInline in E.
  destruct (n <=? 0)%Z; [injection E as <- <-; auto|].
  destruct (read_raw (Z.to_N n) (w_in w) (w_sock w)) as [[r0 s'] k'] eqn:Er.
  assert (w' = set_sock (set_in w s') k') as -> by (destruct r0 as [d|[]|]; congruence).
  intros (H0 & H). assert (quiet_in s') as Hs' by (eapply read_raw_ok; eassumption).
  split; [exact Hs'|]. cbn [w_sock set_sock w_log set_in] in *.
  assert (s_listener k' = s_listener (w_sock w)) as Hk.
  { eapply (read_raw_inv (fun k => s_listener k = s_listener (w_sock w)) PropInstall.no_install any_err); [|exact Er|exact H0|reflexivity].
    intros x y Hx Hy. destruct x; cbn in *; congruence || contradiction. }
  rewrite Hk. exact H.
Qed.
(** A failure of listener code either is caught by its own send, or ends everything. *)
Lemma frameI_fail e h s us cs K w : ustack us cs -> base K -> book w cs -> frameI (snd (fail e (Conf h s (us ++ K) w))).
Proof.
  intros Hu HK Hb. unfold fail. cbn [c_stack c_hdr c_short c_world].
  assert (unwind (us ++ K) = None \/ exists cs0 f, cs = cs0 /\ unwind (us ++ K) = Some ([CoUser cs0 f] ++ K)) as [->|(cs0 & f & -> & ->)].
  { induction Hu as [|cs f|cs f|fin op m h0 p us cs Hne Hu IH|h0 p us cs Hne Hu IH]; cbn [app unwind];
      [left; exact (base2_unwind L L K HK)|left; exact (base2_unwind L L K HK)|right; eauto|exact (IH Hb)|exact (IH Hb)]. }
  - constructor.
  - cbn [snd]. econstructor; [apply us_user|exact HK|exact Hb].
Qed.
Lemma ustack_pop fin op m h p us cs : ustack (CoSend fin op m h p :: us) cs -> us <> [] /\ ustack us cs.
Proof. intros H. inversion H; subst. auto. Qed.
Lemma ustack_popw h p us cs : ustack (CoWrite h p :: us) cs -> us <> [] /\ ustack us cs.
Proof. intros H. inversion H; subst. auto. Qed.
Lemma fi_one co h s us cs K w : ustack (co :: us) cs -> base K -> book w cs -> frameI (Conf h s (co :: us ++ K) w).
Proof. intros H1 H2 H3. exact (fi_live h s (co :: us) cs K w H1 H2 H3). Qed.
Lemma fi_two co1 co h s us cs K w : ustack (co1 :: co :: us) cs -> base K -> book w cs -> frameI (Conf h s (co1 :: co :: us ++ K) w).
Proof. intros H1 H2 H3. exact (fi_live h s (co1 :: co :: us) cs K w H1 H2 H3). Qed.

Lemma frameI_user co us cs K h s w : ustack (co :: us) cs -> base K -> book w cs -> frameI (snd (step react (Conf h s (co :: us ++ K) w))).
Proof.
  intros Hu HK Hb. unfold AsyncWebSocket.step.
  destruct co as [|p|l p|l ush al pr p|fin op m hh p|hh p|cs1 frd|]; try (exfalso; inversion Hu; fail).
  - apply ustack_pop in Hu. destruct Hu as [Hne Hu]. unfold step_send. cbv zeta.
    assert (forall n h' co w1 p', sendFrameHeaderAsync hh fin op n w = (h', co, w1) ->
      frameI (Conf h s (co :: CoSend fin op m h' p' :: us ++ K) w1)) as Hs.
    { intros n h' co w1 p'. unfold sendFrameHeaderAsync. cbv zeta. cbn [h_hasMask].
      destruct (s_mask (w_sock w)); intros Eq; injection Eq as <- <- <-;
        (eapply fi_two; [apply us_write; [discriminate|apply us_send; eassumption]|exact HK|]); exact Hb. }
    destruct p as [| |left|].
    + destruct m as [[|b bs]|]; destruct (sendFrameHeaderAsync hh fin op _ w) as [[h' co] w1] eqn:Es; cbn [snd]; eapply Hs; exact Es.
    + destruct (h_hasMask hh); [destruct (_ <=? _)|]; cbn [snd]; [apply fi_dead|..]; (eapply fi_one; [apply us_send; eassumption|exact HK|exact Hb]).
    + destruct (writeExactAsyncInline left w) as [r w1] eqn:Ew. pose proof (book_write _ _ _ _ _ Ew Hb) as Hb1.
      destruct r; cbn [snd]; [eapply fi_live; eassumption|eapply fi_one; [apply us_send; eassumption|exact HK|exact Hb1]|
        eapply fi_one; [apply us_send; eassumption|exact HK|exact Hb1]|eapply frameI_fail; eassumption].
    + cbn [snd]. eapply fi_live; eassumption.
  - apply ustack_popw in Hu. destruct Hu as [Hne Hu]. unfold step_writeFrame. cbv zeta.
    destruct p as [left| |left| |left].
    1,3,5: destruct (writeExactAsyncInline left w) as [r w1] eqn:Ew; pose proof (book_write _ _ _ _ _ Ew Hb) as Hb1;
      destruct r; cbn [snd]; first [eapply frameI_fail; eassumption|eapply fi_one; [apply us_write; eassumption|exact HK|exact Hb1]|eapply fi_live; eassumption].
    + destruct (_ =? 2); [|destruct (_ =? 3)]; cbn [snd]; (eapply fi_one; [apply us_write; eassumption|exact HK|exact Hb]).
    + destruct (h_hasMask hh); cbn [snd]; [eapply fi_one; [apply us_write; eassumption|exact HK|exact Hb]|eapply fi_live; eassumption].
  - inversion Hu; subst. cbn [app]. unfold step_user. destruct cs as [|cm cs]; [cbn [snd]; now apply fi0|]. cbv zeta.
    assert (forall w', book w' cs -> frameI (Conf h s (CoUser cs frd :: K) w')) as Hgo
      by (intros w' Hb'; apply (fi_live h s [CoUser cs frd] cs K w'); [apply us_user|exact HK|exact Hb']).
    assert (forall o, book w cs -> frameI (Conf h s (start_send o :: CoUser cs frd :: K) w)) as Hsend.
    { intros o Hb'. unfold start_send. destruct (send_args o) as [[fin op] m].
      apply (fi_live h s [CoSend fin op m header_init SfAct; CoUser cs frd] cs K w); [apply us_send; [discriminate|apply us_user]|exact HK|exact Hb']. }
    destruct cm as [|l|mk b|catch o| | |fin0 opc0 msg0]; cbn [snd].
    + apply Hgo. exact Hb.
    + apply Hgo. exact Hb.
    + apply Hgo. exact Hb.
    + destruct catch; cbn [app]; [|apply Hsend; exact Hb]. unfold start_send. destruct (send_args o) as [[fin op] m].
      apply (fi_live h s [CoSend fin op m header_init SfAct; CoCatch; CoUser cs frd] cs K w); [apply us_send; [discriminate|apply us_catch]|exact HK|exact Hb].
    + destruct frd; cbn [snd]; [apply fi_dead|]. apply Hgo. exact Hb.
    + unfold fail. cbn [c_stack]. rewrite (base2_unwind L L K HK). apply fi_dead.
    + apply Hsend. exact Hb.
  - inversion Hu; subst. cbn [snd app]. apply (fi_live h s [CoUser cs f] cs K w); [apply us_user|exact HK|exact Hb].
Qed.
Lemma fail0 e h s K w : base K -> frameI (snd (fail e (Conf h s K w))).
Proof. intros HK. unfold fail. cbn [c_stack]. rewrite (base2_unwind L L K HK). apply fi_dead. Qed.
Lemma fi_call h s K w l ev f : L = Some l -> base K -> book w [] ->
  frameI (Conf h s (fst (call_listener react l ev f w) :: K) (snd (call_listener react l ev f w))).
Proof.
  intros HL HK Hb. unfold call_listener. cbv zeta. cbn [fst snd]. eapply (fi_live h s [_] _ K); [apply us_user|exact HK|].
  cbn [w_log set_log]. now apply book_call.
Qed.

Lemma fi_maybe h s K K' w ev f : base K -> base K' -> book w [] ->
  frameI (snd (match L with Some li => let (co, w') := call_listener react li ev f w in (ARun, Conf h s (co :: K) w') | None => (ARun, Conf h s K' w) end)).
Proof.
  intros HK HK' Hb.
  enough (forall l, l = L -> frameI (snd (match l with Some li => let (co, w') := call_listener react li ev f w in (ARun, Conf h s (co :: K) w') | None => (ARun, Conf h s K' w) end))) as H by exact (H L eq_refl).
  intros [l|] HL; [|now apply fi0]. pose proof (fi_call h s K w l ev f (eq_sym HL) HK Hb) as H. destruct (call_listener react l ev f w). exact H.
Qed.

Lemma frameI_step c : frameI c -> c_stack c <> [CoListen] -> frameI (snd (step react c)).
Proof.
  intros HI Hne. destruct HI as [h s us cs K w Hu HK Hb|h s w]; cbn [c_stack c_world] in *; [|constructor].
  destruct us as [|co us]; [|now apply (frameI_user co us cs)].
  assert (cs = []) as -> by (inversion Hu; reflexivity).
  cbn [app] in *. destruct HK as [|p Hp|ush al pr pp p Hp].
  - congruence.
  - unfold AsyncWebSocket.step, step_handle. cbv zeta.
    destruct p; [congruence| | | |cbn [snd]; apply fi0; [apply b2_l|exact Hb]];
      (apply fi_maybe; [apply b2_h; discriminate|apply b2_l|exact Hb]).
  - assert (forall ush al pr pp p, p <> HfAct -> base [CoPayload L ush al pr pp; CoHandle L p; CoListen]) as HP by (intros; now apply b2_p).
    assert (base [CoHandle L p; CoListen]) as HH by now apply b2_h.
    unfold AsyncWebSocket.step, step_payload. cbv zeta. destruct pp as [|n|got|].
    + destruct (pr <? h_len h)%Z; [cbn [snd]; apply fi0; [now apply HP|exact Hb]|].
      destruct (negb ush && h_fin h)%bool; [|cbn [snd]; apply fi0; [exact HH|exact Hb]].
      apply fi_maybe; [now apply HP|exact HH|exact Hb].
    + destruct (readSomeAsyncInline n w) as [r w1] eqn:Er. pose proof (book_read _ _ _ _ _ Er Hb) as Hb1.
      destruct r; [destruct (al <? Z.of_N (lenN d))%Z| | |]; cbn [snd];
        [apply fi_dead|apply fi0; [now apply HP|exact Hb1]|apply fi0; [now apply HP|exact Hb1]|apply fi0; [now apply HP|exact Hb1]|now apply fail0].
    + destruct got; [now apply fail0|].
      destruct ush; [cbn [snd]; apply fi0; [now apply HP|exact Hb]|].
      apply fi_maybe; [now apply HP|now apply HP|exact Hb].
    + cbn [snd]. apply fi0; [exact HH|exact Hb].
Qed.
End Frame.

Lemma fail_dead react L log0 e h s w : frameI react L log0 (snd (fail e (Conf h s [CoListen] w))).
Proof. constructor. Qed.
Lemma shape2_top L D c : shape2 L D c -> match c_stack c with CoReadFrame _ :: _ | CoHandle _ HfAct :: _ => False | _ => True end.
Proof.
  destruct 1 as [h s us K w Hu HK|]; [|exact I]. cbn [c_stack]. destruct us as [|co us]; cbn [app].
  - destruct HK as [|[]|]; try exact I. congruence.
  - inversion Hu as [|? ? Hco]; subst. destruct co; try exact I; contradiction.
Qed.
Lemma early_frameI react L c : early L c -> quiet_in (w_in (c_world c)) -> installed c = L ->
  early L (snd (step react c)) \/ frameI react L (w_log (c_world c)) (snd (step react c)).
Proof.
  intros He Hs Hi. destruct (early_step react L c He) as [Hl [H|H]]; [auto|right].
  destruct He as [h s p w|h s w]; cbn [c_world] in *.
  - revert H Hl. unfold AsyncWebSocket.step, step_readFrame.
    assert (forall h0 w0, shape2 L (installed (Conf h s [CoReadFrame p; CoHandle L HfAct; CoListen] w)) (Conf h0 s [CoHandle L HfAct; CoListen] w0) -> False) as Hno.
    { intros h0 w0 H. exact (shape2_top _ _ _ H). }
    assert (forall h0 p0 w0, shape2 L (installed (Conf h s [CoReadFrame p; CoHandle L HfAct; CoListen] w)) (Conf h0 s [CoReadFrame p0; CoHandle L HfAct; CoListen] w0) -> False) as Hno2.
    { intros h0 p0 w0 H. exact (shape2_top _ _ _ H). }
    destruct p as [got|bb|ty got|ty d|got].
    1,3,5: match goal with |- context [readExactAsyncInline ?n ?g ?w0] => destruct (readExactAsyncInline n g w0) as [r w1] eqn:Er end;
      destruct r; cbn [snd]; intros H _; try (exfalso; eapply Hno; exact H); try (exfalso; eapply Hno2; exact H); constructor.
    + destruct (unpackHeaderBits (be_dec bb) h) as [h1 l1].
      destruct (l1 <? 126); [|destruct (l1 =? 126); [|destruct (l1 =? 127)]]; cbn [snd]; intros H _; try (exfalso; eapply Hno2; exact H); constructor.
    + cbv zeta. destruct (h_hasMask _); cbn [snd]; intros H _; exfalso; [eapply Hno2|eapply Hno]; exact H.
  - clear H Hl. unfold AsyncWebSocket.step, step_handle. cbv zeta. unfold installed in Hi. cbn [c_world] in Hi.
    assert (forall w0, s_listener (w_sock w0) = L -> w_log w0 = w_log w -> w_in w0 = w_in w -> book react L (w_log w) w0 []) as Hb.
    { intros w0 H1 H2 H3. split; [now rewrite H3|]. exists []. rewrite app_nil_r. split; [exact H2|]. split; [constructor|exact H1]. }
    assert (forall us nx sh w0, nx <> HfAct -> s_listener (w_sock w0) = L -> w_log w0 = w_log w -> w_in w0 = w_in w ->
      frameI react L (w_log w) (snd (match readPayloadAsync h us w0 with inl e => fail e (Conf h sh [CoListen] w0) | inr co => (ARun, Conf h sh (co :: CoHandle L nx :: [CoListen]) w0) end))) as Hp.
    { intros us nx sh w0 Hnx H1 H2 H3. unfold readPayloadAsync. destruct (us && _)%bool; [constructor|].
      destruct (_ <? 0)%Z; [constructor|]. cbn [snd]. rewrite H1. apply fi0; [now constructor|]. now apply Hb. }
    assert (frameI react L (w_log w) (snd (let (ok, w') := checkForContinuationA h w in
          if (ok : bool) then match readPayloadAsync h false w' with inl e => fail e (Conf h s [CoListen] w') | inr co => (ARun, Conf h s (co :: CoHandle L HfFinish :: [CoListen]) w') end
          else fail ExContinuationExpected (Conf h s [CoListen] w')))) as Hc.
    { unfold checkForContinuationA. cbv zeta. destruct (_ || _)%bool; [constructor|].
      apply Hp; [discriminate|exact Hi|reflexivity|reflexivity]. }
    destruct (h_opcode h) as [|[[[[p|p|]|[p|p|]|]|[[p|p|]|[p|p|]|]|]|[[[p|p|]|[p|p|]|]|[[p|p|]|[p|p|]|]|]|]];
      first [exact Hc|apply Hp; [discriminate|exact Hi|reflexivity|reflexivity]|destruct (_ <? 0)%Z; [constructor|apply Hp; [discriminate|exact Hi|reflexivity|reflexivity]]|constructor].
Qed.

(** During one frame, if no other thread installs a listener: all calls go to the listener installed when the socket turned to the
    frame, and the listener installed when it is back for the next frame is the one its callbacks have installed last. *)
Theorem C45_async_installed : forall react c c',
  c_stack c = [CoListen] -> quiet_in (w_in (c_world c)) -> frame_moves PropInstall.no_install react c c' -> c_stack c' = [CoListen] ->
  exists new, w_log (c_world c') = w_log (c_world c) ++ new /\ Forall (fun e => Some (fst e) = installed c) new /\
    installed c' = after_calls react (installed c) (w_log (c_world c)) new.
Proof.
  intros react c c' Hc Hs H Hc'. set (L := installed c). set (log0 := w_log (c_world c)).
  assert ((early L c' /\ w_log (c_world c') = log0 /\ quiet_in (w_in (c_world c')) /\ installed c' = L) \/ frameI react L log0 c') as Hcase.
  { clear Hc'. induction H as [|c1 H IH Hne|c1 s H IH Hs1|c1 x H IH Hx].
    - unfold L, log0, installed. destruct c as [h s st w]. cbn in Hc. subst st. unfold AsyncWebSocket.step.
      destruct (h_opcode h =? OPCODE_CLOSE); cbn [snd c_world]; [right; constructor|left].
      split; [constructor|auto].
    - destruct IH as [(He & Hl & Hs1 & Hi)|M4].
      + destruct (early_step react L c1 He) as [E1 _]. destruct (early_frameI react L c1 He Hs1 Hi) as [E2|E2].
        * left. destruct (early_quiet react L c1 He Hs1 Hi E2) as [Q1 Q2]. split; [exact E2|]. split; [congruence|auto].
        * right. now rewrite Hl in E2.
      + right. now apply frameI_step.
    - destruct IH as [(He & Hl & Hs2 & Hi)|M4].
      + left. split; [destruct He; constructor|]. split; [exact Hl|]. split; [|exact Hi]. cbn [arrive c_world set_in w_in].
        apply Forall_app. auto.
      + right. destruct M4 as [h s0 us cs K w Hu HK (B1 & B2)|]; [|constructor]. unfold arrive. cbn [c_hdr c_short c_stack c_world].
        econstructor; [exact Hu|exact HK|]. split; [apply Forall_app; auto|exact B2].
    - assert (s_listener (apply_ext x (w_sock (c_world c1))) = s_listener (w_sock (c_world c1))) as Hxl by (destruct x; reflexivity || destruct Hx).
      destruct IH as [(He & Hl & Hs2 & Hi)|M4].
      + left. split; [destruct He; constructor|]. split; [exact Hl|]. split; [exact Hs2|]. rewrite <- Hi. exact Hxl.
      + right. destruct M4 as [h s0 us cs K w Hu HK Hb|]; [|constructor]. unfold call_now. cbn [c_hdr c_short c_stack c_world] in *.
        econstructor; [exact Hu|exact HK|]. eapply book_eq; [| | |exact Hb]; [reflexivity|reflexivity|exact Hxl]. }
  destruct Hcase as [(He & _)|HF]; [destruct He; discriminate|].
  destruct HF as [h s us cs K w Hu HK (B1 & new & B2 & B3 & B4)|]; [|discriminate].
  exists new. split; [exact B2|]. split; [exact B3|].
  assert (cs = []) as -> by (cbn [c_stack] in Hc'; destruct Hu; [reflexivity|..]; discriminate).
  exact B4.
Qed.
Print Assumptions C45_async_installed.

(** Listener 7 is called three times for one message and at each call installs another listener; afterwards the last one is
    installed. *)
Example C45_installed_nonvacuous :
  let r : react_t := fun l log => [CSetListener (Some (10 + length log)%nat); CSend false (SoPing None)] in
  let w := aworld [RData x81 [x02; x61]; RData x62 []] [] in
  let c := start_listen w in
  exists c', c_stack c = [CoListen] /\ c_stack c' = [CoListen] /\ frame_moves PropInstall.no_install r c c' /\
    map fst (w_log (c_world c')) = [7; 7; 7]%nat /\ installed c' = Some 13%nat.
Proof.
  cbv zeta. set (r := fun (_ : nat) (log : list (nat * event)) => [CSetListener (Some (10 + length log)%nat); CSend false (SoPing None)]).
  set (c := start_listen _). exists (frame_ticks r 100 (snd (step r c))).
  split; [reflexivity|]. split; [vm_compute; reflexivity|]. split; [apply frame_ticks_moves, fm_start|]. split; vm_compute; reflexivity.
Qed.
