(** Asynchronous listening with any sending and throwing listener, as a blocking run. *)
From Verif Require Import Bytes Frame World WebSocket AsyncWebSocket SpecFrame SpecSend SpecListen SpecAsync
  ProofFrame ProofStream ProofSend ProofCodec ProofInv ProofAsync ProofAsync2.
From Coq Require Import ZifyBool ZifyNat ZifyN.
Local Open Scope N_scope.
Local Arguments takeN : simpl never.
Local Arguments dropN : simpl never.
Local Arguments lenN : simpl never.
Local Arguments be_enc : simpl never.
Local Arguments be_dec : simpl never.

(** The machine does not distinguish the two forms of listener code. *)
Definition mapco (co : cor) : cor := match co with CoUser cs f => CoUser (map as_blocking_cmd cs) f | _ => co end.
Definition mapc (c : conf) : conf := Conf (c_hdr c) (c_short c) (map mapco (c_stack c)) (c_world c).
Definition mapr (r : status * conf) : status * conf := (fst r, mapc (snd r)).

Lemma unwind_map st : unwind (map mapco st) = option_map (map mapco) (unwind st).
Proof. induction st as [|[] st IH]; cbn; auto. Qed.
Lemma fail_map e h s st w : fail e (Conf h s (map mapco st) w) = mapr (fail e (Conf h s st w)).
Proof. unfold fail. cbn [c_stack c_hdr c_short c_world]. rewrite unwind_map. destruct (unwind st); reflexivity. Qed.

Lemma step_map react c : step (as_blocking react) (mapc c) = mapr (step react c).
Proof.
  destruct c as [h s st w]. unfold mapc. cbn [c_stack c_hdr c_short c_world].
  destruct st as [|co K]; [reflexivity|]. destruct co as [|p|l p|l ush al pr p|fin op m hh p|hh p|cs frd|]; cbn [map mapco step].
  - destruct (h_opcode h =? OPCODE_CLOSE); reflexivity.
  - unfold step_readFrame. destruct p as [got|bb|ty got|ty d|got].
    + destruct (readExactAsyncInline 2 got w) as [[] w1]; try reflexivity. apply fail_map.
    + destruct (unpackHeaderBits (be_dec bb) h) as [h1 l1].
      destruct (l1 <? 126); [reflexivity|]. destruct (l1 =? 126); [reflexivity|]. destruct (l1 =? 127); [reflexivity|]. apply fail_map.
    + destruct (readExactAsyncInline (if ty =? 2 then 2 else 8) got w) as [[] w1]; try reflexivity. apply fail_map.
    + cbv zeta. destruct (h_hasMask _); reflexivity.
    + destruct (readExactAsyncInline 4 got w) as [[] w1]; try reflexivity. apply fail_map.
  - unfold step_handle.
    assert (forall us nx sh w0,
      match readPayloadAsync h us w0 with inl e => fail e (Conf h sh (map mapco K) w0) | inr co => (ARun, Conf h sh (co :: CoHandle l nx :: map mapco K) w0) end =
      mapr match readPayloadAsync h us w0 with inl e => fail e (Conf h sh K w0) | inr co => (ARun, Conf h sh (co :: CoHandle l nx :: K) w0) end) as Hp.
    { intros us nx sh w0. unfold readPayloadAsync. destruct (us && _)%bool; [apply fail_map|].
      destruct (_ <? 0)%Z; [apply fail_map|reflexivity]. }
    destruct p; cbv zeta.
    2,3,4: destruct l; reflexivity.
    2: reflexivity.
    assert (forall c : bool * world, (let (ok, w') := c in
          if (ok : bool) then match readPayloadAsync h false w' with inl e => fail e (Conf h s (map mapco K) w') | inr co => (ARun, Conf h s (co :: CoHandle l HfFinish :: map mapco K) w') end
          else fail ExContinuationExpected (Conf h s (map mapco K) w')) =
       mapr (let (ok, w') := c in
          if (ok : bool) then match readPayloadAsync h false w' with inl e => fail e (Conf h s K w') | inr co => (ARun, Conf h s (co :: CoHandle l HfFinish :: K) w') end
          else fail ExContinuationExpected (Conf h s K w'))) as Hc.
    { intros [[] w']; [apply Hp|apply fail_map]. }
    destruct (h_opcode h) as [|[[[[p|p|]|[p|p|]|]|[[p|p|]|[p|p|]|]|]|[[[p|p|]|[p|p|]|]|[[p|p|]|[p|p|]|]|]|]];
      first [apply fail_map | apply Hp | apply Hc | idtac].
    destruct (_ <? 0)%Z; [apply fail_map|apply Hp].
  - unfold step_payload. cbv zeta. destruct p as [|n|got|].
    + destruct (pr <? h_len h)%Z; [reflexivity|]. destruct (negb ush && h_fin h)%bool; [|reflexivity]. destruct l; reflexivity.
    + destruct (readSomeAsyncInline n w) as [[d|d| |] w1]; try reflexivity; [destruct (al <? _)%Z; reflexivity|apply fail_map].
    + destruct got; [apply fail_map|]. destruct ush; [reflexivity|]. destruct l; reflexivity.
    + reflexivity.
  - unfold step_send. destruct p as [| |left|].
    + assert (forall n w1 h' co, sendFrameHeaderAsync hh fin op n w = (h', co, w1) -> mapco co = co) as Hs.
      { intros n w1 h' co. unfold sendFrameHeaderAsync. cbv zeta. cbn [h_hasMask].
        destruct (s_mask (w_sock w)); intros E; injection E as <- <- <-; reflexivity. }
      destruct m as [[|b bs]|];
        match goal with |- context [sendFrameHeaderAsync hh fin op ?n w] => destruct (sendFrameHeaderAsync hh fin op n w) as [[h' co] w1] eqn:Es end;
        apply Hs in Es; unfold mapr, mapc; cbn [fst snd c_stack map c_hdr c_short c_world mapco]; rewrite Es; reflexivity.
    + cbv zeta. destruct (h_hasMask hh); [destruct (_ <=? _)|]; reflexivity.
    + destruct (writeExactAsyncInline left w) as [[] w1]; try reflexivity. apply fail_map.
    + reflexivity.
  - unfold step_writeFrame. cbv zeta. destruct p as [left| |left| |left].
    + destruct (writeExactAsyncInline left w) as [[] w1]; try reflexivity. apply fail_map.
    + destruct (_ =? 2); [|destruct (_ =? 3)]; reflexivity.
    + destruct (writeExactAsyncInline left w) as [[] w1]; try reflexivity. apply fail_map.
    + destruct (h_hasMask hh); reflexivity.
    + destruct (writeExactAsyncInline left w) as [[] w1]; try reflexivity. apply fail_map.
  - unfold step_user. destruct cs as [|cm cs]; [reflexivity|]. cbn [map].
    assert (forall op, mapco (start_send op) = start_send op) as Hs by (intros []; reflexivity).
    destruct cm as [|l|mk b|[] o| | |fin0 opc0 msg0]; cbn [as_blocking_cmd]; cbv zeta; try reflexivity.
    + set (f := req_fin o). set (c := req_opcode o). set (m := req_message o). assert (start_send o = start_send (SoFrame f c m)) as Ho by (destruct o; reflexivity).
      rewrite Ho. reflexivity.
    + unfold mapr, mapc. destruct o; reflexivity.
    + destruct frd; reflexivity.
    + apply fail_map.
  - reflexivity.
Qed.

Lemma run_map react evs : forall r, run (as_blocking react) evs (mapr r) = mapr (run react evs r).
Proof.
  induction evs as [|[|s] evs IH]; intros [st c]; cbn [run]; [reflexivity| |].
  - rewrite <- IH. f_equal. unfold tick, mapr at 1. cbn [fst snd]. destruct st; try reflexivity; apply step_map.
  - rewrite <- IH. reflexivity.
Qed.

Lemma as_blocking_async react : async_react false react -> async_react true (as_blocking react).
Proof.
  intros H l log. unfold as_blocking. apply Forall_map. eapply Forall_impl; [|apply H].
  intros c Hc. destruct c as [| | |[] o| | |]; cbn in *; auto.
  destruct o; cbn; auto.
Qed.

Lemma star_map react c c' : star react c c' -> star (as_blocking react) (mapc c) (mapc c').
Proof.
  induction 1 as [c|c c1 c2 H _ IH]; [constructor|]. eapply star_step; [|exact IH]. rewrite step_map, H. reflexivity.
Qed.

(** * Looking at the data *)
Definition not_use (c : cmd) : bool := match c with CUseData => false | _ => true end.
Definition blind (react : react_t) : react_t := fun l log => filter not_use (react l log).
Definition bco (co : cor) : cor := match co with CoUser cs f => CoUser (filter not_use cs) f | _ => co end.
Definition bc (c : conf) : conf := Conf (c_hdr c) (c_short c) (map bco (c_stack c)) (c_world c).
Definition br (r : status * conf) : status * conf := (fst r, bc (snd r)).

Definition looks (c : conf) : Prop := match c_stack c with CoUser (CUseData :: _) _ :: _ => True | _ => False end.

Lemma unwind_b st : unwind (map bco st) = option_map (map bco) (unwind st).
Proof. induction st as [|[] st IH]; cbn; auto. Qed.
Lemma fail_b e h s st w : fail e (Conf h s (map bco st) w) = br (fail e (Conf h s st w)).
Proof. unfold fail. cbn [c_stack c_hdr c_short c_world]. rewrite unwind_b. destruct (unwind st); reflexivity. Qed.

Lemma step_b react c : ~ looks c -> step (blind react) (bc c) = br (step react c).
Proof.
  destruct c as [h s st w]. unfold bc, looks. cbn [c_stack c_hdr c_short c_world].
  destruct st as [|co K]; [reflexivity|]. intros Hu. destruct co as [|p|l p|l ush al pr p|fin op m hh p|hh p|cs frd|]; cbn [map bco step].
  - destruct (h_opcode h =? OPCODE_CLOSE); reflexivity.
  - unfold step_readFrame. destruct p as [got|bb|ty got|ty d|got].
    + destruct (readExactAsyncInline 2 got w) as [[] w1]; try reflexivity. apply fail_b.
    + destruct (unpackHeaderBits (be_dec bb) h) as [h1 l1].
      destruct (l1 <? 126); [reflexivity|]. destruct (l1 =? 126); [reflexivity|]. destruct (l1 =? 127); [reflexivity|]. apply fail_b.
    + destruct (readExactAsyncInline (if ty =? 2 then 2 else 8) got w) as [[] w1]; try reflexivity. apply fail_b.
    + cbv zeta. destruct (h_hasMask _); reflexivity.
    + destruct (readExactAsyncInline 4 got w) as [[] w1]; try reflexivity. apply fail_b.
  - unfold step_handle.
    assert (forall us nx sh w0,
      match readPayloadAsync h us w0 with inl e => fail e (Conf h sh (map bco K) w0) | inr co => (ARun, Conf h sh (co :: CoHandle l nx :: map bco K) w0) end =
      br match readPayloadAsync h us w0 with inl e => fail e (Conf h sh K w0) | inr co => (ARun, Conf h sh (co :: CoHandle l nx :: K) w0) end) as Hp.
    { intros us nx sh w0. unfold readPayloadAsync. destruct (us && _)%bool; [apply fail_b|].
      destruct (_ <? 0)%Z; [apply fail_b|reflexivity]. }
    destruct p; cbv zeta.
    2,3,4: destruct l; reflexivity.
    2: reflexivity.
    assert (forall c : bool * world, (let (ok, w') := c in
          if (ok : bool) then match readPayloadAsync h false w' with inl e => fail e (Conf h s (map bco K) w') | inr co => (ARun, Conf h s (co :: CoHandle l HfFinish :: map bco K) w') end
          else fail ExContinuationExpected (Conf h s (map bco K) w')) =
       br (let (ok, w') := c in
          if (ok : bool) then match readPayloadAsync h false w' with inl e => fail e (Conf h s K w') | inr co => (ARun, Conf h s (co :: CoHandle l HfFinish :: K) w') end
          else fail ExContinuationExpected (Conf h s K w'))) as Hc.
    { intros [[] w']; [apply Hp|apply fail_b]. }
    destruct (h_opcode h) as [|[[[[p|p|]|[p|p|]|]|[[p|p|]|[p|p|]|]|]|[[[p|p|]|[p|p|]|]|[[p|p|]|[p|p|]|]|]|]];
      first [apply fail_b | apply Hp | apply Hc | idtac].
    destruct (_ <? 0)%Z; [apply fail_b|apply Hp].
  - unfold step_payload. cbv zeta. destruct p as [|n|got|].
    + destruct (pr <? h_len h)%Z; [reflexivity|]. destruct (negb ush && h_fin h)%bool; [|reflexivity]. destruct l; reflexivity.
    + destruct (readSomeAsyncInline n w) as [[d|d| |] w1]; try reflexivity; [destruct (al <? _)%Z; reflexivity|apply fail_b].
    + destruct got; [apply fail_b|]. destruct ush; [reflexivity|]. destruct l; reflexivity.
    + reflexivity.
  - unfold step_send. destruct p as [| |left|].
    + assert (forall n w1 h' co, sendFrameHeaderAsync hh fin op n w = (h', co, w1) -> bco co = co) as Hs.
      { intros n w1 h' co. unfold sendFrameHeaderAsync. cbv zeta. cbn [h_hasMask].
        destruct (s_mask (w_sock w)); intros E; injection E as <- <- <-; reflexivity. }
      destruct m as [[|b bs]|];
        match goal with |- context [sendFrameHeaderAsync hh fin op ?n w] => destruct (sendFrameHeaderAsync hh fin op n w) as [[h' co] w1] eqn:Es end;
        apply Hs in Es; unfold br, bc; cbn [fst snd c_stack map c_hdr c_short c_world bco]; rewrite Es; reflexivity.
    + cbv zeta. destruct (h_hasMask hh); [destruct (_ <=? _)|]; reflexivity.
    + destruct (writeExactAsyncInline left w) as [[] w1]; try reflexivity. apply fail_b.
    + reflexivity.
  - unfold step_writeFrame. cbv zeta. destruct p as [left| |left| |left].
    + destruct (writeExactAsyncInline left w) as [[] w1]; try reflexivity. apply fail_b.
    + destruct (_ =? 2); [|destruct (_ =? 3)]; reflexivity.
    + destruct (writeExactAsyncInline left w) as [[] w1]; try reflexivity. apply fail_b.
    + destruct (h_hasMask hh); reflexivity.
    + destruct (writeExactAsyncInline left w) as [[] w1]; try reflexivity. apply fail_b.
  - unfold step_user. destruct cs as [|cm cs]; [reflexivity|]. cbn [filter not_use].
    destruct cm as [|l|mk b|catch o| | |fin0 opc0 msg0]; cbv zeta; try reflexivity.
    + destruct o, catch; reflexivity.
    + destruct (Hu I).
    + apply fail_b.
  - reflexivity.
Qed.

(** A look at the data: nothing happens, or it is gone. *)
Lemma step_looks react c : looks c ->
  (exists c1, step react c = (ARun, c1) /\ bc c1 = bc c /\ c_world c1 = c_world c /\
     (exists cs f K, c_stack c = CoUser (CUseData :: cs) f :: K /\ c_stack c1 = CoUser cs f :: K)) \/
  exists c1, step react c = (AUb UbDangling, c1) /\ c_world c1 = c_world c.
Proof.
  destruct c as [h s st w]. unfold looks. cbn [c_stack]. destruct st as [|[| | | | | |[|[] cs] f|] K]; try contradiction. intros _.
  cbn [step step_user]. destruct f; [right; eexists; split; reflexivity|].
  left. eexists. split; [reflexivity|]. split; [reflexivity|]. split; [reflexivity|]. eauto.
Qed.

(** Skipping looks at the data. *)
Lemma skip_looks react c :
  (exists c1, star react c c1 /\ ~ looks c1 /\ bc c1 = bc c /\ c_world c1 = c_world c) \/
  exists c1, halts react c (AUb UbDangling) c1 /\ c_world c1 = c_world c.
Proof.
  destruct c as [h s st w].
  destruct st as [|co K]; [left; eexists; split; [constructor|]; cbn; tauto|].
  destruct co as [| | | | | |cs f|]; try (left; eexists; split; [constructor|]; cbn; tauto).
  induction cs as [|cm cs IH]; [left; eexists; split; [constructor|]; cbn; tauto|].
  destruct cm as [| | | | | |]; try (left; eexists; split; [constructor|]; cbn; tauto).
  destruct f.
  { right. eexists. split; [|shelve]. eexists. split; [constructor|]. split; [reflexivity|discriminate]. Unshelve. reflexivity. }
  destruct IH as [(c1 & H1 & H2 & H3 & H4)|(c1 & (c0 & H1 & H2 & H3) & H4)].
  - left. exists c1. split; [eapply star_step; [reflexivity|exact H1]|]. auto.
  - right. exists c1. split; [|exact H4]. exists c0. split; [eapply star_step; [reflexivity|exact H1]|]. auto.
Qed.

Lemma halts_pre react a b st c : star react a b -> halts react b st c -> halts react a st c.
Proof. intros H (c1 & H1 & H2). exists c1. split; [eapply star_trans; eassumption|exact H2]. Qed.

(** The run with looks at the data against the run without. *)
Lemma halts_b react c st c2 : halts (blind react) (bc c) st c2 ->
  (exists c2', halts react c st c2' /\ c_world c2' = c_world c2) \/
  exists c2', halts react c (AUb UbDangling) c2' /\ grows (c_world c2') (c_world c2).
Proof.
  intros (c1 & Hs & H1 & H2). remember (bc c) as b eqn:Eb. revert c Eb. induction Hs as [b|b b1 b2 Hb Hs2 IH]; intros c ->.
  - destruct (skip_looks react c) as [(d & D1 & D2 & D3 & D4)|(d & D1 & D2)].
    + pose proof (step_b react d D2) as Hst. rewrite D3, H1 in Hst.
      destruct (step react d) as [st' d'] eqn:Ed. unfold br in Hst. cbn [fst snd] in Hst. injection Hst as <- ->.
      left. exists d'. split; [|reflexivity]. eapply halts_pre; [exact D1|]. exists d. split; [constructor|]. auto.
    + right. exists d. split; [exact D1|]. rewrite D2. apply step_grows in H1. exact H1.
  - destruct (skip_looks react c) as [(d & D1 & D2 & D3 & D4)|(d & D1 & D2)].
    + pose proof (step_b react d D2) as Hst. rewrite D3, Hb in Hst.
      destruct (step react d) as [st' d'] eqn:Ed. unfold br in Hst. cbn [fst snd] in Hst. injection Hst as <- ->.
      destruct (IH H1 d' eq_refl) as [(e & E1 & E2)|(e & E1 & E2)]; [left|right]; exists e; (split; [|exact E2]);
        (eapply halts_pre; [exact D1|]; eapply halts_pre; [eapply star_one; exact Ed|exact E1]).
    + right. exists d. split; [exact D1|]. rewrite D2.
      assert (halts (blind react) (bc c) st c2) as Hh by (exists b2; split; [eapply star_step; eassumption|auto]).
      apply halts_grows in Hh. exact Hh.
Qed.

Lemma halts_map react c st c2 : halts (as_blocking react) (mapc c) st c2 ->
  exists c2', halts react c st c2' /\ c_world c2' = c_world c2.
Proof.
  intros (c1 & Hs & H1 & H2). remember (mapc c) as b eqn:Eb. revert c Eb. induction Hs as [b|b b1 b2 Hb _ IH]; intros c ->.
  - rewrite step_map in H1. destruct (step react c) as [st' d'] eqn:Ed. unfold mapr in H1. cbn [fst snd] in H1. injection H1 as <- <-.
    exists d'. split; [|reflexivity]. exists c. split; [constructor|]. auto.
  - rewrite step_map in Hb. destruct (step react c) as [st' d'] eqn:Ed. unfold mapr in Hb. cbn [fst snd] in Hb. injection Hb as -> <-.
    destruct (IH H1 d' eq_refl) as (e & E1 & E2). exists e. split; [|exact E2]. eapply halts_pre; [eapply star_one; exact Ed|exact E1].
Qed.

(** * Listening depends only on what the listener code does *)
Section Ext.
Variables r1 r2 : react_t.
Hypothesis Hr : forall l log w, exec_cmds (r1 l log) w = exec_cmds (r2 l log) w.

Lemma bind_ext {A C} (m1 m2 : M A) (f1 f2 : A -> M C) :
  (forall w, m1 w = m2 w) -> (forall a w, f1 a w = f2 a w) -> forall w, bind m1 f1 w = bind m2 f2 w.
Proof. intros H1 H2 w. unfold bind. rewrite H1. destruct (m2 w) as [[] w']; auto. Qed.
Lemma notify_ext ev w : notify r1 ev w = notify r2 ev w.
Proof. unfold notify. destruct (s_listener (w_sock w)); [apply Hr|reflexivity]. Qed.
Lemma loop_ext fuel : forall h s al pr w, readPayload_loop r1 fuel h s al pr w = readPayload_loop r2 fuel h s al pr w.
Proof.
  induction fuel as [|fuel IH]; intros h s al pr; cbn [readPayload_loop]; [reflexivity|].
  destruct (pr <? h_len h)%Z; [|reflexivity].
  apply bind_ext; [reflexivity|]. intros w0. cbv zeta. apply bind_ext; [reflexivity|]. intros [d|[]]; [|apply IH|reflexivity|reflexivity].
  destruct (al <? _)%Z; [reflexivity|]. destruct s; [apply IH|]. apply bind_ext; [apply notify_ext|]. intros _. apply IH.
Qed.
Lemma payload_ext h s w : readPayload r1 h s w = readPayload r2 h s w.
Proof.
  revert w. unfold readPayload. destruct (_ && _)%bool; [reflexivity|].
  apply bind_ext; [reflexivity|]. intros w0. cbv zeta. destruct (_ <? 0)%Z; [reflexivity|].
  apply bind_ext; [apply loop_ext|]. intros s'. apply bind_ext; [|reflexivity].
  destruct s; [reflexivity|]. destruct (h_fin h); [apply notify_ext|reflexivity].
Qed.
Lemma handle_ext h w : handleFrame r1 h w = handleFrame r2 h w.
Proof.
  revert w.
  assert (forall w, bind (readPayload r1 h None) (fun _ => ret tt) w = bind (readPayload r2 h None) (fun _ => ret tt) w) as H1.
  { apply bind_ext; [apply payload_ext|reflexivity]. }
  assert (forall f w, bind (readPayload r1 h (Some [])) (fun p => notify r1 (f p)) w = bind (readPayload r2 h (Some [])) (fun p => notify r2 (f p)) w) as H2.
  { intros f. apply bind_ext; [apply payload_ext|intros; apply notify_ext]. }
  assert (forall w, bind (checkForContinuation h) (fun ok : bool => if ok then bind (readPayload r1 h None) (fun _ => ret tt) else throw ExContinuationExpected) w =
    bind (checkForContinuation h) (fun ok : bool => if ok then bind (readPayload r2 h None) (fun _ => ret tt) else throw ExContinuationExpected) w) as H3.
  { apply bind_ext; [reflexivity|]. intros []; [exact H1|reflexivity]. }
  unfold handleFrame.
  destruct (h_opcode h) as [|[[[[p|p|]|[p|p|]|]|[[p|p|]|[p|p|]|]|]|[[[p|p|]|[p|p|]|]|[[p|p|]|[p|p|]|]|]|]];
    first [reflexivity | exact H3 | exact (H2 (fun p => EvPing (str p))) | exact (H2 (fun p => EvPong (str p)))
          | exact (H2 (fun p => EvClose (close_code (str p)) (close_reason (str p)))) | idtac].
  apply bind_ext; [reflexivity|]. intros w0. destruct (_ <? 0)%Z; [reflexivity|exact H1].
Qed.
Lemma listen_loop_ext fuel : forall h w, listen_loop r1 fuel h w = listen_loop r2 fuel h w.
Proof.
  induction fuel as [|fuel IH]; intros h; cbn [listen_loop]; [reflexivity|].
  apply bind_ext; [reflexivity|]. intros h'. apply bind_ext; [apply handle_ext|]. intros _. apply bind_ext; [reflexivity|].
  intros w0. destruct (_ && _)%bool; [apply IH|reflexivity].
Qed.
Lemma listen_try_ext w : listen_try r1 w = listen_try r2 w.
Proof.
  revert w. unfold listen_try. apply bind_ext; [reflexivity|]. intros _. apply bind_ext; [reflexivity|]. intros w0. apply listen_loop_ext.
Qed.
Lemma listen_ext w : listen r1 w = listen r2 w.
Proof.
  revert w. unfold listen. apply bind_ext; [reflexivity|]. intros _. apply bind_ext; [reflexivity|]. intros w0 w. unfold try_. now rewrite listen_loop_ext.
Qed.
End Ext.

Lemma exec_blind cs w : exec_cmds (map as_blocking_cmd (filter not_use cs)) w = exec_cmds (map as_blocking_cmd cs) w.
Proof.
  revert w. induction cs as [|c cs IH]; intros w; [reflexivity|].
  destruct c; cbn [filter not_use map exec_cmds]; try (apply bind_ext; [reflexivity|intros _; apply IH]).
  cbn [as_blocking_cmd exec_cmd]. rewrite IH. reflexivity.
Qed.

(** listen() in terms of its try block. *)
Lemma listen_of_try react w : listen react w =
  match listen_try react w with (Throw _, w') => (Ret tt, w') | r => r end.
Proof. reflexivity. Qed.
