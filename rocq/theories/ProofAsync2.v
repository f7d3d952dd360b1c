(** Schedules of the coroutine machine. *)
From Verif Require Import Bytes Frame World WebSocket AsyncWebSocket SpecFrame SpecSend SpecListen SpecAsync
  ProofFrame ProofStream ProofSend ProofInv ProofAsync.
From Coq Require Import ZifyBool ZifyNat ZifyN.
Local Open Scope N_scope.
Local Arguments takeN : simpl never.
Local Arguments dropN : simpl never.
Local Arguments lenN : simpl never.
Local Arguments be_enc : simpl never.
Local Arguments be_dec : simpl never.
Local Arguments packHeaderBits : simpl never.
Local Arguments unpackHeaderBits : simpl never.

Lemma unread_app d s t : unread d s ++ t = unread d (s ++ t).
Proof. destruct d; reflexivity. Qed.
Lemma read_raw_app n s t : forall k r s' k', r <> RPending -> read_raw n s k = (r, s', k') -> read_raw n (s ++ t) k = (r, s' ++ t, k').
Proof.
  induction s as [|e s IH]; intros k r s' k' Hr E; cbn [read_raw app] in *; [congruence|].
  destruct e as [b bs|ie|x].
  - assert (s' = unread (dropN n (b :: bs)) s) as -> by congruence. rewrite unread_app. congruence.
  - congruence.
  - apply IH; assumption.
Qed.

Definition arr (s : list rev) (w : world) : world := set_in w (w_in w ++ s).

Ltac dread Hr :=
  match goal with
  | |- context [read_raw ?n ?s ?k] => destruct (read_raw n s k) as [[[?d|[]|] ?s'] ?k'] eqn:Hr
  end.

Lemma readExactA_app n got w t r w' : readExactAsyncInline n got w = (r, w') -> r <> IWait -> readExactAsyncInline n got (arr t w) = (r, arr t w').
Proof.
  unfold readExactAsyncInline. destruct (n <=? lenN got); intros E Hr; [injection E as <- <-; reflexivity|].
  destruct (read_raw (n - lenN got) (w_in w) (w_sock w)) as [[r0 s'] k'] eqn:Er.
  assert (r0 <> RPending) as Hp by (intros ->; injection E as <- <-; congruence).
  cbn [arr set_in w_in w_sock]. rewrite (read_raw_app _ _ t _ _ _ _ Hp Er).
  destruct r0 as [d|[]|]; injection E as <- <-; reflexivity.
Qed.
Lemma readSomeA_app n w t r w' : readSomeAsyncInline n w = (r, w') -> r <> IWait -> readSomeAsyncInline n (arr t w) = (r, arr t w').
Proof.
  unfold readSomeAsyncInline. destruct (n <=? 0)%Z; intros E Hr; [injection E as <- <-; reflexivity|].
  destruct (read_raw (Z.to_N n) (w_in w) (w_sock w)) as [[r0 s'] k'] eqn:Er.
  assert (r0 <> RPending) as Hp by (intros ->; injection E as <- <-; congruence).
  cbn [arr set_in w_in w_sock]. rewrite (read_raw_app _ _ t _ _ _ _ Hp Er).
  destruct r0 as [d|[]|]; injection E as <- <-; reflexivity.
Qed.
Lemma writeA_app d w t r w' : writeExactAsyncInline d w = (r, w') -> writeExactAsyncInline d (arr t w) = (r, arr t w').
Proof.
  unfold writeExactAsyncInline. destruct d as [|b d]; [intros E; injection E as <- <-; reflexivity|].
  change (w_wr (arr t w)) with (w_wr w). change (w_out (arr t w)) with (w_out w).
  destruct (w_wr w) as [|[n|[]|] q]; intros E; injection E as <- <-; reflexivity.
Qed.

Lemma fail_arr t e c : fail e (arrive t c) = (fst (fail e c), arrive t (snd (fail e c))).
Proof. unfold fail. destruct c as [h s st w]. cbn [arrive c_stack c_hdr c_short c_world]. destruct (unwind st); reflexivity. Qed.
Lemma fail_arr' t e h s K w st c : fail e (Conf h s K w) = (st, c) -> fail e (Conf h s K (arr t w)) = (st, arrive t c).
Proof. intros E. change (Conf h s K (arr t w)) with (arrive t (Conf h s K w)). rewrite fail_arr, E. reflexivity. Qed.

(** * Steps only consume input and append to the log and to the output *)
Definition grows (w w' : world) : Prop :=
  (io_only (w_in w) -> io_only (w_in w')) /\ prefix (w_log w) (w_log w') /\ prefix (w_out w) (w_out w').
Lemma grows_refl w : grows w w.
Proof. split; [auto|]. split; apply prefix_refl. Qed.
Lemma grows_trans a b c : grows a b -> grows b c -> grows a c.
Proof. intros (A1 & A2 & A3) (B1 & B2 & B3). split; [auto|]. split; eapply prefix_trans; eassumption. Qed.
Lemma readExactA_grows n got w r w' : readExactAsyncInline n got w = (r, w') -> grows w w'.
Proof.
  unfold readExactAsyncInline. destruct (n <=? lenN got); intros E; [injection E as <- <-; apply grows_refl|].
  destruct (read_raw (n - lenN got) (w_in w) (w_sock w)) as [[r0 s'] k'] eqn:Er.
  assert (w' = set_sock (set_in w s') k') as -> by (destruct r0 as [d|[]|]; congruence).
  split; [|split; apply prefix_refl]. intros Hio. apply (no_ext_read _ _ _ _ _ _ Hio Er).
Qed.
Lemma readSomeA_grows n w r w' : readSomeAsyncInline n w = (r, w') -> grows w w'.
Proof.
  unfold readSomeAsyncInline. destruct (n <=? 0)%Z; intros E; [injection E as <- <-; apply grows_refl|].
  destruct (read_raw (Z.to_N n) (w_in w) (w_sock w)) as [[r0 s'] k'] eqn:Er.
  assert (w' = set_sock (set_in w s') k') as -> by (destruct r0 as [d|[]|]; congruence).
  split; [|split; apply prefix_refl]. intros Hio. apply (no_ext_read _ _ _ _ _ _ Hio Er).
Qed.
Lemma writeA_grows d w r w' : writeExactAsyncInline d w = (r, w') -> grows w w'.
Proof.
  unfold writeExactAsyncInline. destruct d as [|b d]; [intros E; injection E as <- <-; apply grows_refl|].
  destruct (w_wr w) as [|[n|[]|] q]; intros E; injection E as <- <-; (split; [auto|split; [apply prefix_refl|]]);
    cbn [set_wr w_out]; first [apply prefix_refl|apply prefix_app_r].
Qed.
Lemma readExactA_wait n got w w' : io_only (w_in w) -> readExactAsyncInline n got w = (IWait, w') -> w' = w.
Proof.
  intros Hio. unfold readExactAsyncInline. destruct (n <=? lenN got); intros E; [discriminate|].
  destruct (read_raw (n - lenN got) (w_in w) (w_sock w)) as [[r0 s'] k'] eqn:Er.
  destruct r0 as [d|[]|]; try discriminate. injection E as <-. 
  pose proof (read_pending_nil _ _ Hio _ _ _ Er) as <-. destruct (no_ext_read _ _ _ _ _ _ Hio Er) as [-> _]. destruct w; reflexivity.
Qed.
Lemma readSomeA_wait n w w' : io_only (w_in w) -> readSomeAsyncInline n w = (IWait, w') -> w' = w.
Proof.
  intros Hio. unfold readSomeAsyncInline. destruct (n <=? 0)%Z; intros E; [discriminate|].
  destruct (read_raw (Z.to_N n) (w_in w) (w_sock w)) as [[r0 s'] k'] eqn:Er.
  destruct r0 as [d|[]|]; try discriminate. injection E as <-. 
  pose proof (read_pending_nil _ _ Hio _ _ _ Er) as <-. destruct (no_ext_read _ _ _ _ _ _ Hio Er) as [-> _]. destruct w; reflexivity.
Qed.
Lemma writeA_wait d w w' : writeExactAsyncInline d w = (IWait, w') -> w' = w.
Proof.
  unfold writeExactAsyncInline. destruct d as [|b d]; [discriminate|]. destruct (w_wr w) as [|[n|[]|] q]; intros E; congruence.
Qed.
Lemma fail_grows e h s K w st c : fail e (Conf h s K w) = (st, c) -> c_world c = w /\ st <> AWait.
Proof. unfold fail. cbn. destruct (unwind K); intros E; injection E as <- <-; split; try reflexivity; discriminate. Qed.

Section Sched.
Variable react : react_t.
Notation step := (step react).
Notation star := (star react).

Ltac solve_fail E := first [ injection E as <- <-; reflexivity | apply fail_arr'; exact E | congruence ].

(** More input does not change a step that did not wait. *)
Lemma step_arrive t c st c' : step c = (st, c') -> st <> AWait -> step (arrive t c) = (st, arrive t c').
Proof.
  intros E Hst. destruct c as [hdr short stk w].
  change (arrive t (Conf hdr short stk w)) with (Conf hdr short stk (arr t w)).
  unfold AsyncWebSocket.step in *. destruct stk as [|co K].
  { injection E as <- <-. reflexivity. }
  destruct co as [|p|l p|l us al pr p|fin op m h p|h p|cs fr|].
  - destruct (h_opcode hdr =? OPCODE_CLOSE); injection E as <- <-; reflexivity.
  - unfold step_readFrame in *. destruct p as [got|bb|ty got|ty d|got].
    + destruct (readExactAsyncInline 2 got w) as [r w1] eqn:Er.
      assert (r <> IWait) as Hr by (intros ->; injection E as <- <-; congruence).
      rewrite (readExactA_app _ _ _ t _ _ Er Hr). destruct r; solve_fail E.
    + destruct (unpackHeaderBits (be_dec bb) hdr) as [h l1].
      destruct (l1 <? 126); [solve_fail E|]. destruct (l1 =? 126); [solve_fail E|]. destruct (l1 =? 127); solve_fail E.
    + destruct (readExactAsyncInline (if ty =? 2 then 2 else 8) got w) as [r w1] eqn:Er.
      assert (r <> IWait) as Hr by (intros ->; injection E as <- <-; congruence).
      rewrite (readExactA_app _ _ _ t _ _ Er Hr). destruct r; solve_fail E.
    + cbv zeta in *. destruct (h_hasMask _); solve_fail E.
    + destruct (readExactAsyncInline 4 got w) as [r w1] eqn:Er.
      assert (r <> IWait) as Hr by (intros ->; injection E as <- <-; congruence).
      rewrite (readExactA_app _ _ _ t _ _ Er Hr). destruct r; solve_fail E.
  - unfold step_handle in *. cbv zeta in *.
    assert (forall us nx sh w0 st c',
      match readPayloadAsync hdr us w0 with inl e => fail e (Conf hdr sh K w0) | inr co => (ARun, Conf hdr sh (co :: CoHandle l nx :: K) w0) end = (st, c') ->
      match readPayloadAsync hdr us (arr t w0) with inl e => fail e (Conf hdr sh K (arr t w0)) | inr co => (ARun, Conf hdr sh (co :: CoHandle l nx :: K) (arr t w0)) end = (st, arrive t c')) as Hp.
    { clear. intros us nx sh w0 st c' E. unfold readPayloadAsync in *. change (w_sock (arr t w0)) with (w_sock w0).
      destruct (us && _)%bool; [solve_fail E|]. destruct (_ <? 0)%Z; solve_fail E. }
    destruct p.
    + assert (forall st c', (let (ok, w') := checkForContinuationA hdr w in
          if (ok : bool) then match readPayloadAsync hdr false w' with inl e => fail e (Conf hdr short K w') | inr co => (ARun, Conf hdr short (co :: CoHandle l HfFinish :: K) w') end
          else fail ExContinuationExpected (Conf hdr short K w')) = (st, c') ->
        (let (ok, w') := checkForContinuationA hdr (arr t w) in
          if (ok : bool) then match readPayloadAsync hdr false w' with inl e => fail e (Conf hdr short K w') | inr co => (ARun, Conf hdr short (co :: CoHandle l HfFinish :: K) w') end
          else fail ExContinuationExpected (Conf hdr short K w')) = (st, arrive t c')) as Hc.
      { clear -Hp. intros st c' E. unfold checkForContinuationA in *. cbv zeta in *. change (s_last (w_sock (arr t w))) with (s_last (w_sock w)).
        destruct (_ || _)%bool; [solve_fail E|].
        change (set_sock (arr t w)) with (fun k => arr t (set_sock w k)). cbv beta. apply Hp. exact E. }
      destruct (h_opcode hdr) as [|[[[[p|p|]|[p|p|]|]|[[p|p|]|[p|p|]|]|]|[[[p|p|]|[p|p|]|]|[[p|p|]|[p|p|]|]|]|]];
        try (solve_fail E); try (apply Hp; exact E); try (apply Hc; exact E).
      change (s_last (w_sock (arr t w))) with (s_last (w_sock w)). destruct (_ <? 0)%Z; [solve_fail E|apply Hp; exact E].
    + destruct l; injection E as <- <-; reflexivity.
    + destruct l; injection E as <- <-; reflexivity.
    + destruct l; injection E as <- <-; reflexivity.
    + injection E as <- <-; reflexivity.
  - unfold step_payload in *. cbv zeta in *. destruct p as [|n|got|].
    + destruct (pr <? h_len hdr)%Z; [injection E as <- <-; reflexivity|]. destruct (negb us && h_fin hdr)%bool; [|injection E as <- <-; reflexivity].
      destruct l; injection E as <- <-; reflexivity.
    + destruct (readSomeAsyncInline n w) as [r w1] eqn:Er.
      assert (r <> IWait) as Hr by (intros ->; injection E as <- <-; congruence).
      rewrite (readSomeA_app _ _ t _ _ Er Hr). destruct r; [destruct (al <? Z.of_N (lenN d))%Z| | |]; solve_fail E.
    + destruct got; [solve_fail E|]. destruct us; [injection E as <- <-; reflexivity|]. destruct l; injection E as <- <-; reflexivity.
    + injection E as <- <-; reflexivity.
  - unfold step_send in *. cbv zeta in *.
    assert (forall n, sendFrameHeaderAsync h fin op n (arr t w) =
       (fst (fst (sendFrameHeaderAsync h fin op n w)), snd (fst (sendFrameHeaderAsync h fin op n w)), arr t (snd (sendFrameHeaderAsync h fin op n w)))) as Hs.
    { intros n. unfold sendFrameHeaderAsync. cbv zeta. change (w_sock (arr t w)) with (w_sock w). cbn [h_hasMask]. destruct (s_mask (w_sock w)); reflexivity. }
    destruct p as [| |left|].
    + destruct m as [[|b bs]|]; rewrite Hs; destruct (sendFrameHeaderAsync h fin op _ w) as [[h' co] w1]; injection E as <- <-; reflexivity.
    + destruct (h_hasMask h); [|solve_fail E]. destruct (_ <=? _); solve_fail E.
    + destruct (writeExactAsyncInline left w) as [r w1] eqn:Er. rewrite (writeA_app _ _ t _ _ Er). destruct r; solve_fail E.
    + injection E as <- <-; reflexivity.
  - unfold step_writeFrame in *. cbv zeta in *. destruct p as [left| |left| |left].
    + destruct (writeExactAsyncInline left w) as [r w1] eqn:Er. rewrite (writeA_app _ _ t _ _ Er). destruct r; solve_fail E.
    + destruct (_ =? 2); [solve_fail E|]. destruct (_ =? 3); solve_fail E.
    + destruct (writeExactAsyncInline left w) as [r w1] eqn:Er. rewrite (writeA_app _ _ t _ _ Er). destruct r; solve_fail E.
    + destruct (h_hasMask h); solve_fail E.
    + destruct (writeExactAsyncInline left w) as [r w1] eqn:Er. rewrite (writeA_app _ _ t _ _ Er). destruct r; solve_fail E.
  - unfold step_user in *. destruct cs as [|cm cs]; [solve_fail E|]. cbv zeta in *.
    destruct cm as [|l|mk b|catch o| | |fin0 opc0 msg0]; try (solve_fail E). destruct fr; solve_fail E.
  - injection E as <- <-; reflexivity.
Qed.

Ltac fin E := first
  [ injection E as <- <-; cbn [c_world]; apply grows_refl
  | apply fail_grows in E; destruct E as [-> _]; apply grows_refl
  | injection E as <- <-; cbn [c_world]; split; [auto|split; first [apply prefix_refl|apply prefix_app_r]] ].
Ltac finw E Hg := first
  [ injection E as <- <-; cbn [c_world]; exact Hg
  | apply fail_grows in E; destruct E as [-> _]; exact Hg ].

Lemma step_grows c st c' : step c = (st, c') -> grows (c_world c) (c_world c').
Proof.
  intros E. destruct c as [hdr short stk w]. cbn [c_world].
  unfold AsyncWebSocket.step in *. destruct stk as [|co K]; [fin E|].
  destruct co as [|p|l p|l us al pr p|fin op m h p|h p|cs fr|].
  - destruct (h_opcode hdr =? OPCODE_CLOSE); fin E.
  - unfold step_readFrame in *. destruct p as [got|bb|ty got|ty d|got].
    + destruct (readExactAsyncInline 2 got w) as [r w1] eqn:Er. apply readExactA_grows in Er. destruct r; finw E Er.
    + destruct (unpackHeaderBits (be_dec bb) hdr) as [h l1].
      destruct (l1 <? 126); [fin E|]. destruct (l1 =? 126); [fin E|]. destruct (l1 =? 127); fin E.
    + destruct (readExactAsyncInline (if ty =? 2 then 2 else 8) got w) as [r w1] eqn:Er. apply readExactA_grows in Er. destruct r; finw E Er.
    + cbv zeta in *. destruct (h_hasMask _); fin E.
    + destruct (readExactAsyncInline 4 got w) as [r w1] eqn:Er. apply readExactA_grows in Er. destruct r; finw E Er.
  - unfold step_handle in *. cbv zeta in *.
    assert (forall us nx sh w0 st c', grows w w0 ->
      match readPayloadAsync hdr us w0 with inl e => fail e (Conf hdr sh K w0) | inr co => (ARun, Conf hdr sh (co :: CoHandle l nx :: K) w0) end = (st, c') ->
      grows w (c_world c')) as Hp.
    { clear. intros us nx sh w0 st c' Hg E. destruct (readPayloadAsync hdr us w0); finw E Hg. }
    destruct p.
    + assert (forall st c', (let (ok, w') := checkForContinuationA hdr w in
          if (ok : bool) then match readPayloadAsync hdr false w' with inl e => fail e (Conf hdr short K w') | inr co => (ARun, Conf hdr short (co :: CoHandle l HfFinish :: K) w') end
          else fail ExContinuationExpected (Conf hdr short K w')) = (st, c') -> grows w (c_world c')) as Hc.
      { clear -Hp. intros st c' E. unfold checkForContinuationA in *. cbv zeta in *.
        destruct (_ || _)%bool; [fin E|]. eapply Hp; [|exact E]. split; [auto|split; apply prefix_refl]. }
      destruct (h_opcode hdr) as [|[[[[p|p|]|[p|p|]|]|[[p|p|]|[p|p|]|]|]|[[[p|p|]|[p|p|]|]|[[p|p|]|[p|p|]|]|]|]];
        first [fin E | eapply Hp; [apply grows_refl|exact E] | eapply Hc; exact E | idtac].
      destruct (_ <? 0)%Z; [fin E|eapply Hp; [apply grows_refl|exact E]].
    + destruct l; fin E.
    + destruct l; fin E.
    + destruct l; fin E.
    + fin E.
  - unfold step_payload in *. cbv zeta in *. destruct p as [|n|got|].
    + destruct (pr <? h_len hdr)%Z; [fin E|]. destruct (negb us && h_fin hdr)%bool; [|fin E]. destruct l; fin E.
    + destruct (readSomeAsyncInline n w) as [r w1] eqn:Er. apply readSomeA_grows in Er. destruct r; [destruct (al <? Z.of_N (lenN d))%Z| | |]; finw E Er.
    + destruct got; [fin E|]. destruct us; [fin E|]. destruct l; fin E.
    + fin E.
  - unfold step_send in *. cbv zeta in *.
    assert (forall n h' co w1, sendFrameHeaderAsync h fin op n w = (h', co, w1) -> grows w w1) as Hs.
    { intros n h' co w1. unfold sendFrameHeaderAsync. cbv zeta. cbn [h_hasMask]. destruct (s_mask (w_sock w)); intros Eq; injection Eq as <- <- <-;
        (split; [auto|split; apply prefix_refl]). }
    destruct p as [| |left|].
    + destruct m as [[|b bs]|]; destruct (sendFrameHeaderAsync h fin op _ w) as [[h' co] w1] eqn:Es; apply Hs in Es; finw E Es.
    + destruct (h_hasMask h); [|fin E]. destruct (_ <=? _); fin E.
    + destruct (writeExactAsyncInline left w) as [r w1] eqn:Er. apply writeA_grows in Er. destruct r; finw E Er.
    + fin E.
  - unfold step_writeFrame in *. cbv zeta in *. destruct p as [left| |left| |left].
    + destruct (writeExactAsyncInline left w) as [r w1] eqn:Er. apply writeA_grows in Er. destruct r; finw E Er.
    + destruct (_ =? 2); [fin E|]. destruct (_ =? 3); fin E.
    + destruct (writeExactAsyncInline left w) as [r w1] eqn:Er. apply writeA_grows in Er. destruct r; finw E Er.
    + destruct (h_hasMask h); fin E.
    + destruct (writeExactAsyncInline left w) as [r w1] eqn:Er. apply writeA_grows in Er. destruct r; finw E Er.
  - unfold step_user in *. destruct cs as [|cm cs]; [fin E|]. cbv zeta in *.
    destruct cm as [|l|mk b|catch o| | |fin0 opc0 msg0]; try (fin E). destruct fr; fin E.
  - fin E.
Qed.

Lemma star_grows c c' : star c c' -> grows (c_world c) (c_world c').
Proof. induction 1; [apply grows_refl|]. eapply grows_trans; [eapply step_grows; eassumption|assumption]. Qed.

Ltac nowait E := exfalso; first [discriminate E | apply fail_grows in E; destruct E; congruence ].
Lemma step_wait c c' : io_only (w_in (c_world c)) -> step c = (AWait, c') -> c' = c.
Proof.
  intros Hio E. destruct c as [hdr short stk w]. cbn [c_world] in Hio.
  unfold AsyncWebSocket.step in *. destruct stk as [|co K]; [nowait E|].
  destruct co as [|p|l p|l us al pr p|fin op m h p|h p|cs fr|].
  - destruct (h_opcode hdr =? OPCODE_CLOSE); nowait E.
  - unfold step_readFrame in *. destruct p as [got|bb|ty got|ty d|got].
    + destruct (readExactAsyncInline 2 got w) as [r w1] eqn:Er. destruct r; [nowait E|nowait E| |nowait E].
      apply readExactA_wait in Er; [|exact Hio]. congruence.
    + destruct (unpackHeaderBits (be_dec bb) hdr) as [h l1].
      destruct (l1 <? 126); [nowait E|]. destruct (l1 =? 126); [nowait E|]. destruct (l1 =? 127); nowait E.
    + destruct (readExactAsyncInline (if ty =? 2 then 2 else 8) got w) as [r w1] eqn:Er. destruct r; [nowait E|nowait E| |nowait E].
      apply readExactA_wait in Er; [|exact Hio]. congruence.
    + cbv zeta in *. destruct (h_hasMask _); nowait E.
    + destruct (readExactAsyncInline 4 got w) as [r w1] eqn:Er. destruct r; [nowait E|nowait E| |nowait E].
      apply readExactA_wait in Er; [|exact Hio]. congruence.
  - unfold step_handle in *. cbv zeta in *.
    assert (forall us nx sh w0 c',
      match readPayloadAsync hdr us w0 with inl e => fail e (Conf hdr sh K w0) | inr co => (ARun, Conf hdr sh (co :: CoHandle l nx :: K) w0) end = (AWait, c') ->
      False) as Hp.
    { clear. intros us nx sh w0 c' E. destruct (readPayloadAsync hdr us w0); nowait E. }
    exfalso. destruct p.
    + assert (forall c', (let (ok, w') := checkForContinuationA hdr w in
          if (ok : bool) then match readPayloadAsync hdr false w' with inl e => fail e (Conf hdr short K w') | inr co => (ARun, Conf hdr short (co :: CoHandle l HfFinish :: K) w') end
          else fail ExContinuationExpected (Conf hdr short K w')) = (AWait, c') -> False) as Hc.
      { clear -Hp. intros c' E. unfold checkForContinuationA in *. cbv zeta in *.
        destruct (_ || _)%bool; [nowait E|]. eapply Hp; exact E. }
      destruct (h_opcode hdr) as [|[[[[p|p|]|[p|p|]|]|[[p|p|]|[p|p|]|]|]|[[[p|p|]|[p|p|]|]|[[p|p|]|[p|p|]|]|]|]];
        first [nowait E | eapply Hp; exact E | eapply Hc; exact E | idtac].
      destruct (_ <? 0)%Z; [nowait E|eapply Hp; exact E].
    + destruct l; nowait E.
    + destruct l; nowait E.
    + destruct l; nowait E.
    + nowait E.
  - unfold step_payload in *. cbv zeta in *. destruct p as [|n|got|].
    + destruct (pr <? h_len hdr)%Z; [nowait E|]. destruct (negb us && h_fin hdr)%bool; [|nowait E]. destruct l; nowait E.
    + destruct (readSomeAsyncInline n w) as [r w1] eqn:Er. destruct r; [destruct (al <? Z.of_N (lenN d))%Z; nowait E|nowait E| |nowait E].
      apply readSomeA_wait in Er; [|exact Hio]. congruence.
    + destruct got; [nowait E|]. destruct us; [nowait E|]. destruct l; nowait E.
    + nowait E.
  - unfold step_send in *. cbv zeta in *. destruct p as [| |left|].
    + destruct m as [[|b bs]|]; destruct (sendFrameHeaderAsync h fin op _ w) as [[h' co] w1]; nowait E.
    + destruct (h_hasMask h); [|nowait E]. destruct (_ <=? _); nowait E.
    + destruct (writeExactAsyncInline left w) as [r w1] eqn:Er. destruct r; [nowait E|nowait E| |nowait E]. apply writeA_wait in Er. congruence.
    + nowait E.
  - unfold step_writeFrame in *. cbv zeta in *. destruct p as [left| |left| |left].
    + destruct (writeExactAsyncInline left w) as [r w1] eqn:Er. destruct r; [nowait E|nowait E| |nowait E]. apply writeA_wait in Er. congruence.
    + destruct (_ =? 2); [nowait E|]. destruct (_ =? 3); nowait E.
    + destruct (writeExactAsyncInline left w) as [r w1] eqn:Er. destruct r; [nowait E|nowait E| |nowait E]. apply writeA_wait in Er. congruence.
    + destruct (h_hasMask h); nowait E.
    + destruct (writeExactAsyncInline left w) as [r w1] eqn:Er. destruct r; [nowait E|nowait E| |nowait E]. apply writeA_wait in Er. congruence.
  - unfold step_user in *. destruct cs as [|cm cs]; [nowait E|]. cbv zeta in *.
    destruct cm as [|l|mk b|catch o| | |fin0 opc0 msg0]; try (nowait E). destruct fr; nowait E.
  - nowait E.
Qed.

(** * Every schedule is a prefix of the run on the whole input *)
Definition going (st : status) : Prop := st = ARun \/ st = AWait.
Lemma arrive_arrive s t c : arrive t (arrive s c) = arrive (s ++ t) c.
Proof. destruct c. unfold arrive. cbn. now rewrite app_assoc. Qed.
Lemma arrive_nil c : arrive [] c = c.
Proof. destruct c as [h s k w]. unfold arrive. cbn. rewrite app_nil_r. destruct w; reflexivity. Qed.
Lemma star_arrive t c c' : star c c' -> star (arrive t c) (arrive t c').
Proof. induction 1; [constructor|]. econstructor; [|exact IHstar]. apply step_arrive; [assumption|discriminate]. Qed.
Lemma run_stopped evs : forall st c, ~ going st -> run react evs (st, c) = (st, arrive (arrivals evs) c).
Proof.
  induction evs as [|[|s] evs IH]; intros st c Hst; cbn [run arrivals].
  - now rewrite arrive_nil.
  - rewrite <- (IH st c Hst). f_equal. unfold tick. destruct st; try reflexivity; exfalso; apply Hst; [now left|now right].
  - rewrite (IH st _ Hst). cbn [fst snd]. now rewrite arrive_arrive.
Qed.
Lemma io_only_app s t : io_only s -> io_only t -> io_only (s ++ t).
Proof. intros A1 A2. apply Forall_app. now split. Qed.

Lemma run_star evs : forall st0 c0 st c, going st0 -> io_only (w_in (c_world c0)) -> io_only (arrivals evs) ->
  run react evs (st0, c0) = (st, c) ->
  let cf := arrive (arrivals evs) c0 in
  (going st /\ star cf c) \/ (~ going st /\ exists c1, star cf c1 /\ step c1 = (st, c)).
Proof.
  induction evs as [|[|s] evs IH]; intros st0 c0 st c Hg Hio Har E; cbn [run arrivals] in *.
  - injection E as <- <-. left. split; [exact Hg|]. rewrite arrive_nil. constructor.
  - assert (tick react (st0, c0) = step c0) as Ht by (destruct Hg as [-> | ->]; reflexivity). rewrite Ht in E. clear Ht.
    destruct (step c0) as [st1 c1] eqn:E1.
    destruct st1.
    + assert (io_only (w_in (c_world c1))) as Hio1 by (apply (step_grows _ _ _ E1); exact Hio).
      pose proof (star_one react _ _ (step_arrive (arrivals evs) _ _ _ E1 ltac:(discriminate))) as Hs.
      destruct (IH _ _ _ _ (or_introl eq_refl) Hio1 Har E) as [[A1 A2]|[A1 (c2 & A2 & A3)]].
      * left. split; [exact A1|]. eapply star_trans; eassumption.
      * right. split; [exact A1|]. exists c2. split; [|exact A3]. eapply star_trans; eassumption.
    + apply step_wait in E1; [|exact Hio]. subst c1. eapply IH; [right; reflexivity|exact Hio|exact Har|exact E].
    + assert (~ going ADone) as Hn by (intros [|]; discriminate).
      rewrite run_stopped in E by exact Hn. injection E as <- <-. right. split; [exact Hn|].
      exists (arrive (arrivals evs) c0). split; [constructor|]. apply step_arrive; [exact E1|discriminate].
    + assert (~ going (AFail e)) as Hn by (intros [|]; discriminate).
      rewrite run_stopped in E by exact Hn. injection E as <- <-. right. split; [exact Hn|].
      exists (arrive (arrivals evs) c0). split; [constructor|]. apply step_arrive; [exact E1|discriminate].
    + assert (~ going (AUb u)) as Hn by (intros [|]; discriminate).
      rewrite run_stopped in E by exact Hn. injection E as <- <-. right. split; [exact Hn|].
      exists (arrive (arrivals evs) c0). split; [constructor|]. apply step_arrive; [exact E1|discriminate].
  - apply Forall_app in Har as [H1 H2]. cbn [fst snd] in E.
    destruct (IH st0 (arrive s c0) st c Hg) as [[A1 A2]|[A1 (c2 & A2 & A3)]].
    + cbn. now apply io_only_app.
    + exact H2.
    + exact E.
    + rewrite arrive_arrive in A2. left. auto.
    + rewrite arrive_arrive in A2. right. eauto.
Qed.

(** * Determinism *)
Definition halts (c : conf) (st : status) (c2 : conf) : Prop := exists c1, star c c1 /\ step c1 = (st, c2) /\ st <> ARun.
Lemma star_halts c c1 st c2 : halts c st c2 -> star c c1 -> halts c1 st c2.
Proof.
  intros (c3 & H3 & Hs & Hn) H1. revert c3 H3 Hs. induction H1 as [c|c cm c1 Hst _ IH]; intros c3 H3 Hs.
  - exists c3. auto.
  - inversion H3 as [|? c' ? Hst' H3']; subst.
    + rewrite Hst in Hs. congruence.
    + apply (IH c3); [|exact Hs]. congruence.
Qed.
Lemma halts_unique c st c2 st' c2' : halts c st c2 -> halts c st' c2' -> st = st' /\ c2 = c2'.
Proof.
  intros H1 (c3 & H3 & Hs & Hn). destruct (star_halts _ _ _ _ H1 H3) as (c4 & H4 & Hs4 & Hn4).
  inversion H4; subst; [split; congruence|]. congruence.
Qed.
(** Ticks get there. *)
Lemma run_app e1 : forall e2 sc, run react (e1 ++ e2) sc = run react e2 (run react e1 sc).
Proof. induction e1 as [|[|s] e1 IH]; intros; cbn [run app]; [reflexivity|apply IH|apply IH]. Qed.
Lemma run_ticks_wait n : forall c, step c = (AWait, c) -> run react (ticks n) (AWait, c) = (AWait, c).
Proof. induction n; intros c Hc; [reflexivity|]. cbn [ticks run tick]. rewrite Hc. auto. Qed.
Lemma arrivals_ticks n : arrivals (ticks n) = [].
Proof. induction n; [reflexivity|exact IHn]. Qed.
Lemma run_ticks_stopped n st c : ~ going st -> run react (ticks n) (st, c) = (st, c).
Proof. intros. rewrite run_stopped by assumption. rewrite arrivals_ticks, arrive_nil. reflexivity. Qed.
Lemma halts_ticks c st c2 : halts c st c2 -> io_only (w_in (c_world c)) ->
  exists n, forall m st0, (n <= m)%nat -> going st0 -> run react (ticks m) (st0, c) = (st, c2).
Proof.
  intros (c1 & Hs & Hst & Hn). induction Hs as [c|c cm c1 Hs1 _ IH]; intros Hio.
  - exists 1%nat. intros m st0 Hm Hg. destruct m as [|m]; [lia|]. cbn [ticks run].
    assert (tick react (st0, c) = (st, c2)) as -> by (destruct Hg as [-> | ->]; exact Hst).
    destruct st; [congruence| |apply run_ticks_stopped; intros [|]; discriminate..].
    assert (c2 = c) as -> by (eapply step_wait; eassumption). apply run_ticks_wait. exact Hst.
  - destruct (IH Hst) as [n Hnn]; [apply (step_grows _ _ _ Hs1); exact Hio|].
    exists (S n). intros m st0 Hm Hg. destruct m as [|m]; [lia|]. cbn [ticks run].
    assert (tick react (st0, c) = (ARun, cm)) as -> by (destruct Hg as [-> | ->]; exact Hs1).
    apply Hnn; [lia|now left].
Qed.

Lemma sim_halts {A} lf li B strict (Q : A -> header -> bytes -> Prop) o w' c :
  sim react lf li B strict Q [] o w' c -> o <> OutOfFuel ->
  exists st c2, halts c st c2 /\ same_end st o /\ c_world c2 = er w'.
Proof.
  intros H Hf. destruct o as [a|e| |u|]; cbn [sim] in H.
  - destruct H as (_ & h & s & _ & Hs). exists ADone. eexists. split; [eexists; split; [exact Hs|split; [reflexivity|discriminate]]|].
    split; [exact I|reflexivity].
  - destruct H as (e' & h & s & c1 & H1 & H2). exists (AFail e'). eexists. split; [exists c1; split; [exact H1|split; [exact H2|discriminate]]|].
    split; [exact I|reflexivity].
  - destruct H as (c1 & H1 & H2 & H3). exists AWait, c1. split; [exists c1; split; [exact H1|split; [exact H2|discriminate]]|].
    split; [exact I|exact H3].
  - destruct H as (c1 & c2 & H1 & H2 & H3). exists (AUb u), c2. split; [exists c1; split; [exact H1|split; [exact H2|discriminate]]|].
    split; [reflexivity|exact H3].
  - congruence.
Qed.
(** A schedule against the run on the whole input. *)
Lemma run_halts evs st0 c0 st c st2 c2 : going st0 -> io_only (w_in (c_world c0)) -> io_only (arrivals evs) ->
  run react evs (st0, c0) = (st, c) -> halts (arrive (arrivals evs) c0) st2 c2 ->
  (going st /\ halts c st2 c2) \/ (~ going st /\ st = st2 /\ c = c2).
Proof.
  intros Hg Hio Har E Hh. destruct (run_star _ _ _ _ _ Hg Hio Har E) as [[A1 A2]|[A1 (c1 & A2 & A3)]].
  - left. split; [exact A1|]. eapply star_halts; eassumption.
  - right. split; [exact A1|].
    eapply halts_unique; [|exact Hh]. exists c1. split; [exact A2|]. split; [exact A3|]. intros ->. apply A1. now left.
Qed.
Lemma halts_grows c st c2 : halts c st c2 -> grows (c_world c) (c_world c2).
Proof. intros (c1 & H1 & H2 & _). eapply grows_trans; [eapply star_grows; exact H1|eapply step_grows; exact H2]. Qed.
Lemma run_io evs : forall st0 c0 st c, going st0 -> io_only (w_in (c_world c0)) -> io_only (arrivals evs) ->
  run react evs (st0, c0) = (st, c) -> io_only (w_in (c_world c)).
Proof.
  intros st0 c0 st c Hg Hio Har E.
  assert (io_only (w_in (c_world (arrive (arrivals evs) c0)))) as Hf by (apply io_only_app; assumption).
  destruct (run_star _ _ _ _ _ Hg Hio Har E) as [[A1 A2]|[A1 (c1 & A2 & A3)]].
  - apply (star_grows _ _ A2). exact Hf.
  - apply (step_grows _ _ _ A3). apply (star_grows _ _ A2). exact Hf.
Qed.
End Sched.

Lemma same_effects_er w w' : w = er w' -> same_effects w w'.
Proof. intros ->. repeat split. Qed.
Lemma er_id w : s_listening (w_sock w) = false -> er w = w.
Proof. unfold er. destruct w as [a b c d e f k]. destruct k. cbn. now intros ->. Qed.
