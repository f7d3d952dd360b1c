(** Property theorems: C60, full duplex on shared sockets. *)
From Verif Require Import Bytes Frame World WebSocket AsyncWebSocket SpecFrame SpecSend SpecListen SpecApi SpecReply SpecAsync SpecNet SpecDuplex
  ProofFrame ProofStream ProofSend ProofCodec ProofHeader ProofListen ProofReading ProofApi ProofInv ProofHistory ProofProps
  ProofAsync ProofAsync2 ProofAsync3 PropListen PropListen2 PropReply PropAsync PropAsync2 PropAsync3 PropNet PropNet2.
From Coq Require Import ZifyBool ZifyNat ZifyN.
Local Open Scope N_scope.
Local Arguments takeN : simpl never.
Local Arguments dropN : simpl never.
Local Arguments lenN : simpl never.
Local Arguments be_enc : simpl never.
Local Arguments be_dec : simpl never.
Local Arguments packHeaderBits : simpl never.
Local Arguments unpackHeaderBits : simpl never.
Notation step := AsyncWebSocket.step.

(** The read side of one world and the write side of another. *)
Definition join (r t : world) : world := World (w_in r) (w_wr t) (w_out t) (w_rnd r) (w_rpos t) (w_log r) (w_sock r).
Definition agree (r t : world) : Prop := w_rnd r = w_rnd t /\ s_mask (w_sock r) = s_mask (w_sock t).
Definition with_world (w : world) (c : conf) : conf := Conf (c_hdr c) (c_short c) (c_stack c) w.

(** Coroutines that only send, and that only receive. *)
Definition tx_cor (co : cor) : Prop :=
  match co with
  | CoSend _ _ _ _ _ | CoWrite _ _ => True
  | CoUser cs _ => Forall (fun c => exists op, c = CSend false op) cs
  | _ => False
  end.
Definition rx_cor (co : cor) : Prop :=
  match co with
  | CoListen | CoReadFrame _ | CoHandle _ _ | CoPayload _ _ _ _ _ => True
  | CoUser cs _ => cs = []
  | _ => False
  end.

Lemma join_self w : join w w = w.
Proof. now destruct w. Qed.

Lemma write_join d r t : writeExactAsyncInline d (join r t) = (fst (writeExactAsyncInline d t), join r (snd (writeExactAsyncInline d t))).
Proof.
  unfold writeExactAsyncInline. destruct d as [|b d]; [reflexivity|]. cbn [join w_wr].
  destruct (w_wr t) as [|[n|[]|] q]; reflexivity.
Qed.
Lemma write_agree d r t : agree r t -> agree r (snd (writeExactAsyncInline d t)).
Proof.
  unfold writeExactAsyncInline. intros H. destruct d as [|b d]; [exact H|].
  destruct (w_wr t) as [|[n|[]|] q]; exact H.
Qed.
Lemma unwind_tx st : Forall tx_cor st -> unwind st = None.
Proof. induction 1 as [|co st H _ IH]; [reflexivity|]. destruct co; cbn in *; try contradiction; exact IH. Qed.
Lemma unwind_rx st : Forall rx_cor st -> unwind st = None.
Proof. induction 1 as [|co st H _ IH]; [reflexivity|]. destruct co; cbn in *; try contradiction; exact IH. Qed.

Definition tx_ok (r t : world) (sc scj : status * conf) : Prop :=
  scj = (fst sc, with_world (join r (c_world (snd sc))) (snd sc)) /\ Forall tx_cor (c_stack (snd sc)) /\ agree r (c_world (snd sc)).
Lemma tx_fail e hdr short K r t : Forall tx_cor K -> agree r t ->
  tx_ok r t (fail e (Conf hdr short K t)) (fail e (Conf hdr short K (join r t))).
Proof. intros H1 H2. unfold fail. cbn [c_stack]. rewrite unwind_tx by exact H1. split; [reflexivity|]. split; [constructor|exact H2]. Qed.

Lemma step_tx r c : Forall tx_cor (c_stack c) -> agree r (c_world c) ->
  tx_ok r (c_world c) (step watch c) (step watch (with_world (join r (c_world c)) c)).
Proof.
  destruct c as [hdr short st t]. unfold with_world; cbn [c_stack c_world c_hdr c_short]. intros HK Ha.
  destruct HK as [|co K Hco HK]; [split; [reflexivity|split; [constructor|exact Ha]]|].
  assert (forall st' hdr' short' K' t', Forall tx_cor K' -> agree r t' ->
    tx_ok r t (st', Conf hdr' short' K' t') (st', Conf hdr' short' K' (join r t'))) as Hok by (intros st' hdr' short' K' t' H1 H2; split; [reflexivity|]; split; [exact H1|exact H2]).
  destruct co as [|p|l p|l u a g p|fin opcode m h p|h p|cs freed|]; cbn in Hco; try contradiction; cbn [step].
  - destruct p as [| |d|]; cbn [step_send].
    + assert (forall n m' p', tx_ok r t
        (let '(h', co, w') := sendFrameHeaderAsync h fin opcode n t in (ARun, Conf hdr short (co :: CoSend fin opcode m' h' p' :: K) w'))
        (let '(h', co, w') := sendFrameHeaderAsync h fin opcode n (join r t) in (ARun, Conf hdr short (co :: CoSend fin opcode m' h' p' :: K) w'))) as H.
      { intros n m' p'. unfold sendFrameHeaderAsync. pose proof Ha as [Ha1 Ha2]. cbn [join w_sock w_rnd w_rpos h_hasMask]. rewrite Ha1, Ha2.
        destruct (s_mask (w_sock t)); cbn [h_hasMask].
        - split; [|split; [repeat constructor; exact HK|exact Ha]]. cbn [fst snd c_world with_world c_hdr c_short c_stack].
          unfold join, set_rpos. cbn. now rewrite Ha1.
        - split; [|split; [repeat constructor; exact HK|exact Ha]]. cbn [fst snd c_world with_world c_hdr c_short c_stack].
          reflexivity. }
      destruct m as [[|b bs]|]; apply H.
    + destruct (h_hasMask h); [destruct (2 ^ 31 <=? _)|]; apply Hok; try assumption; repeat constructor; assumption.
    + rewrite write_join. pose proof (write_agree d r t Ha) as Hw. destruct (writeExactAsyncInline d t) as [[d'|d'| |] w']; cbn [fst snd] in *;
        try (apply Hok; try assumption; repeat constructor; assumption).
      pose proof (tx_fail ExAsyncIO hdr short K r w' HK Hw) as H. exact H.
    + apply Hok; assumption.
  - destruct p as [d| |d| |d]; cbn [step_writeFrame].
    + rewrite write_join. pose proof (write_agree d r t Ha) as Hw. destruct (writeExactAsyncInline d t) as [[d'|d'| |] w']; cbn [fst snd] in *;
        try (apply Hok; try assumption; repeat constructor; assumption).
      pose proof (tx_fail ExAsyncIO hdr short K r w' HK Hw) as H. exact H.
    + destruct (_ =? 2); [|destruct (_ =? 3)]; apply Hok; try assumption; repeat constructor; assumption.
    + rewrite write_join. pose proof (write_agree d r t Ha) as Hw. destruct (writeExactAsyncInline d t) as [[d'|d'| |] w']; cbn [fst snd] in *;
        try (apply Hok; try assumption; repeat constructor; assumption).
      pose proof (tx_fail ExAsyncIO hdr short K r w' HK Hw) as H. exact H.
    + destruct (h_hasMask h); apply Hok; try assumption; repeat constructor; assumption.
    + rewrite write_join. pose proof (write_agree d r t Ha) as Hw. destruct (writeExactAsyncInline d t) as [[d'|d'| |] w']; cbn [fst snd] in *;
        try (apply Hok; try assumption; repeat constructor; assumption).
      pose proof (tx_fail ExAsyncIO hdr short K r w' HK Hw) as H. exact H.
  - destruct Hco as [|c cs [op ->] Hcs]; cbn [step_user app].
    + apply Hok; assumption.
    + unfold start_send. destruct (send_args op) as [[fin opcode] m]. apply Hok; [|exact Ha]. repeat constructor; assumption.
Qed.

(** The receiving side. *)
Definition rx_ok (t : world) (sc scj : status * conf) : Prop :=
  scj = (fst sc, with_world (join (c_world (snd sc)) t) (snd sc)) /\ Forall rx_cor (c_stack (snd sc)) /\ agree (c_world (snd sc)) t /\
  io_only (w_in (c_world (snd sc))).

Lemma rx_in w s' : io_only s' -> forall t, agree w t -> agree (set_sock (set_in w s') (w_sock w)) t.
Proof. intros _ t H. exact H. Qed.
Lemma readExact_join n got r t : io_only (w_in r) ->
  readExactAsyncInline n got (join r t) = (fst (readExactAsyncInline n got r), join (snd (readExactAsyncInline n got r)) t) /\
  io_only (w_in (snd (readExactAsyncInline n got r))) /\ w_sock (snd (readExactAsyncInline n got r)) = w_sock r /\
  w_rnd (snd (readExactAsyncInline n got r)) = w_rnd r.
Proof.
  intros Hio. unfold readExactAsyncInline. cbn [join w_in w_sock]. destruct (n <=? lenN got); [auto|].
  destruct (read_raw (n - lenN got) (w_in r) (w_sock r)) as [[rr s'] k'] eqn:E. destruct (no_ext_read _ _ _ _ _ _ Hio E) as [-> Hio'].
  destruct rr as [d|[]|]; cbn [fst snd w_in w_sock w_rnd set_sock set_in]; auto.
Qed.
Lemma readSome_join n r t : io_only (w_in r) ->
  readSomeAsyncInline n (join r t) = (fst (readSomeAsyncInline n r), join (snd (readSomeAsyncInline n r)) t) /\
  io_only (w_in (snd (readSomeAsyncInline n r))) /\ w_sock (snd (readSomeAsyncInline n r)) = w_sock r /\
  w_rnd (snd (readSomeAsyncInline n r)) = w_rnd r.
Proof.
  intros Hio. unfold readSomeAsyncInline. cbn [join w_in w_sock]. destruct (n <=? 0)%Z; [auto|].
  destruct (read_raw (Z.to_N n) (w_in r) (w_sock r)) as [[rr s'] k'] eqn:E. destruct (no_ext_read _ _ _ _ _ _ Hio E) as [-> Hio'].
  destruct rr as [d|[]|]; cbn [fst snd w_in w_sock w_rnd set_sock set_in]; auto.
Qed.

Lemma rx_ret st hdr short K r t : Forall rx_cor K -> agree r t -> io_only (w_in r) ->
  rx_ok t (st, Conf hdr short K r) (st, Conf hdr short K (join r t)).
Proof. intros H1 H2 H3. split; [reflexivity|]. split; [exact H1|]. split; [exact H2|exact H3]. Qed.
Lemma rx_fail e hdr short K r t : Forall rx_cor K -> agree r t -> io_only (w_in r) ->
  rx_ok t (fail e (Conf hdr short K r)) (fail e (Conf hdr short K (join r t))).
Proof. intros H1 H2 H3. unfold fail. cbn [c_stack]. rewrite unwind_rx by exact H1. apply rx_ret; [constructor|exact H2|exact H3]. Qed.

Lemma step_rx t c : Forall rx_cor (c_stack c) -> agree (c_world c) t -> io_only (w_in (c_world c)) ->
  rx_ok t (step watch c) (step watch (with_world (join (c_world c) t) c)).
Proof.
  destruct c as [hdr short st r]. unfold with_world; cbn [c_stack c_world c_hdr c_short]. intros HK Ha Hio.
  destruct HK as [|co K Hco HK]; [apply rx_ret; [constructor|assumption|assumption]|].
  assert (forall r', w_sock r' = w_sock r -> w_rnd r' = w_rnd r -> agree r' t) as Hag by (intros r' H1 H2; unfold agree; rewrite H1, H2; exact Ha).
  assert (forall s1, agree (set_sock r (set_last (w_sock r) s1)) t) as Hlast by (intros s1; exact Ha).
  destruct co as [|p|l p|l u a g p|fin opcode m h p|h p|cs freed|]; cbn in Hco; try contradiction; cbn [step].
  - destruct (h_opcode hdr =? OPCODE_CLOSE); apply rx_ret; try assumption. repeat constructor; assumption.
  - assert (forall n got (A : bytes -> header * list cor) (B : bytes -> list cor), (forall d, Forall rx_cor (snd (A d)) /\ Forall rx_cor (B d)) ->
      rx_ok t
        match readExactAsyncInline n got r with
        | (INext bb, w') => (ARun, Conf (fst (A bb)) short (snd (A bb)) w')
        | (IAgain got', w') => (ARun, Conf hdr short (B got') w')
        | (IWait, w') => (AWait, Conf hdr short (CoReadFrame p :: K) w')
        | (IFail, w') => fail ExAsyncIO (Conf hdr short K w')
        end
        match readExactAsyncInline n got (join r t) with
        | (INext bb, w') => (ARun, Conf (fst (A bb)) short (snd (A bb)) w')
        | (IAgain got', w') => (ARun, Conf hdr short (B got') w')
        | (IWait, w') => (AWait, Conf hdr short (CoReadFrame p :: K) w')
        | (IFail, w') => fail ExAsyncIO (Conf hdr short K w')
        end) as HR.
    { intros n got A B HAB. destruct (readExact_join n got r t Hio) as (-> & H1 & H2 & H3).
      destruct (readExactAsyncInline n got r) as [[d|d| |] w']; cbn [fst snd] in *;
        first [apply rx_fail|apply rx_ret]; try (apply HAB); try assumption; try (apply Hag; assumption). repeat constructor; assumption. }
    destruct p as [got|bb|tt0 got|tt0 got|got]; cbn [step_readFrame].
    + apply (HR 2 got (fun bb => (hdr, CoReadFrame (RfOnBb bb) :: K)) (fun d => CoReadFrame (RfAct d) :: K)). intros d. split; repeat constructor; assumption.
    + destruct (unpackHeaderBits (be_dec bb) hdr) as [h len]. destruct (len <? 126); [|destruct (len =? 126); [|destruct (len =? 127)]];
        first [apply rx_fail; assumption|apply rx_ret; try assumption; repeat constructor; assumption].
    + apply (HR (if tt0 =? 2 then 2 else 8) got (fun bb => (hdr, CoReadFrame (RfOnLen tt0 bb) :: K)) (fun d => CoReadFrame (RfReadLen tt0 d) :: K)).
      intros d. split; repeat constructor; assumption.
    + set (h := if tt0 =? 2 then _ else _). destruct (h_hasMask h); apply rx_ret; try assumption. repeat constructor; assumption.
    + apply (HR 4 got (fun bb => (set_mask hdr (mask_of bb), K)) (fun d => CoReadFrame (RfReadMask d) :: K)). intros d. split; repeat constructor; assumption.
  - assert (forall (r1 : world) us nx sh, agree r1 t -> io_only (w_in r1) -> rx_ok t
      match readPayloadAsync hdr us r1 with
      | inl e => fail e (Conf hdr sh K r1)
      | inr co => (ARun, Conf hdr sh (co :: CoHandle l nx :: K) r1)
      end
      match readPayloadAsync hdr us (join r1 t) with
      | inl e => fail e (Conf hdr sh K (join r1 t))
      | inr co => (ARun, Conf hdr sh (co :: CoHandle l nx :: K) (join r1 t))
      end) as HP.
    { intros r1 us nx sh Ha1 Hio1. unfold readPayloadAsync. cbn [join w_sock]. destruct (_ && _)%bool; [apply rx_fail; assumption|].
      destruct (_ <? 0)%Z; [apply rx_fail; assumption|]. apply rx_ret; try assumption. repeat constructor; assumption. }
    assert (forall ev, rx_ok t
      match l with
      | Some li => let (co, w') := call_listener watch li ev false r in (ARun, Conf hdr short (co :: CoHandle l HfFinish :: K) w')
      | None => (ARun, Conf hdr short K r)
      end
      match l with
      | Some li => let (co, w') := call_listener watch li ev false (join r t) in (ARun, Conf hdr short (co :: CoHandle l HfFinish :: K) w')
      | None => (ARun, Conf hdr short K (join r t))
      end) as HC.
    { intros ev. destruct l as [li|]; [|apply rx_ret; assumption]. unfold call_listener, watch.
      apply (rx_ret _ _ _ _ (set_log r (w_log r ++ [(li, ev)])) t); [repeat constructor; assumption|exact Ha|exact Hio]. }
    destruct p; cbn [step_handle]; try apply HC; [|apply rx_ret; assumption].
    assert (forall nx, rx_ok t
      (let (ok, w') := checkForContinuationA hdr r in
       if ok then match readPayloadAsync hdr false w' with
                  | inl e => fail e (Conf hdr short K w')
                  | inr co => (ARun, Conf hdr short (co :: CoHandle l nx :: K) w') end
       else fail ExContinuationExpected (Conf hdr short K w'))
      (let (ok, w') := checkForContinuationA hdr (join r t) in
       if ok then match readPayloadAsync hdr false w' with
                  | inl e => fail e (Conf hdr short K w')
                  | inr co => (ARun, Conf hdr short (co :: CoHandle l nx :: K) w') end
       else fail ExContinuationExpected (Conf hdr short K w'))) as HD.
    { intros nx. unfold checkForContinuationA. cbn [join w_sock]. destruct (_ || _)%bool; [apply rx_fail; assumption|].
      apply (HP (set_sock r (set_last (w_sock r) _))); [apply Hlast|exact Hio]. }
    cbn [join w_sock].
    destruct (h_opcode hdr) as [|q].
    { destruct (s_last (w_sock r) <? 0)%Z; [apply rx_fail; assumption|apply HP; assumption]. }
    do 4 (try (destruct q as [q|q|])); first [apply HD|apply HP; assumption|apply rx_fail; assumption].
  - destruct p as [|n|d|]; cbn [step_payload].
    + cbn [join w_sock]. destruct (g <? h_len hdr)%Z; [apply rx_ret; try assumption; repeat constructor; assumption|].
      destruct (_ && _)%bool; [|apply rx_ret; assumption]. destruct l as [li|]; [|apply rx_ret; assumption].
      unfold call_listener, watch. apply (rx_ret _ _ _ _ (set_log r (w_log r ++ [(li, _)])) t); [repeat constructor; assumption|exact Ha|exact Hio].
    + destruct (readSome_join n r t Hio) as (-> & H1 & H2 & H3). destruct (readSomeAsyncInline n r) as [[d|d| |] w']; cbn [fst snd] in *.
      * destruct (a <? _)%Z; apply rx_ret; try assumption; try (apply Hag; assumption); repeat constructor; assumption.
      * apply rx_ret; try assumption; try (apply Hag; assumption); repeat constructor; assumption.
      * apply rx_ret; try assumption; try (apply Hag; assumption); repeat constructor; assumption.
      * apply rx_fail; try assumption; apply Hag; assumption.
    + destruct d as [|b d]; [apply rx_fail; assumption|]. destruct u; [apply rx_ret; try assumption; repeat constructor; assumption|].
      destruct l as [li|]; [|apply rx_ret; try assumption; repeat constructor; assumption].
      unfold call_listener, watch. apply (rx_ret _ _ _ _ (set_log r (w_log r ++ [(li, _)])) t); [repeat constructor; assumption|exact Ha|exact Hio].
    + apply rx_ret; assumption.
  - subst cs. cbn [step_user]. apply rx_ret; assumption.
Qed.

(** * Two coroutines on one socket are two coroutines on two copies of it *)
Definition alike (a b : status * conf) : Prop :=
  fst a = fst b /\ c_hdr (snd a) = c_hdr (snd b) /\ c_short (snd a) = c_short (snd b) /\ c_stack (snd a) = c_stack (snd b).
Definition split_peer (p : peer) (tx rx : status * conf) : Prop :=
  alike (p_tx p) tx /\ alike (p_rx p) rx /\ p_world p = join (c_world (snd rx)) (c_world (snd tx)) /\
  agree (c_world (snd rx)) (c_world (snd tx)) /\ Forall tx_cor (c_stack (snd tx)) /\ Forall rx_cor (c_stack (snd rx)) /\
  io_only (w_in (c_world (snd rx))).

Lemma on_alike w a b : alike a b -> on w a = (fst b, with_world w (snd b)).
Proof. intros (H1 & H2 & H3 & H4). unfold on, with_world. now rewrite H1, H2, H3, H4. Qed.
Lemma split_tx p tx rx : split_peer p tx rx -> split_peer (tick_tx p) (tick watch tx) rx.
Proof.
  intros (H1 & H2 & H3 & H4 & H5 & H6 & H7). unfold tick_tx. rewrite (on_alike _ _ _ H1), H3. destruct tx as [st c]. cbn [fst snd] in *.
  destruct (step_tx (c_world (snd rx)) c H5 H4) as (S1 & S2 & S3). unfold tick.
  destruct st; cbv zeta iota beta; rewrite ?S1; unfold split_peer, alike; cbn [p_tx p_rx p_world fst snd with_world c_world c_hdr c_short c_stack];
    repeat (split; [first [reflexivity|assumption|auto]|]); assumption.
Qed.
Lemma split_rx p tx rx : split_peer p tx rx -> split_peer (tick_rx p) tx (tick watch rx).
Proof.
  intros (H1 & H2 & H3 & H4 & H5 & H6 & H7). unfold tick_rx. rewrite (on_alike _ _ _ H2), H3. destruct rx as [st c]. cbn [fst snd] in *.
  destruct (step_rx (c_world (snd tx)) c H6 H4 H7) as (S1 & S2 & S3 & S4). unfold tick.
  destruct st; cbv zeta iota beta; rewrite ?S1; unfold split_peer, alike; cbn [p_tx p_rx p_world fst snd with_world c_world c_hdr c_short c_stack];
    repeat (split; [first [reflexivity|assumption|auto]|]); assumption.
Qed.
Lemma split_receive seg p tx rx : split_peer p tx rx -> split_peer (receive seg p) tx (deliver seg rx).
Proof.
  intros (H1 & H2 & H3 & H4 & H5 & H6 & H7). destruct seg as [|b bs]; [unfold split_peer; auto 8|].
  unfold split_peer. cbn [receive deliver p_tx p_rx p_world fst snd arrive c_world c_hdr c_short c_stack]. rewrite H3.
  split; [exact H1|]. split; [exact H2|]. split; [reflexivity|]. split; [exact H4|]. split; [exact H5|]. split; [exact H6|].
  cbn. apply io_only_app; [exact H7|]. repeat constructor.
Qed.
Lemma split_start ops w : idle w -> split_peer (peer_start ops w) (ARun, start_sends ops w) (ARun, start_listen w).
Proof.
  intros (Hin & _). unfold split_peer, peer_start. cbn [p_tx p_rx p_world fst snd start_sends start_listen c_world c_hdr c_short c_stack].
  split; [repeat split|]. split; [repeat split|]. split; [symmetry; apply join_self|]. split; [split; reflexivity|].
  split; [constructor; [|constructor]; cbn; apply Forall_map, Forall_forall; intros x _; eauto|].
  split; [repeat constructor|]. rewrite Hin. constructor.
Qed.

Definition view_a (e : dev) : nev :=
  match e with TxA => TickTx | RxB => TickSrv | NetAB k => Up k | NetBA k => Down k | RxA | TxB => TickRx end.
Definition view_b (e : dev) : nev :=
  match e with TxB => TickTx | RxA => TickSrv | NetBA k => Up k | NetAB k => Down k | RxB | TxA => TickRx end.
Definition split_net (s : duplex) (na nb : net) : Prop :=
  split_peer (d_a s) (n_tx na) (n_srv nb) /\ split_peer (d_b s) (n_tx nb) (n_srv na) /\ d_ab s = n_up na /\ d_ba s = n_up nb.
Lemma split_out p tx rx : split_peer p tx rx -> w_out (p_world p) = w_out (c_world (snd tx)).
Proof. intros (_ & _ & -> & _). reflexivity. Qed.
Lemma split_log p tx rx : split_peer p tx rx -> w_log (p_world p) = w_log (c_world (snd rx)).
Proof. intros (_ & _ & -> & _). reflexivity. Qed.
Lemma split_step s na nb e : split_net s na nb -> split_net (dstep s e) (nstep watch watch na (view_a e)) (nstep watch watch nb (view_b e)).
Proof.
  intros (H1 & H2 & H3 & H4). destruct e as [| | | |k|k]; unfold split_net; cbn [dstep nstep view_a view_b d_a d_b d_ab d_ba n_tx n_srv n_up].
  - split; [now apply split_tx|auto].
  - split; [now apply split_rx|auto].
  - split; [exact H1|split; [now apply split_tx|auto]].
  - split; [exact H1|split; [now apply split_rx|auto]].
  - rewrite (split_out _ _ _ H1), H3. split; [exact H1|]. split; [now apply split_receive|auto].
  - rewrite (split_out _ _ _ H2), H4. split; [now apply split_receive|auto].
Qed.
Lemma split_run opsa opsb wa wb evs : idle wa -> idle wb ->
  split_net (drun opsa opsb evs wa wb) (nrun watch watch (map view_a evs) (net_start opsa wa wb wb))
    (nrun watch watch (map view_b evs) (net_start opsb wb wa wa)).
Proof.
  intros Ha Hb. unfold drun, nrun.
  assert (split_net (Duplex (peer_start opsa wa) (peer_start opsb wb) 0 0) (net_start opsa wa wb wb) (net_start opsb wb wa wa)) as H.
  { split; [now apply split_start|]. split; [now apply split_start|]. split; reflexivity. }
  revert H. generalize (Duplex (peer_start opsa wa) (peer_start opsb wb) 0 0) (net_start opsa wa wb wb) (net_start opsb wb wa wa).
  induction evs as [|e evs IH]; intros s na nb H; [exact H|]. cbn [fold_left map]. apply IH. now apply split_step.
Qed.

(** * One direction *)

(** A peer that receives (part of) the frames of [ops] shows (part of) [R] and waits for more. *)
Definition legible (ops : list sendop) (R : list obs) : Prop := forall m rnd pos,
  (forall p, prefix p (frames_of m rnd pos ops) -> prefix (stream_reading false p) R /\ stream_ending false p = Blocked) /\
  stream_reading false (frames_of m rnd pos ops) = R.
Lemma plain_legible ops : Forall plain_send ops -> Forall (fun op => lenN (req_payload op) < 2 ^ 63) ops -> legible ops (flat_map received ops).
Proof.
  intros H1 H2 m rnd pos. split; [intros p Hp; exact (sent_prefix m rnd pos ops p H1 H2 Hp)|].
  apply (sent_whole m rnd pos ops H1 H2).
Qed.
Lemma fits_63 m ops : Forall (fits m) ops -> Forall (fun op => lenN (req_payload op) < 2 ^ 63) ops.
Proof. intros H. eapply Forall_impl; [|exact H]. intros op []; assumption. Qed.

Lemma oneway_safe ops R wt ws wr evs s : legible ops R -> Forall (fits (s_mask (w_sock wt))) ops ->
  idle wt -> idle ws -> nrun watch watch evs (net_start ops wt ws wr) = s ->
  calm_status (fst (n_tx s)) /\ going (fst (n_srv s)) /\ prefix (transcript (w_log (c_world (snd (n_srv s))))) R.
Proof.
  intros Hpl Hf It Is Es.
  assert (driven watch watch ops wt ws wr s) as (n & e2 & e3 & D1 & D2 & D3 & D4 & D5 & D6 & D7 & D8 & D9).
  { rewrite <- Es. apply driven_run, driven_start. }
  destruct (tx_prefix ops wt n It Hf) as [T1 T2]. rewrite <- D1 in T1, T2.
  assert (prefix (bytes_of (arrivals e2)) (tx_out wt ops)) as HB.
  { rewrite D8. eapply prefix_trans; [apply prefix_firstn|exact T2]. }
  destruct (proj1 (Hpl _ _ _) _ HB) as [P1 P2]. destruct watch_user as (U1 & U2 & U3).
  destruct (n_srv s) as [st2 c2]. symmetry in D2. split; [exact T1|].
  split; [exact (fed_going watch ws e2 st2 c2 Is U1 U2 U3 D4 P2 D2)|].
  eapply prefix_trans; [exact (fed_shown watch ws e2 st2 c2 Is U1 D4 D2)|exact P1].
Qed.
Lemma oneway_fair ops R wt ws wr f : legible ops R -> Forall (fits (s_mask (w_sock wt))) ops ->
  idle wt -> idle ws -> (exists ls, s_listener (w_sock ws) = Some ls) -> fair f ->
  exists N, forall n, (N <= n)%nat -> let s := nrun watch watch (upto f n) (net_start ops wt ws wr) in
  fst (n_tx s) = ADone /\ fst (n_srv s) = AWait /\ transcript (w_log (c_world (snd (n_srv s)))) = R.
Proof.
  intros Hpl Hf It Is Ls Hfair.
  set (s0 := net_start ops wt ws wr). set (S := fun n => nrun watch watch (upto f n) s0).
  destruct watch_user as (U1 & U2 & U3).
  assert (forall n, driven watch watch ops wt ws wr (S n)) as HD by (intros n; apply driven_run, driven_start).
  destruct (sends_halts ops wt It Hf) as (ct & Hh & Ho). fold (tx_out wt ops) in Ho.
  destruct (halts_ticks _ _ _ _ Hh) as [nt Hnt]; [destruct It as (Hin & _); cbn [start_sends c_world]; rewrite Hin; constructor|].
  destruct (fair_cnt f 0 nt Hfair ltac:(lia)) as [N1 HN1].
  assert (forall n, (N1 <= n)%nat -> n_tx (S n) = (ADone, ct)) as Htx.
  { intros n Hn. unfold S. rewrite fair_tx. cbn [s0 net_start n_tx]. apply Hnt; [now apply HN1|now left]. }
  destruct (fair_up watch watch f s0 N1 (tx_out wt ops) Hfair) as (N2 & HN12 & HN2).
  { intros n Hn. fold (S n). rewrite (Htx n Hn). cbn [snd]. split; [exact Ho|].
    destruct (HD n) as (_ & _ & _ & _ & _ & _ & _ & _ & H & _). rewrite (Htx n Hn) in H. cbn [snd] in H. rewrite Ho in H. exact H. }
  destruct (HD N2) as (_ & e2 & _ & _ & D2 & _ & D4 & _ & _ & _ & D8 & _).
  rewrite (Htx N2 HN12) in D8. cbn [snd] in D8. rewrite Ho in D8. unfold S in D8. rewrite (HN2 N2 (le_n _)), firstn_all in D8.
  destruct (Hpl (s_mask (w_sock wt)) (w_rnd wt) (w_rpos wt)) as [L1 L2]. destruct (L1 _ (prefix_refl _)) as [_ L3].
  destruct (fed_finishes_gen watch ws e2 _ _ Is U1 U2 U3 D4 L2 L3 Ls D8) as [ns Hns].
  destruct (fair_cnt f 1 (ns + cnt f 1 N2) Hfair ltac:(lia)) as [N3 HN3].
  exists (Nat.max N2 N3). intros n Hn s. change s with (S n). rewrite (Htx n ltac:(lia)). split; [reflexivity|].
  pose proof (fair_srv watch watch f s0 N2) as HS. cbv zeta beta in HS. specialize (HS ltac:(intros n' Hn'; rewrite (HN2 n' Hn'); fold (S n'); rewrite (Htx n' ltac:(lia)); cbn [snd]; now rewrite Ho) n ltac:(lia)).
  fold (S n) in HS. fold (S N2) in HS. rewrite D2, <- run_app in HS. destruct (n_srv (S n)) as [st c]. symmetry in HS.
  apply Hns in HS; [|specialize (HN3 n ltac:(lia)); lia]. destruct HS as (H1 & H2 & _). auto.
Qed.

(** * Both directions *)
Lemma duplex_any_time : forall opsa opsb Ra Rb wa wb evs s,
  legible opsa Ra -> legible opsb Rb ->
  Forall (fits (s_mask (w_sock wa))) opsa -> Forall (fits (s_mask (w_sock wb))) opsb ->
  idle wa -> idle wb -> drun opsa opsb evs wa wb = s ->
  Forall (fun st => st = ARun \/ st = AWait \/ st = ADone) [fst (p_tx (d_a s)); fst (p_tx (d_b s))] /\
  Forall (fun st => st = ARun \/ st = AWait) [fst (p_rx (d_a s)); fst (p_rx (d_b s))] /\
  prefix (transcript (w_log (p_world (d_b s)))) Ra /\
  prefix (transcript (w_log (p_world (d_a s)))) Rb.
Proof.
  intros opsa opsb Ra Rb wa wb evs s Pa Pb Fa Fb Ia Ib <-.
  destruct (split_run opsa opsb wa wb evs Ia Ib) as (H1 & H2 & _).
  destruct (oneway_safe opsa Ra wa wb wb (map view_a evs) _ Pa Fa Ia Ib eq_refl) as (A1 & A2 & A3).
  destruct (oneway_safe opsb Rb wb wa wa (map view_b evs) _ Pb Fb Ib Ia eq_refl) as (B1 & B2 & B3).
  rewrite (split_log _ _ _ H1), (split_log _ _ _ H2).
  destruct H1 as ((T1 & _) & (R1 & _) & _). destruct H2 as ((T2 & _) & (R2 & _) & _). rewrite T1, T2, R1, R2.
  split; [constructor; [exact A1|constructor; [exact B1|constructor]]|].
  split; [constructor; [exact B2|constructor; [exact A2|constructor]]|]. split; [exact A3|exact B3].
Qed.

Lemma upto_view v f n : map v (dupto f n) = upto (fun k => v (f k)) n.
Proof. unfold dupto, upto. apply map_map. Qed.

Lemma duplex_fair : forall opsa opsb Ra Rb wa wb f,
  legible opsa Ra -> legible opsb Rb ->
  Forall (fits (s_mask (w_sock wa))) opsa -> Forall (fits (s_mask (w_sock wb))) opsb ->
  idle wa -> idle wb -> (exists l, s_listener (w_sock wa) = Some l) -> (exists l, s_listener (w_sock wb) = Some l) -> dfair f ->
  exists N, forall n, (N <= n)%nat -> forall s, drun opsa opsb (dupto f n) wa wb = s ->
  fst (p_tx (d_a s)) = ADone /\ fst (p_tx (d_b s)) = ADone /\ fst (p_rx (d_a s)) = AWait /\ fst (p_rx (d_b s)) = AWait /\
  transcript (w_log (p_world (d_b s))) = Ra /\
  transcript (w_log (p_world (d_a s))) = Rb.
Proof.
  intros opsa opsb Ra Rb wa wb f Pa Pb Fa Fb Ia Ib La Lb Hf.
  assert (fair (fun k => view_a (f k))) as Fva.
  { intros k Hk n. destruct k as [|[|[|[|[|k]]]]]; [destruct (Hf 0%nat ltac:(lia) n) as (m & H1 & H2)|destruct (Hf 3%nat ltac:(lia) n) as (m & H1 & H2)|
      destruct (Hf 1%nat ltac:(lia) n) as (m & H1 & H2)|destruct (Hf 4%nat ltac:(lia) n) as (m & H1 & H2)|destruct (Hf 5%nat ltac:(lia) n) as (m & H1 & H2)|lia];
    (exists m; split; [exact H1|]; destruct (f m); cbn in *; congruence). }
  assert (fair (fun k => view_b (f k))) as Fvb.
  { intros k Hk n. destruct k as [|[|[|[|[|k]]]]]; [destruct (Hf 2%nat ltac:(lia) n) as (m & H1 & H2)|destruct (Hf 1%nat ltac:(lia) n) as (m & H1 & H2)|
      destruct (Hf 3%nat ltac:(lia) n) as (m & H1 & H2)|destruct (Hf 5%nat ltac:(lia) n) as (m & H1 & H2)|destruct (Hf 4%nat ltac:(lia) n) as (m & H1 & H2)|lia];
    (exists m; split; [exact H1|]; destruct (f m); cbn in *; congruence). }
  destruct (oneway_fair opsa Ra wa wb wb _ Pa Fa Ia Ib Lb Fva) as [N1 HN1].
  destruct (oneway_fair opsb Rb wb wa wa _ Pb Fb Ib Ia La Fvb) as [N2 HN2].
  exists (Nat.max N1 N2). intros n Hn s <-. destruct (HN1 n ltac:(lia)) as (A1 & A2 & A3). destruct (HN2 n ltac:(lia)) as (B1 & B2 & B3).
  destruct (split_run opsa opsb wa wb (dupto f n) Ia Ib) as (H1 & H2 & _). rewrite !upto_view in H1, H2.
  rewrite (split_log _ _ _ H1), (split_log _ _ _ H2).
  destruct H1 as ((T1 & _) & (R1 & _) & _). destruct H2 as ((T2 & _) & (R2 & _) & _). rewrite T1, T2, R1, R2. auto 7.
Qed.

(** * C60 *)
(** At any time, whatever the interleaving: no coroutine has failed; either listener has been shown a beginning of what the other
    endpoint was asked to send. *)
Theorem C60_any_time : forall opsa opsb wa wb evs s,
  Forall plain_send opsa -> Forall plain_send opsb ->
  Forall (fits (s_mask (w_sock wa))) opsa -> Forall (fits (s_mask (w_sock wb))) opsb ->
  idle wa -> idle wb -> drun opsa opsb evs wa wb = s ->
  Forall (fun st => st = ARun \/ st = AWait \/ st = ADone) [fst (p_tx (d_a s)); fst (p_tx (d_b s))] /\
  Forall (fun st => st = ARun \/ st = AWait) [fst (p_rx (d_a s)); fst (p_rx (d_b s))] /\
  prefix (transcript (w_log (p_world (d_b s)))) (flat_map received opsa) /\
  prefix (transcript (w_log (p_world (d_a s)))) (flat_map received opsb).
Proof.
  intros opsa opsb wa wb evs s Pa Pb Fa Fb Ia Ib E.
  exact (duplex_any_time opsa opsb _ _ wa wb evs s (plain_legible _ Pa (fits_63 _ _ Fa)) (plain_legible _ Pb (fits_63 _ _ Fb)) Fa Fb Ia Ib E).
Qed.
Print Assumptions C60_any_time.


(** If every coroutine and both directions keep going: from some time on all sends are complete and both listeners have been
    shown everything, and go on listening. *)
Theorem C60_fair : forall opsa opsb wa wb f,
  Forall plain_send opsa -> Forall plain_send opsb ->
  Forall (fits (s_mask (w_sock wa))) opsa -> Forall (fits (s_mask (w_sock wb))) opsb ->
  idle wa -> idle wb -> (exists l, s_listener (w_sock wa) = Some l) -> (exists l, s_listener (w_sock wb) = Some l) -> dfair f ->
  exists N, forall n, (N <= n)%nat -> forall s, drun opsa opsb (dupto f n) wa wb = s ->
  fst (p_tx (d_a s)) = ADone /\ fst (p_tx (d_b s)) = ADone /\ fst (p_rx (d_a s)) = AWait /\ fst (p_rx (d_b s)) = AWait /\
  transcript (w_log (p_world (d_b s))) = flat_map received opsa /\
  transcript (w_log (p_world (d_a s))) = flat_map received opsb.
Proof.
  intros opsa opsb wa wb f Pa Pb Fa Fb Ia Ib La Lb Hf.
  exact (duplex_fair opsa opsb _ _ wa wb f (plain_legible _ Pa (fits_63 _ _ Fa)) (plain_legible _ Pb (fits_63 _ _ Fb)) Fa Fb Ia Ib La Lb Hf).
Qed.
Print Assumptions C60_fair.

Definition all_in_turn (n : nat) : dev :=
  match Nat.modulo n 6 with 0 => TxA | 1 => RxA | 2 => TxB | 3 => RxB | 4 => NetAB 1 | _ => NetBA 0 end%nat.
Example C60_nonvacuous :
  let opsa := [SoText (Some [x68; x69]); SoPing (Some [x70])] in
  let opsb := [SoBinary (Some [x01; x02; x03]); SoText None] in
  let wa := World [] [WAccept 3; WIo IoRetry] [] (fun i => n2b (N.of_nat i)) 4 [] (set_listener (sock_new true) (Some 3%nat)) in
  let wb := aworld [] [WIo IoRetry; WAccept 1] in
  let s := drun opsa opsb (dupto all_in_turn 500) wa wb in
  Forall plain_send opsa /\ Forall plain_send opsb /\ Forall (fits true) opsa /\ Forall (fits false) opsb /\ idle wa /\ idle wb /\ dfair all_in_turn /\
  map snd (w_log (p_world (d_a s))) = [EvMsg 2 [x01]; EvMsg 2 [x02]; EvMsg 2 [x03]; EvEnd 2; EvEnd 1] /\
  map snd (w_log (p_world (d_b s))) = [EvMsg 1 [x68; x69]; EvEnd 1; EvPing [x70]].
Proof.
  cbv zeta. split; [repeat constructor; vm_compute; discriminate|]. split; [repeat constructor; vm_compute; discriminate|].
  split; [repeat constructor; vm_compute; discriminate|]. split; [repeat constructor; vm_compute; discriminate|].
  split; [repeat constructor|]. split; [repeat constructor|].
  split.
  { intros k Hk n. exists (6 * n + k)%nat. split; [lia|]. unfold all_in_turn. replace (Nat.modulo (6 * n + k) 6) with k.
    - destruct k as [|[|[|[|[|[|k]]]]]]; try reflexivity. lia.
    - rewrite Nat.add_comm, Nat.mul_comm, Nat.mod_add by lia. symmetry. now apply Nat.mod_small. }
  split; vm_compute; reflexivity.
Qed.
