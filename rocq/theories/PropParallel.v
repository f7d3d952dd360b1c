(** Property theorems: C90, coroutines of one socket on several threads of the executor. *)
From Verif Require Import Bytes Frame World WebSocket AsyncWebSocket SpecFrame SpecSend SpecListen SpecApi SpecReply SpecAsync SpecThreads Process SpecRace
  ProofStream Concurrent SpecConcurrent SpecProcess Coroutines SpecCoroutines ProofAsync ProofAsync2 ProofCoroutines3 ProofCoroutines4 SpecParallel.
Local Open Scope N_scope.
Local Arguments takeN : simpl never.
Local Arguments dropN : simpl never.
Local Arguments lenN : simpl never.
Local Arguments be_enc : simpl never.
Local Arguments be_dec : simpl never.
Local Arguments packHeaderBits : simpl never.
Local Arguments unpackHeaderBits : simpl never.
Local Arguments xor_from : simpl never.
Notation step := AsyncWebSocket.step.

(** Incoming side, log and fields of one world, outgoing side and random source of another. *)
Definition joinw (r t : world) : world := World (w_in r) (w_wr t) (w_out t) (w_rnd t) (w_rpos t) (w_log r) (w_sock r).
Definition in_world (w : world) (c : conf) : conf := Conf (c_hdr c) (c_short c) (c_stack c) w.
Lemma joinw_self w : joinw w w = w.
Proof. now destruct w. Qed.

Definition tx2 (co : cor) : Prop :=
  match co with
  | CoSend _ _ _ _ _ | CoWrite _ _ | CoCatch => True
  | CoUser cs _ => Forall only_sends cs
  | _ => False
  end.
Lemma unwind_forall (P : cor -> Prop) st st' : Forall P st -> unwind st = Some st' -> Forall P st'.
Proof.
  induction 1 as [|co st H HK IH]; [discriminate|]. destruct co; cbn [unwind]; auto. intros [= <-]. exact HK.
Qed.

Section Tx.
Variable react : react_t.
Definition txok (r : world) (sc scj : status * conf) : Prop :=
  scj = (fst sc, in_world (joinw r (c_world (snd sc))) (snd sc)) /\ Forall tx2 (c_stack (snd sc)).
Lemma txfail e hdr short K r t : Forall tx2 K -> txok r (fail e (Conf hdr short K t)) (fail e (Conf hdr short K (joinw r t))).
Proof.
  intros H. unfold fail. cbn [c_stack]. destruct (unwind K) as [K'|] eqn:E; (split; [reflexivity|]); cbn; [|constructor]. eapply unwind_forall; eassumption.
Qed.
Lemma write_joinw d r t : writeExactAsyncInline d (joinw r t) = (fst (writeExactAsyncInline d t), joinw r (snd (writeExactAsyncInline d t))).
Proof.
  unfold writeExactAsyncInline. destruct d as [|b d]; [reflexivity|]. cbn [joinw w_wr].
  destruct (w_wr t) as [|[n|[]|] q]; reflexivity.
Qed.

Lemma step_tx2 r c : Forall tx2 (c_stack c) -> s_mask (w_sock r) = s_mask (w_sock (c_world c)) ->
  txok r (step react c) (step react (in_world (joinw r (c_world c)) c)).
Proof.
  destruct c as [hdr short st t]. unfold in_world; cbn [c_stack c_world c_hdr c_short]. intros HK Ha.
  destruct HK as [|co K Hco HK]; [split; [reflexivity|constructor]|].
  assert (forall st' hdr' short' K' t', Forall tx2 K' -> txok r (st', Conf hdr' short' K' t') (st', Conf hdr' short' K' (joinw r t'))) as Hok
    by (intros st' hdr' short' K' t' H1; split; [reflexivity|exact H1]).
  assert (forall d (A : bytes -> list cor) (B : bytes -> list cor) st1, (forall d, Forall tx2 (A d)) -> (forall d, Forall tx2 (B d)) -> Forall tx2 st1 ->
     txok r (match writeExactAsyncInline d t with
             | (INext x, w') => (ARun, Conf hdr short (A x) w')
             | (IAgain x, w') => (ARun, Conf hdr short (B x) w')
             | (IWait, w') => (AWait, Conf hdr short st1 w')
             | (IFail, w') => fail ExAsyncIO (Conf hdr short K w')
             end)
            (match writeExactAsyncInline d (joinw r t) with
             | (INext x, w') => (ARun, Conf hdr short (A x) w')
             | (IAgain x, w') => (ARun, Conf hdr short (B x) w')
             | (IWait, w') => (AWait, Conf hdr short st1 w')
             | (IFail, w') => fail ExAsyncIO (Conf hdr short K w')
             end)) as HW.
  { intros d A B st1 HA HB H1. rewrite write_joinw. destruct (writeExactAsyncInline d t) as [[d'|d'| |] w']; cbn [fst snd]; [apply Hok; auto..|apply txfail; exact HK]. }
  destruct co as [|p|l p|l u a g p|fin opcode m h p|h p|cs freed|]; cbn in Hco; try contradiction; cbn [step].
  - destruct p as [| |d|]; cbn [step_send].
    + assert (forall n m' p', txok r
        (let '(h', co, w') := sendFrameHeaderAsync h fin opcode n t in (ARun, Conf hdr short (co :: CoSend fin opcode m' h' p' :: K) w'))
        (let '(h', co, w') := sendFrameHeaderAsync h fin opcode n (joinw r t) in (ARun, Conf hdr short (co :: CoSend fin opcode m' h' p' :: K) w'))) as H.
      { intros n m' p'. unfold sendFrameHeaderAsync. cbn [joinw w_sock w_rnd w_rpos h_hasMask]. rewrite Ha.
        destruct (s_mask (w_sock t)); cbn [h_hasMask]; (split; [reflexivity|repeat constructor; exact HK]). }
      destruct m as [[|b bs]|]; apply H.
    + destruct (h_hasMask h); [destruct (2 ^ 31 <=? _)|]; apply Hok; repeat constructor; assumption.
    + apply (HW d (fun _ => K) (fun d' => CoSend fin opcode m h (SfWrite d') :: K)); intros; repeat constructor; assumption.
    + apply Hok; assumption.
  - destruct p as [d| |d| |d]; cbn [step_writeFrame].
    + apply (HW d (fun _ => CoWrite h WfOnBb :: K) (fun d' => CoWrite h (WfAct d') :: K)); intros; repeat constructor; assumption.
    + destruct (_ =? 2); [|destruct (_ =? 3)]; apply Hok; repeat constructor; assumption.
    + apply (HW d (fun _ => CoWrite h WfOnLen :: K) (fun d' => CoWrite h (WfWriteLen d') :: K)); intros; repeat constructor; assumption.
    + destruct (h_hasMask h); apply Hok; repeat constructor; assumption.
    + apply (HW d (fun _ => K) (fun d' => CoWrite h (WfWriteMask d') :: K)); intros; repeat constructor; assumption.
  - destruct Hco as [|c cs Hc Hcs]; cbn [step_user app]; [apply Hok; assumption|].
    assert (forall op, tx2 (start_send op)) as Hs by (intros op; unfold start_send; destruct (send_args op) as [[? ?] ?]; exact I).
    destruct c as [| | |catch op| | |]; cbn in Hc; try contradiction.
    + apply Hok. constructor; [apply Hs|]. destruct catch; cbn [app]; repeat constructor; assumption.
    + destruct freed; apply Hok; repeat constructor; assumption.
    + apply txfail; exact HK.
    + apply Hok. repeat constructor; try assumption.
  - apply Hok; assumption.
Qed.
End Tx.

Section Rx.
Variable react : react_t.
Definition rxok (t : world) (sc scj : status * conf) : Prop := scj = (fst sc, in_world (joinw (c_world (snd sc)) t) (snd sc)).
Lemma rxfail e hdr short K r t : rxok t (fail e (Conf hdr short K r)) (fail e (Conf hdr short K (joinw r t))).
Proof. unfold fail, rxok. cbn [c_stack]. destruct (unwind K); reflexivity. Qed.
Lemma readExact_joinw n got r t : readExactAsyncInline n got (joinw r t) = (fst (readExactAsyncInline n got r), joinw (snd (readExactAsyncInline n got r)) t).
Proof.
  unfold readExactAsyncInline. cbn [joinw w_in w_sock]. destruct (n <=? lenN got); [reflexivity|].
  destruct (read_raw (n - lenN got) (w_in r) (w_sock r)) as [[[d|[]|] s'] k']; reflexivity.
Qed.
Lemma readSome_joinw n r t : readSomeAsyncInline n (joinw r t) = (fst (readSomeAsyncInline n r), joinw (snd (readSomeAsyncInline n r)) t).
Proof.
  unfold readSomeAsyncInline. cbn [joinw w_in w_sock]. destruct (n <=? 0)%Z; [reflexivity|].
  destruct (read_raw (Z.to_N n) (w_in r) (w_sock r)) as [[[d|[]|] s'] k']; reflexivity.
Qed.

Lemma step_rx2 t c : match c_stack c with CoSend _ _ _ _ _ :: _ | CoWrite _ _ :: _ => False | _ => True end ->
  rxok t (step react c) (step react (in_world (joinw (c_world c) t) c)).
Proof.
  destruct c as [hdr short st r]. unfold in_world; cbn [c_stack c_world c_hdr c_short]. intros Ht.
  destruct st as [|co K]; [reflexivity|].
  assert (forall st' hdr' short' K' r', rxok t (st', Conf hdr' short' K' r') (st', Conf hdr' short' K' (joinw r' t))) as Hok by reflexivity.
  destruct co as [|p|l p|l u a g p|fin opcode m h p|h p|cs freed|]; try contradiction; cbn [step].
  - destruct (h_opcode hdr =? OPCODE_CLOSE); apply Hok.
  - destruct p as [got|bb|tt0 got|tt0 got|got]; cbn [step_readFrame];
      try (rewrite readExact_joinw; match goal with |- context [readExactAsyncInline ?n ?g r] => destruct (readExactAsyncInline n g r) as [[d|d| |] w'] end;
           cbn [fst snd]; first [apply rxfail|apply Hok]).
    + destruct (unpackHeaderBits (be_dec bb) hdr) as [h len]. destruct (len <? 126); [|destruct (len =? 126); [|destruct (len =? 127)]];
        first [apply rxfail|apply Hok].
    + set (h := if tt0 =? 2 then _ else _). destruct (h_hasMask h); apply Hok.
  - assert (forall (r1 : world) us nx sh, rxok t
      match readPayloadAsync hdr us r1 with
      | inl e => fail e (Conf hdr sh K r1)
      | inr co => (ARun, Conf hdr sh (co :: CoHandle l nx :: K) r1)
      end
      match readPayloadAsync hdr us (joinw r1 t) with
      | inl e => fail e (Conf hdr sh K (joinw r1 t))
      | inr co => (ARun, Conf hdr sh (co :: CoHandle l nx :: K) (joinw r1 t))
      end) as HP.
    { intros r1 us nx sh. unfold readPayloadAsync. cbn [joinw w_sock]. destruct (_ && _)%bool; [apply rxfail|].
      destruct (_ <? 0)%Z; [apply rxfail|apply Hok]. }
    assert (forall ev, rxok t
      match l with
      | Some li => let (co, w') := call_listener react li ev false r in (ARun, Conf hdr short (co :: CoHandle l HfFinish :: K) w')
      | None => (ARun, Conf hdr short K r)
      end
      match l with
      | Some li => let (co, w') := call_listener react li ev false (joinw r t) in (ARun, Conf hdr short (co :: CoHandle l HfFinish :: K) w')
      | None => (ARun, Conf hdr short K (joinw r t))
      end) as HC.
    { intros ev. destruct l as [li|]; [|apply Hok]. reflexivity. }
    destruct p; cbn [step_handle]; try apply HC; [|apply Hok].
    assert (forall nx, rxok t
      (let (ok, w') := checkForContinuationA hdr r in
       if ok then match readPayloadAsync hdr false w' with
                  | inl e => fail e (Conf hdr short K w')
                  | inr co => (ARun, Conf hdr short (co :: CoHandle l nx :: K) w') end
       else fail ExContinuationExpected (Conf hdr short K w'))
      (let (ok, w') := checkForContinuationA hdr (joinw r t) in
       if ok then match readPayloadAsync hdr false w' with
                  | inl e => fail e (Conf hdr short K w')
                  | inr co => (ARun, Conf hdr short (co :: CoHandle l nx :: K) w') end
       else fail ExContinuationExpected (Conf hdr short K w'))) as HD.
    { intros nx. unfold checkForContinuationA. cbn [joinw w_sock]. destruct (_ || _)%bool; [apply rxfail|].
      apply (HP (set_sock r (set_last (w_sock r) _))). }
    cbn [joinw w_sock].
    destruct (h_opcode hdr) as [|q].
    { destruct (s_last (w_sock r) <? 0)%Z; [apply rxfail|apply HP]. }
    do 4 (try (destruct q as [q|q|])); first [apply HD|apply HP|apply rxfail].
  - destruct p as [|n|d|]; cbn [step_payload].
    + cbn [joinw w_sock]. destruct (g <? h_len hdr)%Z; [apply Hok|].
      destruct (_ && _)%bool; [|apply Hok]. destruct l as [li|]; [reflexivity|apply Hok].
    + rewrite readSome_joinw. destruct (readSomeAsyncInline n r) as [[d|d| |] w']; cbn [fst snd]; [|apply Hok|apply Hok|apply rxfail].
      destruct (a <? _)%Z; apply Hok.
    + destruct d as [|b d]; [apply rxfail|]. destruct u; [apply Hok|]. destruct l as [li|]; [reflexivity|apply Hok].
    + apply Hok.
  - destruct cs as [|c cs]; cbn [step_user]; [apply Hok|]. destruct c as [| | |catch op| | |]; try reflexivity; [destruct freed; reflexivity|apply rxfail].
  - apply Hok.
Qed.
End Rx.

(** Nobody changes the configuration. *)
Definition cf (co : cor) : Prop := match co with CoUser cs _ => Forall no_config cs | _ => True end.
Definition config_of (w : world) : bool * Z := (s_mask (w_sock w), s_buf (w_sock w)).
Section Cf.
Variable react : react_t.
Hypothesis Hreact : forall l log, Forall no_config (react l log).
Definition cfok (w : world) (sc : status * conf) : Prop :=
  Forall cf (c_stack (snd sc)) /\ io_only (w_in (c_world (snd sc))) /\ config_of (c_world (snd sc)) = config_of w.
Lemma cffail e hdr short K w0 w : Forall cf K -> io_only (w_in w) -> config_of w = config_of w0 -> cfok w0 (fail e (Conf hdr short K w)).
Proof.
  intros H1 H2 H3. unfold fail, cfok. cbn [c_stack]. destruct (unwind K) eqn:E; cbn; auto. split; [|auto]. eapply unwind_forall; eassumption.
Qed.
Lemma readExact_cf n got r : io_only (w_in r) -> io_only (w_in (snd (readExactAsyncInline n got r))) /\ w_sock (snd (readExactAsyncInline n got r)) = w_sock r.
Proof.
  intros Hio. unfold readExactAsyncInline. destruct (n <=? lenN got); [auto|].
  destruct (read_raw (n - lenN got) (w_in r) (w_sock r)) as [[rr s'] k'] eqn:E. destruct (no_ext_read _ _ _ _ _ _ Hio E) as [-> Hio'].
  destruct rr as [d|[]|]; cbn; auto.
Qed.
Lemma readSome_cf n r : io_only (w_in r) -> io_only (w_in (snd (readSomeAsyncInline n r))) /\ w_sock (snd (readSomeAsyncInline n r)) = w_sock r.
Proof.
  intros Hio. unfold readSomeAsyncInline. destruct (n <=? 0)%Z; [auto|].
  destruct (read_raw (Z.to_N n) (w_in r) (w_sock r)) as [[rr s'] k'] eqn:E. destruct (no_ext_read _ _ _ _ _ _ Hio E) as [-> Hio'].
  destruct rr as [d|[]|]; cbn; auto.
Qed.
Lemma write_cf d r : w_in (snd (writeExactAsyncInline d r)) = w_in r /\ w_sock (snd (writeExactAsyncInline d r)) = w_sock r.
Proof. unfold writeExactAsyncInline. destruct d; [auto|]. destruct (w_wr r) as [|[n|[]|] q]; auto. Qed.

Lemma step_cf c : Forall cf (c_stack c) -> io_only (w_in (c_world c)) -> cfok (c_world c) (step react c).
Proof.
  destruct c as [hdr short st r]. cbn [c_stack c_world c_hdr c_short]. intros HK Hio.
  destruct HK as [|co K Hco HK]; [split; [constructor|auto]|].
  assert (forall st' hdr' short' K' r', Forall cf K' -> io_only (w_in r') -> config_of r' = config_of r -> cfok r (st', Conf hdr' short' K' r')) as Hok
    by (intros st' hdr' short' K' r' H1 H2 H3; split; [exact H1|]; split; [exact H2|exact H3]).
  assert (forall d (A : bytes -> list cor) (B : bytes -> list cor) st1, (forall d, Forall cf (A d)) -> (forall d, Forall cf (B d)) -> Forall cf st1 ->
     cfok r (match writeExactAsyncInline d r with
             | (INext x, w') => (ARun, Conf hdr short (A x) w')
             | (IAgain x, w') => (ARun, Conf hdr short (B x) w')
             | (IWait, w') => (AWait, Conf hdr short st1 w')
             | (IFail, w') => fail ExAsyncIO (Conf hdr short K w')
             end)) as HW.
  { intros d A B st1 HA HB H1. destruct (write_cf d r) as [G1 G2]. destruct (writeExactAsyncInline d r) as [[d'|d'| |] w']; cbn [fst snd] in *;
      first [apply Hok|apply cffail]; auto; try (rewrite G1; exact Hio); unfold config_of; now rewrite G2. }
  assert (forall n got (A : bytes -> header * list cor) (B : bytes -> list cor) st1, (forall d, Forall cf (snd (A d))) -> (forall d, Forall cf (B d)) -> Forall cf st1 ->
     cfok r (match readExactAsyncInline n got r with
             | (INext x, w') => (ARun, Conf (fst (A x)) short (snd (A x)) w')
             | (IAgain x, w') => (ARun, Conf hdr short (B x) w')
             | (IWait, w') => (AWait, Conf hdr short st1 w')
             | (IFail, w') => fail ExAsyncIO (Conf hdr short K w')
             end)) as HR.
  { intros n got A B st1 HA HB H1. destruct (readExact_cf n got r Hio) as [G1 G2]. destruct (readExactAsyncInline n got r) as [[d'|d'| |] w']; cbn [fst snd] in *;
      first [apply Hok|apply cffail]; auto; unfold config_of; now rewrite G2. }
  assert (forall l ev fr rest, Forall cf rest -> cfok r (let (co, w') := call_listener react l ev fr r in (ARun, Conf hdr short (co :: rest) w'))) as HL.
  { intros l ev fr rest Hr. apply Hok; [constructor; [apply Hreact|exact Hr]|exact Hio|reflexivity]. }
  destruct co as [|p|l p|l u a g p|fin opcode m h p|h p|cs freed|]; cbn [step].
  - destruct (h_opcode hdr =? OPCODE_CLOSE); apply Hok; repeat constructor; auto.
  - destruct p as [got|bb|tt0 got|tt0 got|got]; cbn [step_readFrame].
    + apply (HR 2 got (fun bb => (hdr, CoReadFrame (RfOnBb bb) :: K)) (fun d => CoReadFrame (RfAct d) :: K)); intros; repeat constructor; assumption.
    + destruct (unpackHeaderBits (be_dec bb) hdr) as [h len]. destruct (len <? 126); [|destruct (len =? 126); [|destruct (len =? 127)]];
        first [apply cffail|apply Hok]; auto; repeat constructor; assumption.
    + apply (HR (if tt0 =? 2 then 2 else 8) got (fun bb => (hdr, CoReadFrame (RfOnLen tt0 bb) :: K)) (fun d => CoReadFrame (RfReadLen tt0 d) :: K)); intros; repeat constructor; assumption.
    + set (h := if tt0 =? 2 then _ else _). destruct (h_hasMask h); apply Hok; auto; repeat constructor; assumption.
    + apply (HR 4 got (fun bb => (set_mask hdr (mask_of bb), K)) (fun d => CoReadFrame (RfReadMask d) :: K)); intros; repeat constructor; assumption.
  - assert (forall (r1 : world) us nx sh, io_only (w_in r1) -> config_of r1 = config_of r -> cfok r
      match readPayloadAsync hdr us r1 with
      | inl e => fail e (Conf hdr sh K r1)
      | inr co => (ARun, Conf hdr sh (co :: CoHandle l nx :: K) r1)
      end) as HP.
    { intros r1 us nx sh G1 G2. unfold readPayloadAsync. destruct (_ && _)%bool; [apply cffail; auto|].
      destruct (_ <? 0)%Z; [apply cffail; auto|]. apply Hok; auto; repeat constructor; assumption. }
    assert (forall ev, cfok r
      match l with
      | Some li => let (co, w') := call_listener react li ev false r in (ARun, Conf hdr short (co :: CoHandle l HfFinish :: K) w')
      | None => (ARun, Conf hdr short K r)
      end) as HC.
    { intros ev. destruct l as [li|]; [apply HL; repeat constructor; assumption|apply Hok; auto]. }
    destruct p; cbn [step_handle]; try apply HC; [|apply Hok; auto].
    assert (forall nx, cfok r
      (let (ok, w') := checkForContinuationA hdr r in
       if ok then match readPayloadAsync hdr false w' with
                  | inl e => fail e (Conf hdr short K w')
                  | inr co => (ARun, Conf hdr short (co :: CoHandle l nx :: K) w') end
       else fail ExContinuationExpected (Conf hdr short K w'))) as HD.
    { intros nx. unfold checkForContinuationA. destruct (_ || _)%bool; [apply cffail; auto|]. apply HP; [exact Hio|reflexivity]. }
    destruct (h_opcode hdr) as [|q].
    { destruct (s_last (w_sock r) <? 0)%Z; [apply cffail; auto|apply HP; auto]. }
    do 4 (try (destruct q as [q|q|])); first [apply HD|apply HP; auto|apply cffail; auto].
  - destruct p as [|n|d|]; cbn [step_payload].
    + destruct (g <? h_len hdr)%Z; [apply Hok; auto; repeat constructor; assumption|].
      destruct (_ && _)%bool; [|apply Hok; auto]. destruct l as [li|]; [apply HL; repeat constructor; assumption|apply Hok; auto].
    + destruct (readSome_cf n r Hio) as [G1 G2]. destruct (readSomeAsyncInline n r) as [[d'|d'| |] w']; cbn [fst snd] in *;
        [destruct (a <? _)%Z| | |]; first [apply Hok|apply cffail]; auto; try (unfold config_of; now rewrite G2); repeat constructor; assumption.
    + destruct d as [|b d]; [apply cffail; auto|]. destruct u; [apply Hok; auto; repeat constructor; assumption|].
      destruct l as [li|]; [apply HL; repeat constructor; assumption|apply Hok; auto; repeat constructor; assumption].
    + apply Hok; auto.
  - destruct p as [| |d|]; cbn [step_send].
    + assert (forall n m' p', cfok r
        (let '(h', co, w') := sendFrameHeaderAsync h fin opcode n r in (ARun, Conf hdr short (co :: CoSend fin opcode m' h' p' :: K) w'))) as H.
      { intros n m' p'. unfold sendFrameHeaderAsync. cbn [h_hasMask]. destruct (s_mask (w_sock r)); cbn [h_hasMask]; apply Hok; auto; repeat constructor; exact HK. }
      destruct m as [[|b bs]|]; apply H.
    + destruct (h_hasMask h); [destruct (2 ^ 31 <=? _)|]; apply Hok; auto; repeat constructor; assumption.
    + apply (HW d (fun _ => K) (fun d' => CoSend fin opcode m h (SfWrite d') :: K)); intros; repeat constructor; assumption.
    + apply Hok; auto.
  - destruct p as [d| |d| |d]; cbn [step_writeFrame].
    + apply (HW d (fun _ => CoWrite h WfOnBb :: K) (fun d' => CoWrite h (WfAct d') :: K)); intros; repeat constructor; assumption.
    + destruct (_ =? 2); [|destruct (_ =? 3)]; apply Hok; auto; repeat constructor; assumption.
    + apply (HW d (fun _ => CoWrite h WfOnLen :: K) (fun d' => CoWrite h (WfWriteLen d') :: K)); intros; repeat constructor; assumption.
    + destruct (h_hasMask h); apply Hok; auto; repeat constructor; assumption.
    + apply (HW d (fun _ => K) (fun d' => CoWrite h (WfWriteMask d') :: K)); intros; repeat constructor; assumption.
  - cbn in Hco. destruct Hco as [|c cs Hc Hcs]; cbn [step_user app]; [apply Hok; auto|].
    assert (forall op, cf (start_send op)) as Hs by (intros op; unfold start_send; destruct (send_args op) as [[? ?] ?]; exact I).
    destruct c as [| | |catch op| | |]; cbn in Hc; try contradiction.
    + apply Hok; auto; repeat constructor; assumption.
    + apply Hok; auto; repeat constructor; assumption.
    + apply Hok; auto. constructor; [apply Hs|]. destruct catch; cbn [app]; repeat constructor; assumption.
    + destruct freed; apply Hok; auto; repeat constructor; assumption.
    + apply cffail; auto.
    + apply Hok; auto; repeat constructor; assumption.
  - apply Hok; auto.
Qed.
End Cf.

(** Coroutine 0 listens, the others send only. *)
Definition pinv (s : crowd_t) : Prop :=
  Forall cf (k_stack (fst s 0%nat)) /\ (forall j, j <> 0%nat -> Forall tx2 (k_stack (fst s j))) /\ io_only (w_in (snd s)).
Lemma tx2_cf co : tx2 co -> cf co.
Proof.
  destruct co; cbn; auto. intros H. eapply Forall_impl; [|exact H]. intros []; cbn; tauto.
Qed.
Lemma io_app a b : io_only a -> io_only b -> io_only (a ++ b).
Proof. unfold io_only. intros H1 H2. apply Forall_app. auto. Qed.

Section Ticks.
Variable react : react_t.
Lemma ktick_going k w : going (k_status k) ->
  ktick react k w = (let (st, c) := step react (Conf (k_hdr k) (k_short k) (k_stack k) w) in (Task st (c_hdr c) (c_short c) (c_stack c), c_world c)).
Proof. intros H. unfold ktick. now rewrite tick_going. Qed.
Lemma ktick_tx r k w : Forall tx2 (k_stack k) -> s_mask (w_sock r) = s_mask (w_sock w) ->
  ktick react k (joinw r w) = (fst (ktick react k w), joinw r (snd (ktick react k w))) /\ Forall tx2 (k_stack (fst (ktick react k w))).
Proof.
  intros H1 H2. destruct (going_dec (k_status k)) as [Hg|Hg].
  - rewrite !ktick_going by exact Hg. destruct (step_tx2 react r (Conf (k_hdr k) (k_short k) (k_stack k) w) H1 H2) as [E F].
    unfold in_world in E. cbn [c_hdr c_short c_stack c_world] in E. rewrite E. destruct (step react (Conf (k_hdr k) (k_short k) (k_stack k) w)) as [st c].
    cbn in *. auto.
  - rewrite !tick_stopped by exact Hg. auto.
Qed.
Lemma ktick_rx t k w : sending k = false -> ktick react k (joinw w t) = (fst (ktick react k w), joinw (snd (ktick react k w)) t).
Proof.
  intros H1. destruct (going_dec (k_status k)) as [Hg|Hg].
  - rewrite !ktick_going by exact Hg.
    assert (match k_stack k with CoSend _ _ _ _ _ :: _ | CoWrite _ _ :: _ => False | _ => True end) as H by (unfold sending in H1; destruct (k_stack k) as [|[]]; auto; discriminate).
    pose proof (step_rx2 react t (Conf (k_hdr k) (k_short k) (k_stack k) w) H) as E. unfold rxok in E.
    unfold in_world in E. cbn [c_hdr c_short c_stack c_world] in E. rewrite E. destruct (step react (Conf (k_hdr k) (k_short k) (k_stack k) w)) as [st c].
    reflexivity.
  - rewrite !tick_stopped by exact Hg. auto.
Qed.
Hypothesis Hreact : forall l log, Forall no_config (react l log).
Lemma ktick_cf k w : Forall cf (k_stack k) -> io_only (w_in w) ->
  Forall cf (k_stack (fst (ktick react k w))) /\ io_only (w_in (snd (ktick react k w))) /\ config_of (snd (ktick react k w)) = config_of w.
Proof.
  intros H1 H2. destruct (going_dec (k_status k)) as [Hg|Hg].
  - rewrite !ktick_going by exact Hg. pose proof (step_cf react Hreact (Conf (k_hdr k) (k_short k) (k_stack k) w) H1 H2) as E.
    destruct (step react (Conf (k_hdr k) (k_short k) (k_stack k) w)) as [st c]. exact E.
  - rewrite !tick_stopped by exact Hg. auto.
Qed.
Lemma pinv_cf s i : pinv s -> Forall cf (k_stack (fst s i)).
Proof.
  intros (H1 & H2 & _). destruct i; [exact H1|]. eapply Forall_impl; [exact tx2_cf|]. apply H2. discriminate.
Qed.
Lemma pinv_step e s : io_only (arrived [e]) -> pinv s -> pinv (kstep react e s).
Proof.
  intros Hio Hs. destruct e as [i|rs]; cbn [kstep].
  - pose proof (ktick_cf (fst s i) (snd s) (pinv_cf s i Hs) (proj2 (proj2 Hs))) as (G1 & G2 & _).
    destruct Hs as (H1 & H2 & H3).
    destruct (ktick react (fst s i) (snd s)) as [k w] eqn:E. cbn [fst snd] in *. split; [|split].
    + cbn [fst]. destruct (Nat.eqb_spec 0 i); [exact G1|exact H1].
    + intros j Hj. cbn [fst]. destruct (Nat.eqb_spec j i) as [->|]; [|apply H2; exact Hj].
      pose proof (proj2 (ktick_tx (snd s) (fst s i) (snd s) (H2 i Hj) eq_refl)) as G. now rewrite E in G.
    + exact G2.
  - destruct Hs as (H1 & H2 & H3). cbn [arrived] in Hio. rewrite app_nil_r in Hio. split; [exact H1|]. split; [exact H2|]. cbn. apply io_app; assumption.
Qed.
Lemma pinv_run evs : io_only (arrived evs) -> forall s, pinv s -> pinv (krun react evs s).
Proof.
  induction evs as [|e evs IH]; intros Hio s Hs; [exact Hs|]. cbn [krun fold_left].
  assert (io_only (arrived [e]) /\ io_only (arrived evs)) as [G1 G2].
  { destruct e; cbn [arrived] in *; [split; [constructor|exact Hio]|]. rewrite app_nil_r. unfold io_only in *. now apply Forall_app in Hio. }
  apply (IH G2). now apply pinv_step.
Qed.
Lemma pinv_init work w : io_only (w_in w) -> (forall i, Forall only_sends (work i)) -> pinv (crowd_init work w).
Proof.
  intros H1 H2. split; [cbn; repeat constructor|]. split; [|exact H1]. intros [|j] Hj; [congruence|]. cbn. repeat constructor. apply H2.
Qed.
End Ticks.

Lemma with_cell_twice c v w : with_cell c v (with_cell c v w) = with_cell c v w.
Proof. destruct c, w as [? ? ? ? ? ? []]; reflexivity. Qed.
Lemma ignores_preserves react k w c : ignores react k w c -> preserves react k w c.
Proof. intros H v. cbn. rewrite H. cbn [snd]. apply with_cell_twice. Qed.
Lemma joinw_cell c v w : c = Incoming \/ c = FListener \/ c = FLast -> joinw (with_cell c v w) w = with_cell c v w.
Proof. intros [->|[->| ->]]; destruct w as [? ? ? ? ? ? []]; reflexivity. Qed.

(** What a sending coroutine does to the rest of the world, and what it keeps. *)
Lemma ktick_tx_keeps react k w : Forall tx2 (k_stack k) -> let w' := snd (ktick react k w) in w_in w' = w_in w /\ w_log w' = w_log w /\ w_sock w' = w_sock w.
Proof.
  intros H. pose proof (proj1 (ktick_tx react w k w H eq_refl)) as E. rewrite joinw_self in E. cbn.
  assert (snd (ktick react k w) = joinw w (snd (ktick react k w))) as -> by (rewrite E at 1; reflexivity). auto.
Qed.
Lemma ktick_rx_keeps react k w : sending k = false -> let w' := snd (ktick react k w) in w_out w' = w_out w /\ w_wr w' = w_wr w /\ w_rnd w' = w_rnd w /\ w_rpos w' = w_rpos w.
Proof.
  intros H. pose proof (ktick_rx react w k w H) as E. rewrite joinw_self in E. cbn.
  assert (snd (ktick react k w) = joinw (snd (ktick react k w)) w) as -> by (rewrite E at 1; reflexivity). auto.
Qed.
Lemma sender_ignores react k w c : Forall tx2 (k_stack k) -> c = Incoming \/ c = FListener \/ c = FLast -> ignores react k w c.
Proof.
  intros H Hc v. rewrite <- (joinw_cell c v w Hc) at 1.
  rewrite (proj1 (ktick_tx react (with_cell c v w) k w H ltac:(destruct Hc as [->|[->| ->]]; reflexivity))).
  f_equal. destruct (ktick_tx_keeps react k w H) as (E1 & E2 & E3).
  destruct Hc as [->|[->| ->]]; destruct (snd (ktick react k w)) as [? ? ? ? ? ? ?]; cbn in *; subst; destruct w as [? ? ? ? ? ? []]; reflexivity.
Qed.

Theorem C90_race_free react work w evs c :
  io_only (w_in w) -> io_only (arrived evs) -> (forall l log, Forall no_config (react l log)) -> (forall i, Forall only_sends (work i)) ->
  In c [Incoming; FConfig; FListener; FLast] ->
  ~ SpecParallel.race_on react c (krun react evs (crowd_init work w)).
Proof.
  intros H1 H2 H3 H4 Hc (i & j & Hij & Hi & Hj).
  assert (pinv (krun react evs (crowd_init work w))) as Hs by (apply pinv_run; auto; now apply pinv_init).
  set (s := krun react evs (crowd_init work w)) in *. clearbody s.
  assert (c = FConfig \/ (c = Incoming \/ c = FListener \/ c = FLast)) as [->|Hc'] by (cbn in Hc; intuition auto).
  - apply Hi. intros v. cbn zeta. destruct (ktick_cf react H3 (fst s i) (with_cell SpecParallel.FConfig v (snd s)) (pinv_cf s i Hs) (proj2 (proj2 Hs))) as (_ & _ & E).
    destruct (snd (ktick react (fst s i) (with_cell SpecParallel.FConfig v (snd s)))) as [? ? ? ? ? ? []]. unfold config_of in E. cbn in E.
    injection E as -> ->. reflexivity.
  - destruct Hs as (_ & Ht & _). destruct j as [|j].
    + apply Hi, ignores_preserves, sender_ignores; [apply Ht; congruence|exact Hc'].
    + apply Hj, sender_ignores; [apply Ht; discriminate|exact Hc'].
Qed.

(** A coroutine that only sends and is not in the middle of a send does nothing to the world, whatever the world. *)
Lemma idle_tick react k w w2 : Forall tx2 (k_stack k) -> sending k = false -> s_mask (w_sock w2) = s_mask (w_sock w) ->
  ktick react k w2 = (fst (ktick react k w), w2).
Proof.
  intros H1 H2 H3. pose proof (proj1 (ktick_tx react w2 k w H1 H3)) as E.
  pose proof (ktick_rx react w2 k (joinw w2 w) H2) as F. rewrite E in F. cbn [fst snd] in F.
  assert (joinw (joinw w2 w) w2 = w2) as G by now destruct w2. rewrite G in F. rewrite F. f_equal.
  now destruct w2.
Qed.

(** Two methods that the executor may run at the same time have, in either order, the same effect, unless both are methods of coroutines in the middle of
    a send. *)
Theorem C90_parallel react work w evs i j :
  io_only (w_in w) -> io_only (arrived evs) -> (forall l log, Forall no_config (react l log)) -> (forall i, Forall only_sends (work i)) ->
  let s := krun react evs (crowd_init work w) in
  i <> j -> sending (fst s i) = false -> commute react i j s.
Proof.
  intros H1 H2 H3 H4 s Hij Hsend.
  assert (pinv s) as Hs by (apply pinv_run; auto; now apply pinv_init).
  clearbody s. destruct s as [f u]. cbn [fst] in Hsend.
  pose proof (ktick_cf react H3 _ u (pinv_cf (f, u) i Hs) (proj2 (proj2 Hs))) as (_ & _ & Hcf). cbn [fst snd] in Hcf.
  pose proof (ktick_cf react H3 _ u (pinv_cf (f, u) j Hs) (proj2 (proj2 Hs))) as (_ & _ & Hcj). cbn [fst snd] in Hcj.
  destruct Hs as (_ & Ht & _). cbn [fst snd] in Ht.
  assert (exists x, ktick react (f j) (snd (ktick react (f i) u)) = (fst (ktick react (f j) u), x)
                 /\ ktick react (f i) (snd (ktick react (f j) u)) = (fst (ktick react (f i) u), x)) as (x & F1 & F2).
  { destruct (Nat.eq_dec j 0) as [->|Hj].
    - pose proof (Ht i Hij) as Hi. exists (snd (ktick react (f 0%nat) u)).
      rewrite (idle_tick react (f i) u u Hi Hsend eq_refl). cbn [snd]. split; [now destruct (ktick react (f 0%nat) u)|].
      rewrite (idle_tick react (f i) u _ Hi Hsend); [reflexivity|]. unfold config_of in Hcj. congruence.
    - specialize (Ht j Hj).
      pose proof (ktick_tx_keeps react (f j) u Ht) as (A1 & A2 & A3). pose proof (ktick_rx_keeps react (f i) u Hsend) as (B1 & B2 & B3 & B4).
      set (w0 := snd (ktick react (f i) u)) in *. set (wj := snd (ktick react (f j) u)) in *.
      assert (w0 = joinw w0 u) as E0 by (destruct w0; cbn in *; subst; reflexivity).
      assert (wj = joinw u wj) as Ej by (destruct wj; cbn in *; subst; reflexivity).
      exists (joinw w0 wj). split.
      + rewrite E0 at 1. apply (ktick_tx react w0 (f j) u Ht). unfold config_of in Hcf. congruence.
      + rewrite Ej at 1. apply (ktick_rx react wj (f i) u Hsend). }
  unfold commute. cbn [kstep fst snd].
  destruct (ktick react (f i) u) as [k0 x0] eqn:G0. destruct (ktick react (f j) u) as [kj xj] eqn:Gj. cbn [fst snd] in *.
  assert ((j =? i)%nat = false) as -> by (apply Nat.eqb_neq; congruence). assert ((i =? j)%nat = false) as -> by (apply Nat.eqb_neq; congruence).
  rewrite F1, F2. cbn [fst snd]. split; [|reflexivity]. intros m. destruct (Nat.eqb_spec m j), (Nat.eqb_spec m i); subst; congruence.
Qed.

(** setListener from another coroutine than the listening one is a race: the listening coroutine is about to read the field. *)
Theorem C90_setListener_races react work w i l r : i <> 0%nat -> work i = CSetListener l :: r ->
  SpecParallel.race_on react SpecParallel.FListener (crowd_init work w).
Proof.
  intros Hi Hw. exists i, 0%nat. split; [exact Hi|]. destruct i as [|i]; [congruence|]. split.
  - intros H. specialize (H (set_sock w (set_listener (w_sock w) (match l with None => Some 0%nat | Some _ => None end)))).
    unfold ktick, crowd_init in H. cbn [fst snd k_status k_hdr k_short k_stack] in H. rewrite Hw in H. cbn in H.
    apply (f_equal (fun w => s_listener (w_sock w))) in H. cbn in H. destruct l; discriminate.
  - intros H. pose proof (H (set_sock w (set_listener (w_sock w) None))) as H1. specialize (H (set_sock w (set_listener (w_sock w) (Some 0%nat)))).
    rewrite surjective_pairing in H. rewrite surjective_pairing in H1.
    apply (f_equal (fun x => k_stack (fst x))) in H. apply (f_equal (fun x => k_stack (fst x))) in H1. cbn in H, H1. congruence.
Qed.

(** setConfig in one coroutine while another is about to send is a race. *)
Theorem C90_setConfig_races react work w i j m b r catch op r' : i <> 0%nat -> j <> 0%nat -> i <> j ->
  work i = CSetConfig m b :: r -> work j = CSend catch op :: r' ->
  SpecParallel.race_on react SpecParallel.FConfig (krun react [CTick j] (crowd_init work w)).
Proof.
  intros Hi Hj Hij Hw Hw'. exists i, j. split; [exact Hij|]. destruct i as [|i]; [congruence|]. destruct j as [|j]; [congruence|].
  assert (krun react [CTick (S j)] (crowd_init work w) =
    ((fun i => if Nat.eqb i (S j) then Task ARun header_init [] (start_send op :: (if catch then [CoCatch] else []) ++ [CoUser r' false]) else fst (crowd_init work w) i), w)) as ->.
  { unfold krun. cbn [fold_left kstep crowd_init fst snd]. rewrite Hw'. reflexivity. }
  cbn [fst snd]. rewrite Nat.eqb_refl, (proj2 (Nat.eqb_neq (S i) (S j)) Hij). split.
  - intros H. specialize (H (set_sock w (set_config (w_sock w) (negb m) b))). unfold ktick, crowd_init in H. cbn [fst snd k_status k_hdr k_short k_stack] in H. rewrite Hw in H.
    apply (f_equal (fun w => s_mask (w_sock w))) in H. cbn in H. destruct m; discriminate.
  - intros H. pose proof (H (set_sock w (set_config (w_sock w) true 0))) as H1. specialize (H (set_sock w (set_config (w_sock w) false 0))).
    rewrite surjective_pairing in H. rewrite surjective_pairing in H1.
    apply (f_equal (fun x => k_stack (fst x))) in H. apply (f_equal (fun x => k_stack (fst x))) in H1. cbn [fst] in H, H1. rewrite <- H1 in H. clear H1.
    unfold ktick, start_send in H. destruct (send_args op) as [[f o] msg].
    cbn [k_status k_hdr k_short k_stack tick step step_send] in H. destruct msg as [[|x xs]|]; cbn in H; injection H; intros; discriminate.
Qed.
Print Assumptions C90_race_free.
Print Assumptions C90_parallel.
Print Assumptions C90_setListener_races.
Print Assumptions C90_setConfig_races.

(** Coroutine 0 is about to take bytes of a frame header off the connection, coroutine 1 about to write some; and both do. The listener answers, and replaces
    itself. *)
Definition par_react : react_t := fun l log => [CSend true (SoPong None); CSetListener (Some 2%nat)].
Definition par_work (i : nat) : list cmd := match i with 1%nat => [CSend true (SoText (Some [x68; x69])); CUseData] | 2%nat => [CDemand true 2 (Some [xff])] | _ => [] end.
Definition par_world : world := World [RData x89 [x01]; RIo IoRetry; RData x7a []] [WAccept 1; WIo IoRetry] [] (fun n => n2b (N.of_nat n)) 0 [] (Sock true 8 (Some 1%nat) (-1) false).
Definition par_evs : list cev := [CTick 0; CTick 1; CTick 1; CArrive [RData x88 [x00]]].
Example C90_nonvacuous :
  io_only (w_in par_world) /\ io_only (arrived par_evs) /\ (forall l log, Forall no_config (par_react l log)) /\ (forall i, Forall only_sends (par_work i)) /\
  let s := krun par_react par_evs (crowd_init par_work par_world) in
  sending (fst s 0%nat) = false /\ sending (fst s 1%nat) = true /\
  w_in (snd (kstep par_react (CTick 0) s)) = [RIo IoRetry; RData x7a []; RData x88 [x00]] /\
  w_out (snd (kstep par_react (CTick 1) s)) = [x81].
Proof.
  split; [repeat constructor|]. split; [repeat constructor|]. split; [intros; repeat constructor|].
  split; [intros [|[|[|i]]]; repeat constructor|]. vm_compute. auto.
Qed.
