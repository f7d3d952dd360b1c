(** Steps of a coroutine in company (Coroutines.v): steps that receive, steps of application code. *)
From Verif Require Import Bytes Frame World WebSocket AsyncWebSocket SpecFrame SpecSend SpecListen SpecApi SpecReply SpecAsync SpecThreads Concurrent SpecConcurrent
  Coroutines ProofFrame ProofStream ProofSend ProofConcurrent ProofAsync ProofAsync2.
From Coq Require Import ZifyBool ZifyNat ZifyN.
Local Open Scope N_scope.
Local Arguments takeN : simpl never.
Local Arguments dropN : simpl never.
Local Arguments lenN : simpl never.
Local Arguments be_enc : simpl never.
Local Arguments be_dec : simpl never.
Local Arguments packHeaderBits : simpl never.
Local Arguments unpackHeaderBits : simpl never.
Notation step := AsyncWebSocket.step.

(** * Receiving *)
Definition listening_co (co : cor) : Prop :=
  match co with CoListen | CoReadFrame _ | CoHandle _ _ | CoPayload _ _ _ _ _ => True | _ => False end.
(** The same coroutine with nobody in particular told. *)
Definition anon (l : option nat) : option nat := match l with Some _ => Some 0%nat | None => None end.
Definition anon_co (co : cor) : cor :=
  match co with
  | CoHandle l p => CoHandle (anon l) p
  | CoPayload l u a g p => CoPayload (anon l) u a g p
  | co => co
  end.
(** [wa] is the world of an undisturbed listening coroutine in step with the shared world [w]. *)
Definition like (past : list event) (wa w : world) : Prop :=
  w_in wa = w_in w /\ s_last (w_sock wa) = s_last (w_sock w) /\ s_buf (w_sock wa) = s_buf (w_sock w) /\
  s_listener (w_sock wa) = anon (s_listener (w_sock w)) /\ map snd (w_log w) = past ++ map snd (w_log wa).
(** The part of the world that receiving leaves alone. *)
Definition kept (w w' : world) : Prop :=
  w_out w' = w_out w /\ w_wr w' = w_wr w /\ w_rpos w' = w_rpos w /\ w_rnd w' = w_rnd w /\ s_mask (w_sock w') = s_mask (w_sock w) /\
  s_listener (w_sock w') = s_listener (w_sock w) /\ s_buf (w_sock w') = s_buf (w_sock w) /\ io_only (w_in w').

Section Receiving.
Variable react : react_t.
Variable past : list event.
Variable w : world.

Definition hears (x xa : status * conf) : Prop :=
  kept w (c_world (snd x)) /\ fst xa = fst x /\ c_hdr (snd xa) = c_hdr (snd x) /\ c_short (snd xa) = c_short (snd x) /\
  like past (c_world (snd xa)) (c_world (snd x)) /\
  ((c_stack (snd xa) = map anon_co (c_stack (snd x)) /\ Forall listening_co (c_stack (snd x)) /\ w_log (c_world (snd x)) = w_log w) \/
   exists l ev freed K', fst x = ARun /\ c_stack (snd x) = CoUser (react l (w_log w ++ [(l, ev)])) freed :: K' /\
     c_stack (snd xa) = CoUser [] freed :: map anon_co K' /\ Forall listening_co K' /\ w_log (c_world (snd x)) = w_log w ++ [(l, ev)]).

Lemma unwind_listening st : Forall listening_co st -> unwind st = None.
Proof. induction 1 as [|co st H _ IH]; [reflexivity|]. destruct co; cbn in *; try contradiction; exact IH. Qed.
Lemma anon_listening st : Forall listening_co st -> Forall listening_co (map anon_co st).
Proof. induction 1 as [|co st H _ IH]; constructor; [|exact IH]. destruct co; exact H. Qed.

Lemma hears_ret st hdr short K Ka r ra : Ka = map anon_co K -> Forall listening_co K -> kept w r -> w_log r = w_log w -> like past ra r ->
  hears (st, Conf hdr short K r) (st, Conf hdr short Ka ra).
Proof. intros -> H1 H2 H3 H4. split; [exact H2|]. cbn [fst snd c_hdr c_short c_stack c_world]. repeat (split; [first [reflexivity|exact H4]|]). left. auto. Qed.
Lemma hears_fail e hdr short K Ka r ra : Ka = map anon_co K -> Forall listening_co K -> kept w r -> w_log r = w_log w -> like past ra r ->
  hears (fail e (Conf hdr short K r)) (fail e (Conf hdr short Ka ra)).
Proof.
  intros -> H1 H2 H3 H4. unfold fail. cbn [c_stack]. rewrite unwind_listening by exact H1. rewrite unwind_listening by (now apply anon_listening).
  apply hears_ret; [reflexivity|constructor|assumption..].
Qed.
Lemma hears_call l ev freed hdr short K r ra : Forall listening_co K -> kept w r -> w_log r = w_log w -> like past ra r ->
  hears (let (co, w') := call_listener react l ev freed r in (ARun, Conf hdr short (co :: K) w'))
        (let (co, w') := call_listener taking_notes 0 ev freed ra in (ARun, Conf hdr short (co :: map anon_co K) w')).
Proof.
  intros H1 (A1 & A2 & A3 & A4 & A5 & A6 & A7 & A8) H3 (B1 & B2 & B3 & B4 & B5). unfold call_listener, taking_notes.
  split; [unfold kept; cbn [fst snd c_world set_log w_in w_wr w_out w_rnd w_rpos w_log w_sock]; auto 10|].
  cbn [fst snd c_hdr c_short c_stack c_world set_log w_in w_wr w_out w_rnd w_rpos w_log w_sock]. repeat (split; [reflexivity|]). split.
  - unfold like. cbn [w_in w_log w_sock]. repeat (split; [assumption|]). cbn [set_log w_log]. rewrite !map_app. cbn [map snd]. rewrite B5, app_assoc. reflexivity.
  - right. exists l, ev, freed, K. rewrite H3. auto.
Qed.

Lemma exact_like n got r ra : like past ra r -> kept w r -> w_log r = w_log w ->
  fst (readExactAsyncInline n got ra) = fst (readExactAsyncInline n got r) /\
  like past (snd (readExactAsyncInline n got ra)) (snd (readExactAsyncInline n got r)) /\
  kept w (snd (readExactAsyncInline n got r)) /\ w_log (snd (readExactAsyncInline n got r)) = w_log w.
Proof.
  intros HL HK Hl. unfold readExactAsyncInline. destruct (n <=? lenN got); [auto|].
  destruct HL as (B1 & B2 & B3 & B4 & B5). destruct HK as (A1 & A2 & A3 & A4 & A5 & A6 & A7 & A8). rewrite B1.
  destruct (read_raw (n - lenN got) (w_in r) (w_sock r)) as [[rr s'] k'] eqn:E. destruct (no_ext_read _ _ _ _ _ _ A8 E) as [-> Hio'].
  rewrite (read_raw_sock _ _ _ (w_sock ra) _ _ _ A8 E).
  destruct rr as [d|[]|]; cbn [fst snd]; (split; [reflexivity|]); unfold like, kept; cbn [w_in w_wr w_out w_rnd w_rpos w_log w_sock set_sock set_in]; auto 12.
Qed.
Lemma some_like n r ra : like past ra r -> kept w r -> w_log r = w_log w ->
  fst (readSomeAsyncInline n ra) = fst (readSomeAsyncInline n r) /\
  like past (snd (readSomeAsyncInline n ra)) (snd (readSomeAsyncInline n r)) /\
  kept w (snd (readSomeAsyncInline n r)) /\ w_log (snd (readSomeAsyncInline n r)) = w_log w.
Proof.
  intros HL HK Hl. unfold readSomeAsyncInline. destruct (n <=? 0)%Z; [auto|].
  destruct HL as (B1 & B2 & B3 & B4 & B5). destruct HK as (A1 & A2 & A3 & A4 & A5 & A6 & A7 & A8). rewrite B1.
  destruct (read_raw (Z.to_N n) (w_in r) (w_sock r)) as [[rr s'] k'] eqn:E. destruct (no_ext_read _ _ _ _ _ _ A8 E) as [-> Hio'].
  rewrite (read_raw_sock _ _ _ (w_sock ra) _ _ _ A8 E).
  destruct rr as [d|[]|]; cbn [fst snd]; (split; [reflexivity|]); unfold like, kept; cbn [w_in w_wr w_out w_rnd w_rpos w_log w_sock set_sock set_in]; auto 12.
Qed.

Lemma hear_step hdr short st wa : Forall listening_co st -> io_only (w_in w) -> like past wa w ->
  hears (step react (Conf hdr short st w)) (step taking_notes (Conf hdr short (map anon_co st) wa)).
Proof.
  intros HK Hio HL.
  assert (kept w w) as Hk by (unfold kept; auto 12).
  destruct HK as [|co K Hco HK]; [apply hears_ret; [reflexivity|constructor|assumption|reflexivity|assumption]|].
  destruct co as [|p|l p|l u a g p|fin opcode m h p|h p|cs freed|]; cbn in Hco; try contradiction; cbn [step map anon_co].
  - destruct (h_opcode hdr =? OPCODE_CLOSE); apply hears_ret; try assumption; try reflexivity.
    + cbn [map anon_co]. destruct HL as (_ & _ & _ & -> & _). reflexivity.
    + repeat constructor; assumption.
  - assert (forall n got (A : bytes -> header * list cor) (B : bytes -> list cor), (forall d, Forall listening_co (snd (A d)) /\ Forall listening_co (B d)) ->
      hears
        match readExactAsyncInline n got w with
        | (INext bb, w') => (ARun, Conf (fst (A bb)) short (snd (A bb)) w')
        | (IAgain got', w') => (ARun, Conf hdr short (B got') w')
        | (IWait, w') => (AWait, Conf hdr short (CoReadFrame p :: K) w')
        | (IFail, w') => fail ExAsyncIO (Conf hdr short K w')
        end
        match readExactAsyncInline n got wa with
        | (INext bb, w') => (ARun, Conf (fst (A bb)) short (map anon_co (snd (A bb))) w')
        | (IAgain got', w') => (ARun, Conf hdr short (map anon_co (B got')) w')
        | (IWait, w') => (AWait, Conf hdr short (CoReadFrame p :: map anon_co K) w')
        | (IFail, w') => fail ExAsyncIO (Conf hdr short (map anon_co K) w')
        end) as HR.
    { intros n got A B HAB. destruct (exact_like n got w wa HL Hk eq_refl) as (H1 & H2 & H3 & H4).
      destruct (readExactAsyncInline n got w) as [[d|d| |] w'], (readExactAsyncInline n got wa) as [ra wa']; cbn [fst snd] in *; subst ra;
        first [apply hears_fail|apply hears_ret]; try (apply HAB); try assumption; try reflexivity. repeat constructor; assumption. }
    destruct p as [got|bb|tt0 got|tt0 got|got]; cbn [step_readFrame].
    + apply (HR 2 got (fun bb => (hdr, CoReadFrame (RfOnBb bb) :: K)) (fun d => CoReadFrame (RfAct d) :: K)). intros d. split; repeat constructor; assumption.
    + destruct (unpackHeaderBits (be_dec bb) hdr) as [h len]. destruct (len <? 126); [|destruct (len =? 126); [|destruct (len =? 127)]];
        first [apply hears_fail; try assumption; reflexivity|apply hears_ret; try assumption; try reflexivity; repeat constructor; assumption].
    + apply (HR (if tt0 =? 2 then 2 else 8) got (fun bb => (hdr, CoReadFrame (RfOnLen tt0 bb) :: K)) (fun d => CoReadFrame (RfReadLen tt0 d) :: K)).
      intros d. split; repeat constructor; assumption.
    + set (h := if tt0 =? 2 then _ else _). destruct (h_hasMask h); apply hears_ret; try assumption; try reflexivity. repeat constructor; assumption.
    + apply (HR 4 got (fun bb => (set_mask hdr (mask_of bb), K)) (fun d => CoReadFrame (RfReadMask d) :: K)). intros d. split; repeat constructor; assumption.
  - assert (forall r ra us nx sh, kept w r -> w_log r = w_log w -> like past ra r -> hears
      match readPayloadAsync hdr us r with
      | inl e => fail e (Conf hdr sh K r)
      | inr co => (ARun, Conf hdr sh (co :: CoHandle l nx :: K) r)
      end
      match readPayloadAsync hdr us ra with
      | inl e => fail e (Conf hdr sh (map anon_co K) ra)
      | inr co => (ARun, Conf hdr sh (co :: CoHandle (anon l) nx :: map anon_co K) ra)
      end) as HP.
    { intros r ra us nx sh Hr Hl HL1. pose proof HL1 as (_ & _ & HB & HN & _). unfold readPayloadAsync. rewrite HB, HN.
      destruct (_ && _)%bool; [apply hears_fail; try assumption; reflexivity|].
      destruct (_ <? 0)%Z; [apply hears_fail; try assumption; reflexivity|]. apply hears_ret; try assumption; try reflexivity. repeat constructor; assumption. }
    assert (forall ev, hears
      match l with
      | Some li => let (co, w') := call_listener react li ev false w in (ARun, Conf hdr short (co :: CoHandle l HfFinish :: K) w')
      | None => (ARun, Conf hdr short K w)
      end
      match anon l with
      | Some li => let (co, w') := call_listener taking_notes li ev false wa in (ARun, Conf hdr short (co :: CoHandle (anon l) HfFinish :: map anon_co K) w')
      | None => (ARun, Conf hdr short (map anon_co K) wa)
      end) as HC.
    { intros ev. destruct l as [li|]; cbn [anon]; [|apply hears_ret; try assumption; reflexivity].
      apply (hears_call li ev false hdr short (CoHandle (Some li) HfFinish :: K)); try assumption; try reflexivity. constructor; [exact Logic.I|assumption]. }
    destruct p; cbn [step_handle]; try apply HC; [|apply hears_ret; try assumption; reflexivity].
    assert (forall nx, hears
      (let (ok, w') := checkForContinuationA hdr w in
       if ok then match readPayloadAsync hdr false w' with
                  | inl e => fail e (Conf hdr short K w')
                  | inr co => (ARun, Conf hdr short (co :: CoHandle l nx :: K) w') end
       else fail ExContinuationExpected (Conf hdr short K w'))
      (let (ok, w') := checkForContinuationA hdr wa in
       if ok then match readPayloadAsync hdr false w' with
                  | inl e => fail e (Conf hdr short (map anon_co K) w')
                  | inr co => (ARun, Conf hdr short (co :: CoHandle (anon l) nx :: map anon_co K) w') end
       else fail ExContinuationExpected (Conf hdr short (map anon_co K) w'))) as HD.
    { intros nx. pose proof HL as (B1 & HB & B3 & B4 & B5). unfold checkForContinuationA. rewrite HB. destruct (_ || _)%bool; [apply hears_fail; try assumption; reflexivity|].
      apply HP; [exact Hk|reflexivity|]. unfold like. cbn [set_sock set_last w_in w_log w_sock s_last s_buf s_listener]. auto. }
    pose proof HL as (_ & HB & _). rewrite HB.
    destruct (h_opcode hdr) as [|q].
    { destruct (s_last (w_sock w) <? 0)%Z; [apply hears_fail; try assumption; reflexivity|apply HP; try assumption; reflexivity]. }
    do 4 (try (destruct q as [q|q|])); first [apply HD|apply HP; try assumption; reflexivity|apply hears_fail; try assumption; reflexivity].
  - destruct p as [|n|d|]; cbn [step_payload].
    + pose proof HL as (_ & _ & HB & _). rewrite HB. destruct (g <? h_len hdr)%Z; [apply hears_ret; try assumption; try reflexivity; repeat constructor; assumption|].
      destruct (_ && _)%bool; [|apply hears_ret; try assumption; reflexivity]. destruct l as [li|]; cbn [anon]; [|apply hears_ret; try assumption; reflexivity].
      apply (hears_call li _ false hdr short (CoPayload (Some li) u a g RpFinish :: K)); try assumption; try reflexivity. constructor; [exact Logic.I|assumption].
    + destruct (some_like n w wa HL Hk eq_refl) as (H1 & H2 & H3 & H4).
      destruct (readSomeAsyncInline n w) as [[d|d| |] w'], (readSomeAsyncInline n wa) as [ra wa']; cbn [fst snd] in *; subst ra.
      * destruct (a <? _)%Z; apply hears_ret; try assumption; try reflexivity; repeat constructor; assumption.
      * apply hears_ret; try assumption; try reflexivity; repeat constructor; assumption.
      * apply hears_ret; try assumption; try reflexivity; repeat constructor; assumption.
      * apply hears_fail; try assumption; reflexivity.
    + destruct d as [|b d]; [apply hears_fail; try assumption; reflexivity|]. destruct u; [apply hears_ret; try assumption; try reflexivity; repeat constructor; assumption|].
      destruct l as [li|]; cbn [anon]; [|apply hears_ret; try assumption; try reflexivity; repeat constructor; assumption].
      apply (hears_call li _ (h_hasMask hdr) hdr short (CoPayload (Some li) false a _ RpAct :: K)); try assumption; try reflexivity. constructor; [exact Logic.I|assumption].
    + apply hears_ret; try assumption; reflexivity.
Qed.
End Receiving.

Lemma like_self w : exists wa, like [] wa w.
Proof.
  exists (set_sock w (set_listener (w_sock w) (anon (s_listener (w_sock w))))). unfold like.
  cbn [set_sock set_listener w_in w_log w_sock s_last s_buf s_listener]. auto.
Qed.

(** * Application code *)
Definition catches (b : bool) : list cor := if b then [CoCatch] else [].
(** A sending call in progress and what it has left to write. *)
Inductive inflight : list cor -> bytes -> Prop :=
| if_header h p fin opcode m pc :
    pc = match m with Some (_ :: _) => SfPrepare | _ => SfFinish end -> lenN (msg_of m) < 2 ^ 31 ->
    inflight [CoWrite h p; CoSend fin opcode m h pc] (concat (wf_left h p ++ payload_write h m))
| if_prepare h fin opcode b bs : lenN (b :: bs) < 2 ^ 31 ->
    inflight [CoSend fin opcode (Some (b :: bs)) h SfPrepare] (concat (payload_write h (Some (b :: bs))))
| if_write h fin opcode m d : inflight [CoSend fin opcode m h (SfWrite d)] d
| if_finish h fin opcode m : inflight [CoSend fin opcode m h SfFinish] [].

(** What application code is doing. *)
Inductive voice := VIdle | VStart (op : sendop) | VSend (left : bytes).
(** The stack [st]: code with the commands [cs] left on top of [K]. *)
Inductive talking (K : list cor) (cs : list cmd) (freed : bool) : voice -> list cor -> Prop :=
| tk_user b : talking K cs freed VIdle (catches b ++ CoUser cs freed :: K)
| tk_start op b : lenN (req_payload op) < 2 ^ 31 -> talking K cs freed (VStart op) (start_send op :: catches b ++ CoUser cs freed :: K)
| tk_send F left b : inflight F left -> talking K cs freed (VSend left) (F ++ catches b ++ CoUser cs freed :: K).

(** What application code leaves alone. *)
Definition mute (w w' : world) : Prop :=
  w_in w' = w_in w /\ w_log w' = w_log w /\ w_rnd w' = w_rnd w /\ s_last (w_sock w') = s_last (w_sock w).
(** The fields of the socket after a command. *)
Definition cmd_sock (c : cmd) (k : sock) : sock :=
  match c with CSetListener l => set_listener k l | CSetConfig m b => set_config k m b | _ => k end.
Definition cmd_sends (c : cmd) : list sendop :=
  match c with CSend _ op => [op] | CDemand fin opcode m => [SoFrame fin opcode m] | _ => [] end.

Section Talking.
Variable react : react_t.
Variables (K : list cor) (hdr : header) (short : bytes) (w : world).
Hypothesis HK : unwind K = None.

Inductive talks (cs : list cmd) (freed : bool) : voice -> status -> conf -> Prop :=
| ts_return : cs = [] -> talks cs freed VIdle ARun (Conf hdr short K w)
| ts_catch st : talking K cs freed VIdle st -> talks cs freed VIdle ARun (Conf hdr short st w)
| ts_cmd c cs' st w' : cs = c :: cs' -> cmd_sends c = [] -> c <> CThrow -> (c = CUseData -> freed = false) ->
    talking K cs' freed VIdle st -> w_sock w' = cmd_sock c (w_sock w) -> w_out w' = w_out w -> w_wr w' = w_wr w -> w_rpos w' = w_rpos w -> mute w w' ->
    talks cs freed VIdle ARun (Conf hdr short st w')
| ts_call c cs' op st : cs = c :: cs' -> cmd_sends c = [op] -> talking K cs' freed (VStart op) st -> talks cs freed VIdle ARun (Conf hdr short st w)
| ts_enter op st w' : talking K cs freed (VSend (sent_wire (next_key_opt w) op)) st ->
    w_sock w' = w_sock w -> w_out w' = w_out w -> w_wr w' = w_wr w -> w_rpos w' = (w_rpos w + used (s_mask (w_sock w)))%nat -> mute w w' ->
    talks cs freed (VStart op) ARun (Conf hdr short st w')
| ts_write a left st w' : talking K cs freed (VSend left) st ->
    w_sock w' = w_sock w -> w_out w' = w_out w ++ a -> (healthy (w_wr w) -> healthy (w_wr w')) -> w_rpos w' = w_rpos w -> mute w w' ->
    talks cs freed (VSend (a ++ left)) ARun (Conf hdr short st w')
| ts_wait left st : talking K cs freed (VSend left) st -> (exists q, w_wr w = WBlock :: q) -> talks cs freed (VSend left) AWait (Conf hdr short st w)
| ts_sent st : talking K cs freed VIdle st -> talks cs freed (VSend []) ARun (Conf hdr short st w)
| ts_handled left st w' : talking K cs freed VIdle st -> ~ healthy (w_wr w) ->
    w_sock w' = w_sock w -> w_out w' = w_out w -> w_rpos w' = w_rpos w -> mute w w' ->
    talks cs freed (VSend left) ARun (Conf hdr short st w')
| ts_throw cs' : cs = CThrow :: cs' -> talks cs freed VIdle (AFail ExListener) (Conf hdr short [] w)
| ts_dangling cs' : cs = CUseData :: cs' -> freed = true -> talks cs freed VIdle (AUb UbDangling) (Conf hdr short [] w)
| ts_failed left w' : ~ healthy (w_wr w) -> w_sock w' = w_sock w -> w_out w' = w_out w -> w_rpos w' = w_rpos w -> mute w w' ->
    talks cs freed (VSend left) (AFail ExAsyncIO) (Conf hdr short [] w').

Lemma mute_refl : mute w w.
Proof. unfold mute; auto. Qed.

(** One write() of a call in progress. *)
Lemma write_full d : match writeExactAsyncInline d w with
  | (INext _, w') => d = [] /\ w' = w
  | (IAgain d', w') => exists a, d = a ++ d' /\ w_out w' = w_out w ++ a /\ w_sock w' = w_sock w /\ (healthy (w_wr w) -> healthy (w_wr w')) /\ w_rpos w' = w_rpos w /\ mute w w'
  | (IWait, w') => w' = w /\ exists q, w_wr w = WBlock :: q
  | (IFail, w') => w_out w' = w_out w /\ w_sock w' = w_sock w /\ ~ healthy (w_wr w) /\ w_rpos w' = w_rpos w /\ mute w w'
  end.
Proof.
  unfold writeExactAsyncInline, mute. destruct d as [|b c]; [auto|].
  destruct (w_wr w) as [|[n|[]|] q] eqn:Eq; cbn [set_wr w_out w_wr w_sock w_in w_log w_rnd w_rpos].
  - exists (b :: c). rewrite app_nil_r. auto 12.
  - exists (takeN (N.pos n) (b :: c)). rewrite take_drop. repeat (split; [reflexivity|]). split; [intros H; now inversion H|auto 12].
  - exists []. cbn [app]. rewrite app_nil_r. repeat (split; [reflexivity|]). split; [intros H; now inversion H|auto 12].
  - repeat (split; [reflexivity|]). split; [intros H; inversion H; subst; contradiction|auto 12].
  - repeat (split; [reflexivity|]). split; [intros H; inversion H; subst; contradiction|auto 12].
  - eauto.
Qed.

Lemma fail_talks cs freed b left w' : ~ healthy (w_wr w) -> w_sock w' = w_sock w -> w_out w' = w_out w -> w_rpos w' = w_rpos w -> mute w w' ->
  forall X c, Forall (fun co => co <> CoCatch) X -> c = Conf hdr short (X ++ catches b ++ CoUser cs freed :: K) w' ->
  talks cs freed (VSend left) (fst (fail ExAsyncIO c)) (snd (fail ExAsyncIO c)).
Proof.
  intros H1 H2 H3 H4 H5 X c HX ->. unfold fail. cbn [c_stack].
  assert (forall Y, unwind (X ++ Y) = unwind Y) as HU.
  { intros Y. clear -HX. induction HX as [|co X Hc _ IH]; [reflexivity|]. destruct co; try exact IH. congruence. }
  rewrite HU. destruct b; cbn [catches app unwind].
  - apply ts_handled; try assumption. exact (tk_user K cs freed false).
  - rewrite HK. apply ts_failed; assumption.
Qed.

Lemma talk_step cs freed v st : Forall small_cmd cs -> talking K cs freed v st ->
  talks cs freed v (fst (step react (Conf hdr short st w))) (snd (step react (Conf hdr short st w))).
Proof.
  intros Hs Ht. destruct Ht as [b|op b Hop|F left b HF].
  - destruct b; cbn [catches app step].
    + apply ts_catch. exact (tk_user K cs freed false).
    + destruct cs as [|c cs]; cbn [step_user]; [now apply ts_return|]. apply Forall_cons_iff in Hs. destruct Hs as [Hs1 Hs].
      destruct c as [|l|m b|catch op| | |fin opcode m]; cbn [fst snd].
      * eapply ts_cmd; try reflexivity; try discriminate; try exact (tk_user K cs freed false). apply mute_refl.
      * eapply ts_cmd; try reflexivity; try discriminate; try exact (tk_user K cs freed false). unfold mute; auto.
      * eapply ts_cmd; try reflexivity; try discriminate; try exact (tk_user K cs freed false). unfold mute; auto.
      * eapply ts_call; [reflexivity|reflexivity|]. exact (tk_start K cs freed op catch Hs1).
      * destruct freed eqn:Ef; [eapply ts_dangling; [reflexivity|reflexivity]|].
        eapply ts_cmd; try reflexivity; try discriminate; try exact (tk_user K cs false false). apply mute_refl.
      * unfold fail. cbn [c_stack]. rewrite HK. eapply ts_throw. reflexivity.
      * eapply ts_call; [reflexivity|reflexivity|]. exact (tk_start K cs freed (SoFrame fin opcode m) false Hs1).
  - unfold start_send. destruct (send_args op) as [[fin opcode] m] eqn:Ea. cbn [step step_send].
    assert (fits (s_mask (w_sock w)) op) as Hf by (split; [lia|auto]).
    destruct (frame_header fin opcode m w) as [h w'] eqn:Ef.
    destruct (enter_call op w h w' fin opcode m Hf Ea Ef) as (H1 & H2 & H3 & H4).
    assert (lenN (msg_of m) < 2 ^ 31) as Hm.
    { pose proof (send_args_request op) as Hr. rewrite Ea in Hr. unfold req_payload in Hop. rewrite Hr in Hop. exact Hop. }
    assert (mute w w' /\ w_rpos w' = (w_rpos w + used (s_mask (w_sock w)))%nat) as [Hmu Hrp].
    { unfold frame_header in Ef. unfold mute. destruct (s_mask (w_sock w)) eqn:Em; injection Ef as <- <-; cbn [set_rpos w_in w_log w_sock w_rnd w_rpos used]; auto with arith. }
    set (pc := match m with Some (_ :: _) => SfPrepare | _ => SfFinish end).
    assert (talks cs freed (VStart op) ARun (Conf hdr short (CoWrite h (WfAct (be_enc 2 (fst (packHeaderBits h)))) :: CoSend fin opcode m h pc :: catches b ++ CoUser cs freed :: K) w')) as HT.
    { apply ts_enter; try assumption. rewrite <- H1, writes_left.
      exact (tk_send K cs freed _ _ b (if_header h (WfAct (be_enc 2 (fst (packHeaderBits h)))) fin opcode m pc eq_refl Hm)). }
    unfold frame_header in Ef. unfold sendFrameHeaderAsync, header_init. cbn [h_mask h_hasMask].
    destruct m as [[|x bs]|]; destruct (s_mask (w_sock w)); injection Ef as <- <-; exact HT.
  - assert (Hw : forall d rest (A : bytes -> list cor) (B : list cor) (X : list cor),
      left = d ++ rest -> Forall (fun co => co <> CoCatch) X -> (forall d', inflight (A d') (d' ++ rest)) ->
      (d = [] -> (B = [] /\ rest = []) \/ inflight B rest) ->
      let r := match writeExactAsyncInline d w with
        | (INext _, w') => (ARun, Conf hdr short (B ++ catches b ++ CoUser cs freed :: K) w')
        | (IAgain d', w') => (ARun, Conf hdr short (A d' ++ catches b ++ CoUser cs freed :: K) w')
        | (IWait, w') => (AWait, Conf hdr short (A d ++ catches b ++ CoUser cs freed :: K) w')
        | (IFail, w') => fail ExAsyncIO (Conf hdr short (X ++ catches b ++ CoUser cs freed :: K) w')
        end in talks cs freed (VSend left) (fst r) (snd r)).
    { intros d rest A B X -> HX HA HB. cbv zeta. pose proof (write_full d) as Hw. destruct (writeExactAsyncInline d w) as [[x|d'| |] w'].
      - destruct Hw as [-> ->]. destruct (HB eq_refl) as [[-> ->]|HB']; cbn [app].
        + apply ts_sent. exact (tk_user K cs freed b).
        + apply (ts_write cs freed [] rest); try reflexivity; [now constructor|now rewrite app_nil_r|auto|apply mute_refl].
      - destruct Hw as (a & -> & W1 & W2 & W3 & W4 & W5). rewrite <- app_assoc. cbn [fst snd].
        apply ts_write; try assumption. now constructor.
      - destruct Hw as [-> Hq]. apply ts_wait; [now constructor|exact Hq].
      - destruct Hw as (W1 & W2 & W3 & W4 & W5). eapply fail_talks; try eassumption. reflexivity. }
    assert (Hst : forall F', inflight F' left -> talks cs freed (VSend left) ARun (Conf hdr short (F' ++ catches b ++ CoUser cs freed :: K) w)).
    { intros F' HF'. apply (ts_write cs freed [] left); try reflexivity; [now constructor|now rewrite app_nil_r|auto|apply mute_refl]. }
    destruct HF as [h p fin opcode m pc Hpc Hm|h fin opcode x bs Hm|h fin opcode m d|h fin opcode m].
    + assert (HE : forall rest, (rest = concat (payload_write h m) -> (inflight [CoSend fin opcode m h pc] rest))).
      { intros rest ->. subst pc. destruct m as [[|x bs]|]; constructor. exact Hm. }
      assert (HH : forall p', inflight [CoWrite h p'; CoSend fin opcode m h pc] (concat (wf_left h p' ++ payload_write h m))) by (intros; constructor; assumption).
      cbn [app step]. destruct p as [d| |d| |d]; cbn [step_writeFrame].
      * apply (Hw d (concat ((len_write h ++ mask_write h) ++ payload_write h m)) (fun d' => [CoWrite h (WfAct d'); CoSend fin opcode m h pc])
                 [CoWrite h WfOnBb; CoSend fin opcode m h pc] [CoSend fin opcode m h pc]); [reflexivity|repeat constructor; discriminate|intros d'; apply (HH (WfAct d'))|intros _; right; apply (HH WfOnBb)].
      * pose proof (HH WfOnBb) as HB. cbn [wf_left] in *. unfold len_write in *.
        destruct (snd (packHeaderBits h) =? 2); [|destruct (snd (packHeaderBits h) =? 3)]; cbn [fst snd].
        -- apply (Hst [CoWrite h (WfWriteLen _); CoSend fin opcode m h pc]). apply (HH (WfWriteLen _)).
        -- apply (Hst [CoWrite h (WfWriteLen _); CoSend fin opcode m h pc]). apply (HH (WfWriteLen _)).
        -- apply (Hst [CoWrite h WfOnLen; CoSend fin opcode m h pc]). apply (HH WfOnLen).
      * apply (Hw d (concat (mask_write h ++ payload_write h m)) (fun d' => [CoWrite h (WfWriteLen d'); CoSend fin opcode m h pc])
                 [CoWrite h WfOnLen; CoSend fin opcode m h pc] [CoSend fin opcode m h pc]); [reflexivity|repeat constructor; discriminate|intros d'; apply (HH (WfWriteLen d'))|intros _; right; apply (HH WfOnLen)].
      * cbn [wf_left] in *. unfold mask_write in *. destruct (h_hasMask h); cbn [fst snd].
        -- apply (Hst [CoWrite h (WfWriteMask _); CoSend fin opcode m h pc]). apply (HH (WfWriteMask _)).
        -- apply (Hst [CoSend fin opcode m h pc]). apply HE. reflexivity.
      * apply (Hw d (concat (payload_write h m)) (fun d' => [CoWrite h (WfWriteMask d'); CoSend fin opcode m h pc])
                 [CoSend fin opcode m h pc] [CoSend fin opcode m h pc]); [reflexivity|repeat constructor; discriminate|intros d'; apply (HH (WfWriteMask d'))|intros _; right; now apply HE].
    + cbn [app step step_send payload_write concat] in *. rewrite app_nil_r in *.
      replace (2 ^ 31 <=? lenN (x :: bs)) with false by (symmetry; apply N.leb_gt; exact Hm).
      destruct (h_hasMask h); cbn [fst snd]; apply (Hst [CoSend fin opcode (Some (x :: bs)) h (SfWrite _)]); constructor.
    + cbn [app step step_send].
      apply (Hw d [] (fun d' => [CoSend fin opcode m h (SfWrite d')]) [] []); [now rewrite app_nil_r|constructor|intros d'; rewrite app_nil_r; constructor|auto].
    + cbn [app step step_send fst snd]. apply ts_sent. exact (tk_user K cs freed b).
Qed.
End Talking.
