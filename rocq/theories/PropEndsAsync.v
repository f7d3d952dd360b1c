(** C79: what undefined behaviour takes with several coroutines on one asynchronous socket, whatever arrives, fails and is done. *)
From Verif Require Import Bytes Frame World WebSocket AsyncWebSocket SpecFrame SpecSend SpecListen SpecConfig SpecApi SpecThreads Process SpecProcess Coroutines SpecCoroutines SpecEnds.
From Verif Require ProofStream.
Local Open Scope N_scope.
Local Arguments takeN : simpl never.
Local Arguments dropN : simpl never.
Local Arguments lenN : simpl never.
Local Arguments writeExactAsyncInline : simpl never.
Local Arguments readExactAsyncInline : simpl never.
Local Arguments readSomeAsyncInline : simpl never.
Local Arguments packHeaderBits : simpl never.
Local Arguments unpackHeaderBits : simpl never.
Local Arguments N.leb : simpl never.
Local Arguments N.ltb : simpl never.
Local Arguments N.eqb : simpl never.
Local Arguments Z.ltb : simpl never.
Local Arguments Z.leb : simpl never.

Lemma read_raw_steady s : forall n k r s' k', script_ok no_config any_err s -> read_raw n s k = (r, s', k') ->
  script_ok no_config any_err s' /\ s_buf k' = s_buf k.
Proof.
  induction s as [|[b bs|e|x] s IH]; intros n k r s' k' H E; cbn [read_raw] in E; inversion H as [|? ? H1 H2]; subst; clear H.
  - injection E as <- <- <-. split; [constructor|reflexivity].
  - injection E as <- <- <-. split; [now apply ProofStream.script_ok_unread|reflexivity].
  - injection E as <- <- <-. split; [assumption|reflexivity].
  - destruct (IH _ _ _ _ _ H2 E) as [G1 G2]. split; [exact G1|]. rewrite G2. destruct x; cbn in H1 |- *; try reflexivity. destruct H1.
Qed.
Lemma read_raw_fits s : forall n k, match fst (fst (read_raw n s k)) with RGot d => lenN d <= n | _ => True end.
Proof. induction s as [|[b bs|e|x] s IH]; intros n k; cbn [read_raw fst]; try exact I; [rewrite lenN_takeN; lia|apply IH]. Qed.

Section Ends.
Variable react : react_t.
Variable work : nat -> list cmd.
Variable script : list rev.
Variable B : Z.
Notation Bad := (coroutine_cause react work script).
Definition NC : Prop := nobody_configures react work /\ script_ok no_config any_err script.

Definition wok (w : world) : Prop := NC -> s_buf (w_sock w) = B /\ script_ok no_config any_err (w_in w).
Definition cmd_good (freed : bool) (c : cmd) : Prop :=
  (NC -> no_config_cmd c) /\ (nobody_huge react work -> small_cmd c) /\ (freed = true -> c = CUseData -> Bad UbDangling).
Definition good (co : cor) : Prop :=
  match co with
  | CoPayload _ _ al _ p => (0 <= al)%Z /\ (NC -> al = B) /\ match p with RpReadData n => NC -> (n <= B)%Z | _ => True end
  | CoSend _ _ m _ _ => nobody_huge react work -> lenN (msg_of m) < 2 ^ 31
  | CoUser cs freed => Forall (cmd_good freed) cs
  | _ => True
  end.
Definition okres (x : status * conf) : Prop :=
  Forall good (c_stack (snd x)) /\ wok (c_world (snd x)) /\ forall u, fst x = AUb u -> Bad u.

Lemma unwind_good st : Forall good st -> forall st', unwind st = Some st' -> Forall good st'.
Proof. induction 1 as [|co st Hc Hs IH]; intros st' E; cbn [unwind] in E; [discriminate|]. destruct co; try (now apply IH). now injection E as <-. Qed.
Lemma ok_fail e h sh K w : Forall good K -> wok w -> okres (fail e (Conf h sh K w)).
Proof.
  intros HK Hw. unfold fail, okres. cbn [c_stack c_hdr c_short c_world]. destruct (unwind K) as [st|] eqn:E; cbn [fst snd c_stack c_world];
    (split; [|split; [exact Hw|discriminate]]); [eapply unwind_good; eassumption|constructor].
Qed.
Lemma ok_go s h sh st w : s = ARun \/ s = AWait \/ s = ADone -> Forall good st -> wok w -> okres (s, Conf h sh st w).
Proof. intros Hs Hst Hw. split; [exact Hst|]. split; [exact Hw|]. destruct Hs as [-> |[-> | ->]]; discriminate. Qed.
Lemma ok_ub u h sh w : Bad u -> wok w -> okres (AUb u, Conf h sh [] w).
Proof. intros Hu Hw. split; [constructor|]. split; [exact Hw|]. cbn. now intros u' [= <-]. Qed.

Lemma wok_same w w' : w_sock w' = w_sock w -> w_in w' = w_in w -> wok w -> wok w'.
Proof. unfold wok. now intros -> ->. Qed.
Lemma wok_write d w : wok w -> wok (snd (writeExactAsyncInline d w)).
Proof. apply wok_same; unfold writeExactAsyncInline; (destruct d; [reflexivity|]); destruct (w_wr w) as [|[n|[]|] q]; reflexivity. Qed.
Lemma wok_exact n got w : wok w -> wok (snd (readExactAsyncInline n got w)).
Proof.
  intros H Hc. specialize (H Hc). unfold readExactAsyncInline. destruct (n <=? lenN got); [exact H|].
  destruct (read_raw _ _ _) as [[r s] k] eqn:E. destruct H as [H1 H2]. destruct (read_raw_steady _ _ _ _ _ _ H2 E) as [G1 G2].
  destruct r as [d|[]|]; cbn; rewrite G2; split; assumption.
Qed.
Lemma wok_some n w : wok w -> wok (snd (readSomeAsyncInline n w)).
Proof.
  intros H Hc. specialize (H Hc). unfold readSomeAsyncInline. destruct (n <=? 0)%Z; [exact H|].
  destruct (read_raw _ _ _) as [[r s] k] eqn:E. destruct H as [H1 H2]. destruct (read_raw_steady _ _ _ _ _ _ H2 E) as [G1 G2].
  destruct r as [d|[]|]; cbn; rewrite G2; split; assumption.
Qed.
Lemma some_fits n w d : fst (readSomeAsyncInline n w) = INext d -> d = [] \/ (Z.of_N (lenN d) <= n)%Z.
Proof.
  unfold readSomeAsyncInline. destruct (Z.leb_spec n 0) as [Hn|Hn]; [intros [= <-]; now left|].
  pose proof (read_raw_fits (w_in w) (Z.to_N n) (w_sock w)) as H. destruct (read_raw _ _ _) as [[r s] k]. cbn [fst] in H.
  destruct r as [x|[]|]; cbn [fst]; try discriminate; intros [= <-]; [right; lia|now left].
Qed.
Lemma wok_check h w : wok w -> wok (snd (checkForContinuationA h w)).
Proof. intros H Hc. specialize (H Hc). unfold checkForContinuationA. destruct (_ || _)%bool; cbn; exact H. Qed.

Lemma react_good l log freed : Forall (cmd_good freed) (react l log).
Proof.
  apply Forall_forall. intros c Hc. split; [|split].
  - intros [[Hr _] _]. specialize (Hr l log). rewrite Forall_forall in Hr. exact (Hr _ Hc).
  - intros [Hr _]. specialize (Hr l log). rewrite Forall_forall in Hr. exact (Hr _ Hc).
  - intros _ ->. cbn. now exists l, log.
Qed.
Lemma call_good l ev fr w : wok w -> good (fst (call_listener react l ev fr w)) /\ wok (snd (call_listener react l ev fr w)).
Proof. intros Hw. unfold call_listener. cbn. split; [apply react_good|exact Hw]. Qed.
Lemma header_good hh fin op n w : wok w -> good (snd (fst (sendFrameHeaderAsync hh fin op n w))) /\ wok (snd (sendFrameHeaderAsync hh fin op n w)).
Proof. intros Hw. unfold sendFrameHeaderAsync. cbn [h_hasMask]. destruct (s_mask (w_sock w)); split; first [exact I|exact Hw]. Qed.
Lemma send_good op : (nobody_huge react work -> lenN (req_payload op) < 2 ^ 31) -> good (start_send op).
Proof. intros H. destruct op; cbn [start_send send_args good]; exact H || (intros _; rewrite lenN_nil; reflexivity). Qed.

Lemma ok1 s h sh co K w : s = ARun \/ s = AWait -> good co -> Forall good K -> wok w -> okres (s, Conf h sh (co :: K) w).
Proof. intros Hs H1 H2 H3. apply ok_go; [tauto|now constructor|exact H3]. Qed.
Lemma ok0 h sh K w : Forall good K -> wok w -> okres (ARun, Conf h sh K w).
Proof. intros H2 H3. apply ok_go; auto. Qed.
Ltac one := first [apply ok1; [auto; fail|try exact I|assumption|assumption] | apply ok0; assumption | apply ok_fail; assumption].
Lemma ok_step h sh st w : Forall good st -> wok w -> okres (step react (Conf h sh st w)).
Proof.
  intros Hst Hw. cbn [step]. destruct st as [|co K]; [apply ok_go; auto|]. inversion Hst as [|? ? Hc HK]; subst.
  assert (HE : forall n got, wok (snd (readExactAsyncInline n got w))) by (intros n got; now apply wok_exact).
  assert (HW : forall d, wok (snd (writeExactAsyncInline d w))) by (intros d; now apply wok_write).
  destruct co as [|p|l p|l us al pr p|fin op m hh p|hh p|cs fr|].
  - destruct (_ =? _); [one|]. apply ok_go; [auto| |exact Hw]. constructor; [exact I|]. constructor; [exact I|]. now constructor.
  - destruct p as [got|bb|t got|t d|got]; cbn [step_readFrame]; cbv zeta.
    + pose proof (HE 2 got). destruct (readExactAsyncInline 2 got w) as [[d|d| |] w']; cbn [snd] in *; one.
    + destruct (unpackHeaderBits (be_dec bb) h) as [h1 m1]. destruct (_ <? _); [one|]. destruct (_ =? _); [one|]. destruct (_ =? _); one.
    + pose proof (HE (if t =? 2 then 2 else 8) got). destruct (readExactAsyncInline _ got w) as [[d|d| |] w']; cbn [snd] in *; one.
    + destruct (h_hasMask _); one.
    + pose proof (HE 4 got). destruct (readExactAsyncInline 4 got w) as [[d|d| |] w']; cbn [snd] in *; one.
  - assert (Hp : forall us next s w', wok w' -> okres (match readPayloadAsync h us w' with
        | inl e => fail e (Conf h s K w') | inr co => (ARun, Conf h s (co :: CoHandle l next :: K) w') end)).
    { intros us next s w' Hw'. unfold readPayloadAsync. destruct (_ && _)%bool; [one|]. destruct (Z.ltb_spec (s_buf (w_sock w')) 0) as [Hb|Hb]; [one|].
      apply ok1; [auto| |now constructor|exact Hw']. cbn [good]. split; [exact Hb|]. split; [intros Hn; apply (Hw' Hn)|exact I]. }
    assert (Ha : forall ev, okres (match l with
        | Some li => let (co, w') := call_listener react li ev false w in (ARun, Conf h sh (co :: CoHandle l HfFinish :: K) w')
        | None => (ARun, Conf h sh K w) end)).
    { intros ev. destruct l as [li|]; [|one]. destruct (call_good li ev false w Hw) as [G1 G2]. destruct (call_listener react li ev false w) as [co w'].
      cbn [fst snd] in G1, G2. apply ok1; [auto|exact G1|now constructor|exact G2]. }
    destruct p; cbn [step_handle]; [|apply Ha|apply Ha|apply Ha|one].
    assert (Hk : okres (let (ok, w') := checkForContinuationA h w in
      if (ok : bool) then (match readPayloadAsync h false w' with inl e => fail e (Conf h sh K w') | inr co => (ARun, Conf h sh (co :: CoHandle l HfFinish :: K) w') end)
      else fail ExContinuationExpected (Conf h sh K w'))).
    { pose proof (wok_check h w Hw) as H. destruct (checkForContinuationA h w) as [[] w']; cbn [snd] in H; [now apply Hp|one]. }
    destruct (h_opcode h) as [|q];
    [|destruct q as [[[q|[q|q|]|]|[[q|q|]|[q|q|]|]|]|[[[q|q|]|[q|q|]|]|[[q|q|]|[q|q|]|]|]|]]; try (apply ok_fail; assumption); try exact Hk;
      try (apply (Hp true HfOnClose []); exact Hw); try (apply (Hp true HfOnPing []); exact Hw); try (apply (Hp true HfOnPong []); exact Hw).
    destruct (_ <? 0)%Z; [one|]. now apply Hp.
  - destruct Hc as (Hc1 & Hc2 & Hc3). destruct p as [|n|d|]; cbn [step_payload]; cbv zeta.
    + destruct (Z.ltb_spec pr (h_len h)) as [Hl|Hl].
      * apply ok1; [auto| |exact HK|exact Hw]. cbn [good]. split; [exact Hc1|]. split; [exact Hc2|]. intros Hn. destruct (Hw Hn) as [Hb _].
        destruct (Z.ltb_spec (h_len h - pr) (s_buf (w_sock w))); lia.
      * destruct (_ && _)%bool; [|one]. destruct l as [li|]; [|one].
        match goal with |- context [call_listener react li ?ev ?f w] => destruct (call_good li ev f w Hw) as [G1 G2]; destruct (call_listener react li ev f w) as [co w'] end.
        cbn [fst snd] in G1, G2. apply ok1; [auto|exact G1| |exact G2]. constructor; [|exact HK]. cbn [good]. auto.
    + pose proof (wok_some n w Hw) as G. pose proof (some_fits n w) as F. destruct (readSomeAsyncInline n w) as [[d|d| |] w']; cbn [fst snd] in G, F.
      * destruct (Z.ltb_spec al (Z.of_N (lenN d))) as [Hl|Hl].
        -- apply ok_ub; [|exact G]. cbn [coroutine_cause]. intros Hn. specialize (Hc2 Hn). specialize (Hc3 Hn).
           destruct (F d eq_refl) as [-> | Hf]; [rewrite lenN_nil in Hl; lia|lia].
        -- apply ok1; [auto| |exact HK|exact G]. cbn [good]. auto.
      * apply ok1; [auto| |exact HK|exact G]. cbn [good]. auto.
      * apply ok1; [auto| |exact HK|exact G]. cbn [good]. auto.
      * one.
    + destruct d as [|b d]; [one|]. destruct us; [apply ok1; [auto|cbn [good]; auto|exact HK|exact Hw]|].
      destruct l as [li|]; [|apply ok1; [auto|cbn [good]; auto|exact HK|exact Hw]].
      match goal with |- context [call_listener react li ?ev ?f w] => destruct (call_good li ev f w Hw) as [G1 G2]; destruct (call_listener react li ev f w) as [co w'] end.
      cbn [fst snd] in G1, G2. apply ok1; [auto|exact G1| |exact G2]. constructor; [|exact HK]. cbn [good]. auto.
    + one.
  - destruct p as [| |d|]; cbn [step_send].
    + destruct m as [[|b bs]|]; match goal with |- context [sendFrameHeaderAsync hh fin op ?n w] =>
        destruct (header_good hh fin op n w Hw) as [G1 G2]; destruct (sendFrameHeaderAsync hh fin op n w) as [[h' co] w'] end; cbn [fst snd] in G1, G2;
        (apply ok1; [auto|exact G1| |exact G2]; constructor; [exact Hc|exact HK]).
    + cbv zeta. destruct (h_hasMask hh); [|apply ok1; [auto|exact Hc|exact HK|exact Hw]].
      match goal with |- context [2 ^ 31 <=? ?n] => destruct (N.leb_spec (2 ^ 31) n) as [Hl|Hl] end; [|apply ok1; [auto|exact Hc|exact HK|exact Hw]].
      apply ok_ub; [|exact Hw]. cbn [coroutine_cause]. intros Hh. exact (proj1 (N.lt_nge _ _) (Hc Hh) Hl).
    + pose proof (HW d) as G. destruct (writeExactAsyncInline d w) as [[d'|d'| |] w']; cbn [snd] in G; first [apply ok0; assumption|apply ok1; [auto|exact Hc|exact HK|exact G]|one].
    + one.
  - destruct p as [d| |d| |d]; cbn [step_writeFrame]; cbv zeta.
    + pose proof (HW d) as G. destruct (writeExactAsyncInline d w) as [[d'|d'| |] w']; cbn [snd] in G; one.
    + destruct (_ =? 2); [one|]. destruct (_ =? 3); one.
    + pose proof (HW d) as G. destruct (writeExactAsyncInline d w) as [[d'|d'| |] w']; cbn [snd] in G; one.
    + destruct (h_hasMask hh); one.
    + pose proof (HW d) as G. destruct (writeExactAsyncInline d w) as [[d'|d'| |] w']; cbn [snd] in G; one.
  - cbn [good] in Hc. destruct cs as [|c0 cs]; cbn [step_user]; [one|]. cbv zeta. inversion Hc as [|? ? (C1 & C2 & C3) Hcs]; subst.
    assert (Hu : good (CoUser cs fr)) by exact Hcs.
    assert (Hgo : forall w', wok w' -> okres (ARun, Conf h sh (CoUser cs fr :: K) w')) by (intros w' Hw'; apply ok1; auto).
    destruct c0 as [|l|m b|ca op| | |f o m].
    + now apply Hgo.
    + apply Hgo. exact Hw.
    + apply Hgo. intros Hn. destruct (C1 Hn).
    + assert (Hs : good (start_send op)) by (apply send_good; exact C2). apply ok_go; [auto| |exact Hw]. constructor; [exact Hs|].
      destruct ca; cbn [app]; [constructor; [exact I|]|]; constructor; assumption.
    + destruct fr; [|now apply Hgo]. apply ok_ub; [|exact Hw]. now apply C3.
    + one.
    + assert (Hs : good (start_send (SoFrame f o m))) by (apply send_good; exact C2). apply ok_go; [auto| |exact Hw]. constructor; [exact Hs|]. now constructor.
  - one.
Qed.

(** ** All coroutines *)
Definition tgood (k : task) : Prop := Forall good (k_stack k) /\ forall u, k_status k = AUb u -> Bad u.
Definition cgood (s : crowd_t) : Prop := (forall i, tgood (fst s i)) /\ wok (snd s).
Lemma cgood_step e s : (forall rs, e = CArrive rs -> NC -> script_ok no_config any_err rs) -> cgood s -> cgood (kstep react e s).
Proof.
  intros He [Ht Hw]. destruct e as [i|rs]; cbn [kstep].
  - unfold ktick. destruct (Ht i) as [H1 H2].
    assert (G : okres (tick react (k_status (fst s i), Conf (k_hdr (fst s i)) (k_short (fst s i)) (k_stack (fst s i)) (snd s)))).
    { unfold tick. destruct (k_status (fst s i)) as [| | |e|u] eqn:Es; try (now apply ok_step); (split; [exact H1|]); (split; [exact Hw|]); try discriminate. cbn. intros u' [= <-]. now apply H2. }
    destruct (tick react _) as [st c]. destruct G as (G1 & G2 & G3). cbn [fst snd] in G1, G2, G3. split; [|exact G2].
    intros j. cbn [fst]. destruct (Nat.eqb j i); [split; assumption|apply Ht].
  - split; [exact Ht|]. intros Hn. destruct (Hw Hn) as [W1 W2]. split; [exact W1|]. cbn [snd set_in w_in]. apply Forall_app. split; [exact W2|exact (He rs eq_refl Hn)].
Qed.
Lemma cgood_run : forall evs s, (NC -> script_ok no_config any_err (arrived evs)) -> cgood s -> cgood (krun react evs s).
Proof.
  unfold krun. induction evs as [|e evs IH]; intros s Ha H; cbn [fold_left]; [exact H|].
  destruct e as [i|rs]; cbn [arrived] in Ha.
  - apply IH; [exact Ha|]. apply cgood_step; [discriminate|exact H].
  - assert (Ha2 : NC -> script_ok no_config any_err rs /\ script_ok no_config any_err (arrived evs)) by (intros Hn; now apply Forall_app, Ha).
    apply IH; [intros Hn; now apply Ha2|]. apply cgood_step; [|exact H]. intros rs' [= <-] Hn. now apply Ha2.
Qed.
End Ends.

(** Whatever arrives and fails, whatever callbacks and other coroutines do in whatever order: what each kind of undefined behaviour takes. Taking
    the listener away is not among it: unlike the blocking socket (C70, C15) this one keeps the listener it has taken at the start of the frame. *)
Theorem C79_causes : forall react work w evs i u,
  status_of (krun react evs (crowd_init work w)) i = AUb u -> coroutine_cause react work (w_in w ++ arrived evs) u.
Proof.
  intros react work w evs i u Hu.
  assert (Hn : NC react work (w_in w ++ arrived evs) -> script_ok no_config any_err (w_in w) /\ script_ok no_config any_err (arrived evs)).
  { intros [_ H]. now apply Forall_app in H. }
  destruct (cgood_run react work (w_in w ++ arrived evs) (s_buf (w_sock w)) evs (crowd_init work w)) as [H _].
  - intros H. now apply Hn.
  - split.
    + intros j. split; [|destruct j; discriminate]. destruct j as [|j]; cbn [crowd_init fst k_stack]; (constructor; [|constructor]); [exact I|].
      apply Forall_forall. intros c Hc. split; [|split; [|discriminate]].
      * intros [[_ Hr] _]. specialize (Hr (S j)). rewrite Forall_forall in Hr. exact (Hr _ Hc).
      * intros [_ Hr]. specialize (Hr (S j)). rewrite Forall_forall in Hr. exact (Hr _ Hc).
    + intros H. split; [reflexivity|]. now apply Hn.
  - now apply (H i).
Qed.
Print Assumptions C79_causes.

(** Each can happen (UbSigned: C26); without the listener, nothing does. *)
Definition crew_world (wr : list wev) : world := World [RData x82 [x82; x00; x00; x00; x00]; RData x01 [x02]] wr [] (fun _ => x00) 0 [] (Sock false 1 (Some 0%nat) (-1) false).
Definition crew_work (c : cmd) (i : nat) : list cmd := match i with 1%nat => [c] | _ => [] end.
Definition crew (react : react_t) (n : nat) (c : cmd) : crowd_t :=
  krun react (repeat (CTick 0) n ++ [CTick 1; CTick 1; CTick 1] ++ repeat (CTick 0) 40) (crowd_init (crew_work c) (crew_world [])).
Definition looking : react_t := fun _ _ => [CUseData].
Definition quiet : react_t := fun _ _ => [].
Example C79_causes_nonvacuous :
  status_of (crew looking 3 CStop) 0 = AUb UbDangling /\ status_of (crew quiet 8 (CSetConfig false 2)) 0 = AUb UbOverflow /\
  status_of (crew quiet 10 (CSetListener None)) 0 = AWait /\ notified (crew quiet 10 (CSetListener None)) = [(0%nat, EvMsg 2 [x01]); (0%nat, EvMsg 2 [x02]); (0%nat, EvEnd 2)] /\
  ~ coroutine_cause quiet (crew_work (CSetListener None)) (w_in (crew_world []) ++ []) UbDangling /\
  ~ coroutine_cause quiet (crew_work (CSetListener None)) (w_in (crew_world []) ++ []) UbOverflow.
Proof.
  split; [vm_compute; reflexivity|]. split; [vm_compute; reflexivity|]. split; [vm_compute; reflexivity|]. split; [vm_compute; reflexivity|]. split.
  - intros (l & log & H). exact H.
  - intros H. apply H. split; [split; [intros l log; apply Forall_nil|intros [|[|j]]; repeat constructor]|repeat constructor].
Qed.
