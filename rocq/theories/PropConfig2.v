(** C64 for the asynchronous socket. *)
From Verif Require Import Bytes Frame World WebSocket AsyncWebSocket SpecFrame SpecSend SpecListen SpecApi SpecReply SpecAsync SpecThreads SpecConfig
  ProofFrame ProofStream ProofSend ProofAsync ProofAsync2 ProofCoroutines PropNet.
From Coq Require Import Lia ZifyBool ZifyNat ZifyN.
Local Open Scope N_scope.
Local Arguments takeN : simpl never.
Local Arguments dropN : simpl never.
Local Arguments lenN : simpl never.
Local Arguments be_enc : simpl never.
Local Arguments be_dec : simpl never.
Local Arguments packHeaderBits : simpl never.
Local Arguments unpackHeaderBits : simpl never.

(** * Sizes of what is read *)
Definition calm (co : cor) : Prop := match co with CoPayload _ _ _ _ (RpReadData _) | CoPayload _ _ _ _ (RpOnData _) => False | _ => True end.
Definition sizes (w : world) (co : cor) : Prop :=
  match co with
  | CoPayload _ _ _ _ (RpReadData n) => (n <= s_buf (w_sock w))%Z
  | CoPayload _ _ _ _ (RpOnData d) => d = [] \/ (Z.of_N (lenN d) <= s_buf (w_sock w))%Z
  | _ => True
  end.
Definition wellsized (w : world) (st : list cor) : Prop := match st with [] => True | co :: K => sizes w co /\ Forall calm K end.

Lemma calm_well w st : Forall calm st -> wellsized w st.
Proof. intros [|co K H1 H2]; [exact I|]. split; [|exact H2]. destruct co as [| | |? ? ? ? []| | | |]; cbn in *; auto; contradiction. Qed.
Lemma unwind_calm st st' : Forall calm st -> unwind st = Some st' -> Forall calm st'.
Proof. induction 1 as [|co K H1 H2 IH]; cbn; [discriminate|]. destruct co; try exact IH. intros [= <-]. exact H2. Qed.

Section Sizes.
Variable react : react_t.
(** What a receiving step leaves behind. *)
Definition sized_step (w : world) (x : status * conf) : Prop :=
  match c_stack (snd x) with
  | CoUser _ _ :: K' => Forall calm K' /\ exists l ev, w_log (c_world (snd x)) = w_log w ++ [(l, ev)] /\ ev_size (s_buf (w_sock w)) (l, ev)
  | st => wellsized (c_world (snd x)) st
  end.
Definition no_user (st : list cor) : Prop := Forall listening_co st.
Lemma sized_ret w s hdr short st r : no_user st -> wellsized r st -> sized_step w (s, Conf hdr short st r).
Proof. unfold sized_step. cbn [snd c_stack c_world]. intros [|co K H1 H2]; [auto|]. destruct co; auto; contradiction. Qed.
Lemma sized_fail w e hdr short st r : no_user st -> sized_step w (fail e (Conf hdr short st r)).
Proof. intros H. unfold fail. cbn [c_stack]. rewrite (unwind_listening st H). cbn [snd]. unfold sized_step. cbn. exact I. Qed.
Lemma sized_call w l ev freed hdr short K r : Forall calm K -> w_log r = w_log w -> ev_size (s_buf (w_sock w)) (l, ev) ->
  sized_step w (let (co, w') := call_listener react l ev freed r in (ARun, Conf hdr short (co :: K) w')).
Proof. intros H1 H2 H3. unfold call_listener, sized_step. cbn [snd c_stack c_world set_log w_log]. split; [exact H1|]. exists l, ev. rewrite H2. auto. Qed.
Lemma same_buf w r st : s_buf (w_sock r) = s_buf (w_sock w) -> wellsized w st -> wellsized r st.
Proof. intros H. destruct st as [|co K]; [auto|]. intros [H1 H2]. split; [|exact H2]. destruct co as [| | |? ? ? ? []| | | |]; cbn in *; auto; now rewrite H. Qed.
Lemma exact_sock n got w : io_only (w_in w) -> s_buf (w_sock (snd (readExactAsyncInline n got w))) = s_buf (w_sock w).
Proof.
  intros H. unfold readExactAsyncInline. destruct (n <=? lenN got); [reflexivity|].
  destruct (read_raw (n - lenN got) (w_in w) (w_sock w)) as [[rr s'] k'] eqn:E. destruct (no_ext_read _ _ _ _ _ _ H E) as [-> _].
  destruct rr as [d|[]|]; reflexivity.
Qed.
Lemma some_sized n w : io_only (w_in w) -> s_buf (w_sock (snd (readSomeAsyncInline n w))) = s_buf (w_sock w) /\
  match fst (readSomeAsyncInline n w) with INext d => d = [] \/ (Z.of_N (lenN d) <= n)%Z | _ => True end.
Proof.
  intros H. unfold readSomeAsyncInline. destruct (n <=? 0)%Z eqn:En; [cbn; auto|].
  destruct (read_raw (Z.to_N n) (w_in w) (w_sock w)) as [[rr s'] k'] eqn:E. destruct (no_ext_read _ _ _ _ _ _ H E) as [-> _].
  pose proof (read_raw_bytes (Z.to_N n) _ _ _ _ _ ltac:(lia) E) as Hs.
  destruct rr as [d|[]|]; cbn; (split; [reflexivity|auto]). right. lia.
Qed.

Lemma size_step hdr short st w : Forall listening_co st -> io_only (w_in w) -> wellsized w st ->
  sized_step w (step react (Conf hdr short st w)).
Proof.
  intros HL Hio HW. destruct HL as [|co K Hco HK]; [exact I|]. destruct HW as [Hs Hc].
  assert (no_user K) as HK' by exact HK.
  destruct co as [|p|l p|l u a g p|fin opcode m h p|h p|cs freed|]; cbn in Hco; try contradiction; cbn [step].
  - destruct (h_opcode hdr =? OPCODE_CLOSE); apply sized_ret; try exact HK; try (now apply calm_well).
    + repeat constructor; exact HK.
    + split; [exact I|]. repeat constructor; exact Hc.
  - assert (forall s h p' r, sized_step w (s, Conf h short (CoReadFrame p' :: K) r)) as H1.
    { intros. apply sized_ret; [constructor; [exact I|exact HK]|split; [exact I|exact Hc]]. }
    assert (forall s h r, sized_step w (s, Conf h short K r)) as H2.
    { intros. apply sized_ret; [exact HK|now apply calm_well]. }
    destruct p as [got|bb|t got|t got|got]; cbn [step_readFrame].
    + destruct (readExactAsyncInline 2 got w) as [[] w']; try apply H1. now apply sized_fail.
    + destruct (unpackHeaderBits (be_dec bb) hdr) as [h len]. destruct (len <? 126); [|destruct (len =? 126); [|destruct (len =? 127)]]; try apply H1. now apply sized_fail.
    + destruct (readExactAsyncInline _ got w) as [[] w']; try apply H1. now apply sized_fail.
    + set (h := if t =? 2 then _ else _). destruct (h_hasMask h); [apply H1|apply H2].
    + destruct (readExactAsyncInline 4 got w) as [[] w']; try apply H1; [apply H2|now apply sized_fail].
  - assert (forall us nx sh r, sized_step w match readPayloadAsync hdr us r with
      | inl e => fail e (Conf hdr sh K r)
      | inr co => (ARun, Conf hdr sh (co :: CoHandle l nx :: K) r) end) as HP.
    { intros us nx sh r. unfold readPayloadAsync. destruct (_ && _)%bool; [now apply sized_fail|]. destruct (_ <? 0)%Z; [now apply sized_fail|].
      apply sized_ret; [repeat constructor; exact HK|]. split; [exact I|]. repeat constructor; exact Hc. }
    assert (forall ev, (forall B k, ev_size B (k, ev)) -> sized_step w match l with
      | Some li => let (co, w') := call_listener react li ev false w in (ARun, Conf hdr short (co :: CoHandle l HfFinish :: K) w')
      | None => (ARun, Conf hdr short K w) end) as HC.
    { intros ev He. destruct l as [li|]; [|apply sized_ret; [exact HK|now apply calm_well]]. apply sized_call; [constructor; [exact I|exact Hc]|reflexivity|apply He]. }
    destruct p; cbn [step_handle]; try (apply HC; intros; exact I); [|apply sized_ret; [exact HK|now apply calm_well]].
    assert (forall nx, sized_step w (let (ok, w') := checkForContinuationA hdr w in
       if ok then match readPayloadAsync hdr false w' with
                  | inl e => fail e (Conf hdr short K w')
                  | inr co => (ARun, Conf hdr short (co :: CoHandle l nx :: K) w') end
       else fail ExContinuationExpected (Conf hdr short K w'))) as HD.
    { intros nx. destruct (checkForContinuationA hdr w) as [[] w']; [apply HP|now apply sized_fail]. }
    destruct (h_opcode hdr) as [|q].
    { destruct (s_last (w_sock w) <? 0)%Z; [now apply sized_fail|apply HP]. }
    do 4 (try (destruct q as [q|q|])); first [apply HD|apply HP|now apply sized_fail].
  - assert (forall a' g' p' s sh r, sizes r (CoPayload l u a' g' p') -> sized_step w (s, Conf hdr sh (CoPayload l u a' g' p' :: K) r)) as H1.
    { intros. apply sized_ret; [constructor; [exact I|exact HK]|split; [assumption|exact Hc]]. }
    assert (forall s sh r, sized_step w (s, Conf hdr sh K r)) as H2.
    { intros. apply sized_ret; [exact HK|now apply calm_well]. }
    destruct p as [|n|d|]; cbn [step_payload].
    + destruct (g <? h_len hdr)%Z; [apply H1; cbn [sizes]; destruct (_ <? _)%Z eqn:E; lia|].
      destruct (_ && _)%bool; [|apply H2]. destruct l as [li|]; [|apply H2]. apply sized_call; [constructor; [exact I|exact Hc]|reflexivity|exact I].
    + cbn [sizes] in Hs. destruct (some_sized n w Hio) as [Hb Hd]. destruct (readSomeAsyncInline n w) as [[d|d| |] w']; cbn [fst snd] in *.
      * destruct (a <? _)%Z; [apply sized_ret; [constructor|exact I]|]. apply H1. cbn [sizes]. rewrite Hb. destruct Hd; [auto|]. right. lia.
      * apply H1. cbn [sizes]. now rewrite Hb.
      * apply H1. cbn [sizes]. now rewrite Hb.
      * now apply sized_fail.
    + destruct d as [|b d]; [now apply sized_fail|]. destruct u; [apply H1; exact I|]. destruct l as [li|]; [|apply H1; exact I].
      apply sized_call; [constructor; [exact I|exact Hc]|reflexivity|]. destruct Hs as [Hs|Hs]; [discriminate|].
      unfold ev_size. cbn [snd]. destruct (h_hasMask hdr); rewrite ?lenN_xor_from; (split; [rewrite lenN_cons; clear; lia|exact Hs]).
    + apply H2.
Qed.
End Sizes.

(** * Running *)
Lemma done_snoc react new e : forall log, done_by react log (new ++ [e]) = done_by react log new ++ until_throw (react (fst e) (log ++ new ++ [e])).
Proof.
  induction new as [|x new IH]; intros log; cbn [done_by app]; [now rewrite app_nil_r|].
  rewrite IH, <- !app_assoc. cbn [app]. reflexivity.
Qed.
Lemma sized_snoc react new e : forall c log, sized react c log new -> ev_size (snd (config_after c (done_by react log new))) e -> sized react c log (new ++ [e]).
Proof.
  assert (forall a b c, config_after c (a ++ b) = config_after (config_after c a) b) as Happ.
  { induction a as [|x a IH]; intros b c; [reflexivity|]. destruct x; cbn [config_after app]; apply IH. }
  induction new as [|x new IH]; intros c log; cbn [sized app done_by config_after]; [auto|].
  intros [H1 H2] H3. split; [exact H1|]. apply IH; [exact H2|]. now rewrite <- Happ.
Qed.

Section Run.
Variables (react : react_t) (w0 : world).
Hypothesis Hsmall : small_react react.
Definition conf_of (w : world) : bool * Z := (s_mask (w_sock w), s_buf (w_sock w)).
Definition to_come (v : voice) (w : world) (rest : list cmd) : bytes :=
  match v with
  | VIdle => written (s_mask (w_sock w)) (w_rnd w) (w_rpos w) rest
  | VStart op => sent_wire (key_at (s_mask (w_sock w)) (w_rnd w) (w_rpos w)) op
                 ++ written (s_mask (w_sock w)) (w_rnd w) (w_rpos w + used (s_mask (w_sock w))) rest
  | VSend d => d ++ written (s_mask (w_sock w)) (w_rnd w) (w_rpos w) rest
  end.
Definition all_of (cs : list cmd) : bytes := w_out w0 ++ written (s_mask (w_sock w0)) (w_rnd w0) (w_rpos w0) cs.
Definition owed (v : voice) (w : world) (rest : list cmd) (new : list (nat * event)) : Prop :=
  (forall tail, w_out w ++ to_come v w (rest ++ tail) = all_of (done_by react (w_log w0) new ++ tail)) /\
  forall tail, config_after (conf_of w) (rest ++ tail) = config_after (conf_of w0) (done_by react (w_log w0) new ++ tail).
Definition steady (w : world) (new : list (nat * event)) : Prop :=
  w_rnd w = w_rnd w0 /\ healthy (w_wr w) /\ io_only (w_in w) /\ w_log w = w_log w0 ++ new /\ sized react (conf_of w0) (w_log w0) new.
Inductive configured : status * conf -> Prop :=
| cf_hear st hdr short K w new : Forall listening_co K -> wellsized w K -> steady w new -> owed VIdle w [] new -> configured (st, Conf hdr short K w)
| cf_talk hdr short K cs freed v stk w new : talking K cs freed v stk -> Forall listening_co K -> Forall calm K -> Forall small_cmd cs ->
    steady w new -> owed v w (until_throw cs) new -> configured (ARun, Conf hdr short stk w)
| cf_ub hdr short K w new : steady w new -> prefix (w_out w) (all_of (done_by react (w_log w0) new)) -> configured (AUb UbDangling, Conf hdr short K w).

Lemma owed_same w w' v rest new : s_mask (w_sock w') = s_mask (w_sock w) -> s_buf (w_sock w') = s_buf (w_sock w) -> w_rnd w' = w_rnd w -> w_rpos w' = w_rpos w ->
  w_out w' = w_out w -> owed v w rest new -> owed v w' rest new.
Proof.
  intros H1 H2 H3 H4 H5 [A B]. split; intros tail.
  - rewrite <- A, H5. f_equal. unfold to_come. now rewrite H1, H3, H4.
  - rewrite <- B. unfold conf_of. now rewrite H1, H2.
Qed.

Lemma configured_step st c : configured (st, c) -> (st = ARun \/ st = AWait) -> configured (step react c).
Proof.
  intros H Hst. inversion H as [st' hdr short K w new HL HW HS HO|hdr short K cs freed v stk w new HT HL HC Hsc HS HO|hdr short K w new HS HP]; subst; clear H.
  - destruct HS as (S1 & S2 & S3 & S4 & S5). destruct (like_self w) as [wa Ha].
    pose proof (hear_step react [] w hdr short K wa HL S3 Ha) as HH. pose proof (size_step react hdr short K w HL S3 HW) as HZ.
    destruct (step react (Conf hdr short K w)) as [st1 [hdr1 short1 K1 w1]].
    destruct HH as ((A1 & A2 & A3 & A4 & A5 & A6 & A7 & A8) & _ & _ & _ & _ & HH). cbn [fst snd c_stack c_world] in *.
    destruct HH as [(_ & HL1 & Hlog)|(l & ev & freed & K' & -> & -> & _ & HL1 & Hlog)].
    + apply cf_hear with (new := new); [exact HL1| | |].
      * unfold sized_step in HZ. cbn [snd c_stack c_world] in HZ. destruct HL1 as [|co K1 Hco HL1]; [exact I|]. destruct co; try contradiction; exact HZ.
      * unfold steady. rewrite A4, A2, Hlog. auto.
      * now apply (owed_same w).
    + unfold sized_step in HZ. cbn [snd c_stack c_world] in HZ. destruct HZ as (HC & l' & ev' & Hlog' & Hsz). rewrite Hlog in Hlog'. apply app_inv_head in Hlog'. injection Hlog' as <- <-.
      destruct HO as [HO1 HO2].
      apply cf_talk with (K := K') (cs := react l (w_log w ++ [(l, ev)])) (freed := freed) (v := VIdle) (new := new ++ [(l, ev)]).
      * exact (tk_user K' _ freed false).
      * exact HL1.
      * exact HC.
      * apply Hsmall.
      * unfold steady. rewrite A4, A2, Hlog, S4, <- app_assoc. split; [exact S1|]. split; [exact S2|]. split; [exact A8|]. split; [reflexivity|].
        apply sized_snoc; [exact S5|]. specialize (HO2 []). rewrite !app_nil_r in HO2. cbn [config_after] in HO2. rewrite <- HO2. exact Hsz.
      * split; intros tail; rewrite done_snoc, <- app_assoc; cbn [fst].
        -- rewrite <- HO1. cbn [app]. rewrite A1. f_equal. unfold to_come. rewrite A3, A4, A5, S4, <- app_assoc. reflexivity.
        -- rewrite <- HO2. cbn [app]. unfold conf_of. rewrite A5, A7, S4, <- app_assoc. reflexivity.
  - destruct HS as (S1 & S2 & S3 & S4 & S5). pose proof (talk_step react K hdr short w (unwind_listening K HL) cs freed v stk Hsc HT) as HS.
    destruct (step react (Conf hdr short stk w)) as [st1 c1]. cbn [fst snd] in HS.
    assert (steady w new) as HSt by (unfold steady; auto).
    assert (forall w', mute w w' -> healthy (w_wr w') -> steady w' new) as HSt'.
    { intros w' (M1 & M2 & M3 & M4) Hh. unfold steady. rewrite M1, M2, M3. auto. }
    destruct HO as [HO1 HO2].
    inversion HS; subst; clear HS.
    + apply cf_hear with (new := new); [exact HL|now apply calm_well|exact HSt|split; [exact HO1|exact HO2]].
    + eapply cf_talk with (v := VIdle) (new := new); try eassumption. split; assumption.
    + apply Forall_cons_iff in Hsc. destruct Hsc as [_ Hsc'].
      eapply cf_talk with (v := VIdle) (new := new); try eassumption; [apply HSt'; [assumption|congruence]|].
      match goal with H : w_sock w' = _ |- _ => rename H into Hsock end.
      destruct c as [|lo|mm bb|cc oo| | |ff oo mm]; try discriminate; try congruence; cbn [until_throw cmd_sock] in *;
        (split; intros tail; [rewrite <- HO1|rewrite <- HO2]); cbn [app written config_after to_come]; unfold conf_of; rewrite ?Hsock; cbn [set_listener set_config s_mask s_buf];
        try (repeat match goal with H : _ = _ w |- _ => rewrite H end); try reflexivity.
      all: match goal with H : mute _ _ |- _ => destruct H as (M1 & M2 & M3 & M4) end; rewrite ?M3; reflexivity.
    + apply Forall_cons_iff in Hsc. destruct Hsc as [_ Hsc'].
      eapply cf_talk with (v := VStart op) (new := new); try eassumption.
      destruct c as [|lo|mm bb|cc oo| | |ff oo mm]; try discriminate; cbn [cmd_sends] in *; match goal with H : [_] = [_] |- _ => injection H as <- end; cbn [until_throw app] in *;
        (split; intros tail; [rewrite <- HO1|rewrite <- HO2]); cbn [app written config_after to_come]; reflexivity.
    + eapply cf_talk with (new := new); try eassumption; [apply HSt'; [assumption|congruence]|].
      match goal with H : w_sock w' = _, H2 : w_out w' = _, H3 : w_rpos w' = _, H4 : mute _ _ |- _ => rename H into B1; rename H2 into B2; rename H3 into B3; destruct H4 as (M1 & M2 & M3 & M4) end.
      split; intros tail; [rewrite <- HO1|rewrite <- HO2]; unfold conf_of; rewrite ?B1; [|reflexivity].
      cbn [to_come]. rewrite B1, B2, B3, M3. do 2 f_equal.
    + eapply cf_talk with (new := new); try eassumption; [apply HSt'; auto|].
      match goal with H : w_sock w' = _, H2 : w_out w' = _, H3 : w_rpos w' = _, H4 : mute _ _ |- _ => rename H into B1; rename H2 into B2; rename H3 into B3; destruct H4 as (M1 & M2 & M3 & M4) end.
      split; intros tail; [rewrite <- HO1|rewrite <- HO2]; unfold conf_of; rewrite ?B1; [|reflexivity].
      cbn [to_come]. rewrite B1, B2, B3, M3, <- !app_assoc. reflexivity.
    + exfalso. match goal with H : exists q, _ |- _ => destruct H as [q Hq] end. rewrite Hq in S2. inversion S2; subst; contradiction.
    + eapply cf_talk with (v := VIdle) (new := new); try eassumption. split; [exact HO1|exact HO2].
    + contradiction.
    + apply cf_hear with (new := new); [constructor|exact I|exact HSt|split; [exact HO1|exact HO2]].
    + apply cf_ub with (new := new); [exact HSt|]. specialize (HO1 []). rewrite app_nil_r in HO1. rewrite app_nil_r in HO1. eexists. symmetry. exact HO1.
    + contradiction.
  - destruct Hst; discriminate.
Qed.
End Run.

Lemma configured_run react w0 : small_react react -> forall evs sc, io_only (arrivals evs) -> configured react w0 sc -> configured react w0 (run react evs sc).
Proof.
  intros Hs. induction evs as [|[|s] evs IH]; intros sc Hio H; cbn [run]; [exact H| |].
  - apply IH; [exact Hio|]. destruct sc as [[] c]; cbn [tick]; try exact H; eapply configured_step; try exact H; auto.
  - cbn [arrivals] in Hio. apply Forall_app in Hio. destruct Hio as [Hio1 Hio2]. apply IH; [exact Hio2|].
    assert (forall w new, steady react w0 w new -> steady react w0 (set_in w (w_in w ++ s)) new) as HS.
    { intros w new (S1 & S2 & S3 & S4 & S5). unfold steady. cbn [set_in w_rnd w_wr w_in w_log]. split; [exact S1|]. split; [exact S2|]. split; [apply Forall_app; auto|]. auto. }
    inversion H; subst; cbn [fst snd]; unfold arrive; cbn [c_hdr c_short c_stack c_world].
    + apply cf_hear with (new := new); auto.
    + eapply cf_talk with (new := new); eauto.
    + apply cf_ub with (new := new); auto.
Qed.

(** * C64: a configuration set by a callback is in force from that point on, asynchronously *)
(** At any moment of any schedule: what has been written is a beginning of the frames the commands of the calls made so far require, and exactly
    those frames when the coroutine waits or has ended. *)
Theorem C64_config_async : forall react w evs st c,
  small_react react -> io_only (w_in w) -> io_only (arrivals evs) -> healthy (w_wr w) ->
  run react evs (ARun, start_listen w) = (st, c) ->
  exists new, w_log (c_world c) = w_log w ++ new /\
    let cs := done_by react (w_log w) new in
    let wire := w_out w ++ written (s_mask (w_sock w)) (w_rnd w) (w_rpos w) cs in
    prefix (w_out (c_world c)) wire /\
    sized react (s_mask (w_sock w), s_buf (w_sock w)) (w_log w) new /\
    (st <> ARun -> st <> AUb UbDangling ->
       w_out (c_world c) = wire /\
       (s_mask (w_sock (c_world c)), s_buf (w_sock (c_world c))) = config_after (s_mask (w_sock w), s_buf (w_sock w)) cs).
Proof.
  intros react w evs st c Hs Hio Harr Hh E.
  assert (configured react w (run react evs (ARun, start_listen w))) as H.
  { apply configured_run; try assumption. unfold start_listen. apply cf_hear with (new := []).
    - repeat constructor.
    - split; [exact I|constructor].
    - unfold steady. rewrite app_nil_r. cbn [sized]. auto.
    - split; reflexivity. }
  rewrite E in H. inversion H as [st' hdr short K w' new HL HW (S1 & S2 & S3 & S4 & S5) [HO1 HO2]|hdr short K cs freed v stk w' new HT HL HC Hsc (S1 & S2 & S3 & S4 & S5) [HO1 HO2]|hdr short K w' new (S1 & S2 & S3 & S4 & S5) HP];
    subst; cbn [c_world]; exists new; (split; [exact S4|]); cbv zeta.
  - specialize (HO1 []). specialize (HO2 []). cbn [app] in HO1, HO2. rewrite app_nil_r in HO1, HO2. unfold to_come in HO1. cbn [written config_after] in HO1, HO2. rewrite app_nil_r in HO1.
    split; [exists []; rewrite app_nil_r; symmetry; exact HO1|]. split; [exact S5|]. intros _ _. split; [exact HO1|exact HO2].
  - specialize (HO1 []). rewrite !app_nil_r in HO1. split; [eexists; symmetry; exact HO1|]. split; [exact S5|]. congruence.
  - split; [exact HP|]. split; [exact S5|]. congruence.
Qed.
Print Assumptions C64_config_async.

(** The listener of C64_nonvacuous on the asynchronous socket; the second message arrives later. *)
From Verif Require PropConfig.
Example C64_async_nonvacuous :
  let w := World [RData x81 [x05; x68; x65; x6c; x6c; x6f]] [WAccept 1; WIo IoRetry] []
             (fun i => n2b (N.of_nat i)) 0 [] (set_config (set_listener (sock_new false) (Some 7%nat)) false 4) in
  let sc := run PropConfig.reconf (ticks 40 ++ Arrive [RData x81 [x05; x77; x6f]; RIo IoRetry; RData x72 [x6c; x64]] :: ticks 90) (ARun, start_listen w) in
  small_react PropConfig.reconf /\ healthy (w_wr w) /\ fst sc = AWait /\
  w_log (c_world (snd sc)) = [(7%nat, EvMsg 1 [x68; x65; x6c; x6c]); (7%nat, EvMsg 1 [x6f]); (7%nat, EvEnd 1);
              (7%nat, EvMsg 1 [x77; x6f]); (7%nat, EvMsg 1 [x72; x6c]); (7%nat, EvMsg 1 [x64]); (7%nat, EvEnd 1)] /\
  w_out (c_world (snd sc)) = [x81; x01; x61] ++ [x81; x81; x00; x01; x02; x03; x62] ++ [x81; x81; x04; x05; x06; x07; x65] ++ [x81; x81; x08; x09; x0a; x0b; x6a] /\
  (s_mask (w_sock (c_world (snd sc))), s_buf (w_sock (c_world (snd sc)))) = (true, 2%Z).
Proof.
  cbv zeta. split; [apply PropConfig.C64_nonvacuous|]. split; [repeat constructor|]. vm_compute. repeat split.
Qed.
