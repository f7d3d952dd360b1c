(** C24 for listenAsync and for the sockets of a server: every frame is masked as configured. *)
From Verif Require Import Bytes Frame World WebSocket AsyncWebSocket SpecFrame SpecSend SpecListen SpecApi SpecReply SpecAsync SpecThreads SpecCausal Lifecycle Server SpecServer ThreadServer SpecThreadServer
  ProofFrame ProofStream ProofSend ProofRel ProofAsync ProofAsync2 ProofCoroutines PropCost.
From Verif Require PropServer PropThreadServer2.
From Coq Require Import ZifyBool ZifyNat ZifyN.
Local Open Scope N_scope.
Local Arguments takeN : simpl never.
Local Arguments dropN : simpl never.
Local Arguments lenN : simpl never.
Local Arguments be_enc : simpl never.
Local Arguments be_dec : simpl never.
Local Arguments packHeaderBits : simpl never.
Local Arguments unpackHeaderBits : simpl never.
Local Arguments xor_from : simpl never.

Section Masking.
Variable m : bool.
Variable whole : Prop.
Variable react : react_t.
Hypothesis Hsmall : small_react react.
Hypothesis Hmask : mask_react m react.

Definition fair (w : world) : Prop := s_mask (w_sock w) = m /\ (whole -> healthy (w_wr w)) /\ script_ok (mask_ext m) any_err (w_in w).
Definition quiet (w w' : world) : Prop := w_out w' = w_out w /\ (fair w -> fair w').
Lemma quiet_refl w : quiet w w.
Proof. split; auto. Qed.

Lemma read_raw_mask n s k r s' k' : read_raw n s k = (r, s', k') -> script_ok (mask_ext m) any_err s -> s_mask k = m -> s_mask k' = m /\ script_ok (mask_ext m) any_err s'.
Proof.
  revert k. induction s as [|[b bs|e|x] s IH]; intros k; cbn [read_raw].
  - intros [= <- <- <-]. auto.
  - intros E H1 H2. assert (s' = unread (dropN n (b :: bs)) s /\ k' = k) as [-> ->] by (split; congruence). inversion H1; subst.
    split; [reflexivity|]. destruct (dropN n (b :: bs)); [assumption|now constructor].
  - intros [= <- <- <-] H1 H2. inversion H1; subst. auto.
  - intros E H1 H2. inversion H1; subst. apply (IH _ E); [assumption|]. destruct x; cbn in *; congruence.
Qed.
Lemma quiet_read w n r s' k' : read_raw n (w_in w) (w_sock w) = (r, s', k') -> quiet w (set_sock (set_in w s') k').
Proof.
  intros E. split; [reflexivity|]. intros (H1 & H2 & H3). destruct (read_raw_mask _ _ _ _ _ _ E H3 H1) as [H4 H5]. split; [exact H4|]. split; [exact H2|exact H5].
Qed.
Lemma quiet_exact n got w r w' : readExactAsyncInline n got w = (r, w') -> quiet w w'.
Proof.
  unfold readExactAsyncInline. destruct (_ <=? _); [intros [= <- <-]; apply quiet_refl|].
  destruct (read_raw _ _ _) as [[r0 s'] k'] eqn:E. apply quiet_read in E. cbv zeta. destruct r0 as [d|[]|]; intros [= <- <-]; exact E.
Qed.
Lemma quiet_some n w r w' : readSomeAsyncInline n w = (r, w') -> quiet w w'.
Proof.
  unfold readSomeAsyncInline. destruct (_ <=? _)%Z; [intros [= <- <-]; apply quiet_refl|].
  destruct (read_raw _ _ _) as [[r0 s'] k'] eqn:E. apply quiet_read in E. cbv zeta. destruct r0 as [d|[]|]; intros [= <- <-]; exact E.
Qed.

(** A step of the receiving coroutines writes nothing. *)
Definition heard (w : world) (x : status * conf) : Prop :=
  quiet w (c_world (snd x)) /\
  (Forall listening_co (c_stack (snd x)) \/ exists l log f K', c_stack (snd x) = CoUser (react l log) f :: K' /\ Forall listening_co K').
Lemma heard_on st h s K w w' : quiet w w' -> Forall listening_co K -> heard w (st, Conf h s K w').
Proof. intros H1 H2. split; [exact H1|left; exact H2]. Qed.
Lemma heard_fail e h s K w w' : quiet w w' -> Forall listening_co K -> heard w (fail e (Conf h s K w')).
Proof. intros H1 H2. unfold fail. cbn [c_stack]. rewrite (unwind_listening _ H2). apply heard_on; [exact H1|constructor]. Qed.
Lemma heard_call l ev f h s K w : Forall listening_co K -> heard w (let (co, w') := call_listener react l ev f w in (ARun, Conf h s (co :: K) w')).
Proof. intros H. split; [split; [reflexivity|auto]|]. right. cbn. eauto 7. Qed.

Ltac lis := repeat (first [assumption|exact Logic.I|constructor]).
Lemma hear_any h s st w : Forall listening_co st -> heard w (step react (Conf h s st w)).
Proof.
  intros HL. cbn [step]. destruct st as [|co K]; [apply heard_on; [apply quiet_refl|constructor]|].
  inversion HL as [|? ? Hco HK]; subst. pose proof (quiet_refl w) as Hq.
  destruct co as [|p|l p|l us al pr p|fin op mm hh p|hh p|cs f|]; try contradiction Hco.
  - destruct (_ =? _); apply heard_on; lis.
  - unfold step_readFrame. cbv zeta. destruct p as [got|bb|t got|t d|got].
    1,3,5: destruct (readExactAsyncInline _ got w) as [[d|d| |] w1] eqn:E; apply quiet_exact in E; first [apply heard_on; lis|apply heard_fail; lis].
    + destruct (unpackHeaderBits _ _) as [h1 l1]. destruct (_ <? _); [apply heard_on; lis|]. destruct (_ =? _); [apply heard_on; lis|]. destruct (_ =? _); [apply heard_on; lis|apply heard_fail; lis].
    + destruct (h_hasMask _); apply heard_on; lis.
  - unfold step_handle. cbv zeta.
    assert (forall us nx sh w0, quiet w w0 -> heard w match readPayloadAsync h us w0 with inl e => fail e (Conf h sh K w0) | inr co => (ARun, Conf h sh (co :: CoHandle l nx :: K) w0) end) as HP.
    { intros us nx sh w0 Hw0. unfold readPayloadAsync. destruct (_ && _)%bool; [apply heard_fail; lis|]. destruct (_ <? _)%Z; [apply heard_fail; lis|apply heard_on; lis]. }
    assert (forall e, heard w (fail e (Conf h s K w))) as HF by (intros; apply heard_fail; lis).
    assert (heard w (let (ok, w') := checkForContinuationA h w in
          if (ok : bool) then match readPayloadAsync h false w' with inl e => fail e (Conf h s K w') | inr co => (ARun, Conf h s (co :: CoHandle l HfFinish :: K) w') end
          else fail ExContinuationExpected (Conf h s K w'))) as HC.
    { unfold checkForContinuationA. cbv zeta. destruct (_ || _)%bool; [apply HF|]. apply HP. split; [reflexivity|]. intros (F1 & F2 & F3). split; [exact F1|]. split; [exact F2|exact F3]. }
    destruct p.
    + destruct (h_opcode h) as [|[[[[q|q|]|[q|q|]|]|[[q|q|]|[q|q|]|]|]|[[[q|q|]|[q|q|]|]|[[q|q|]|[q|q|]|]|]|]];
        first [exact (HF _)|exact HC|exact (HP _ _ _ _ Hq)|idtac].
      destruct (_ <? _)%Z; [apply HF|apply HP; exact Hq].
    + destruct l; [apply heard_call; lis|apply heard_on; lis].
    + destruct l; [apply heard_call; lis|apply heard_on; lis].
    + destruct l; [apply heard_call; lis|apply heard_on; lis].
    + apply heard_on; lis.
  - unfold step_payload. cbv zeta. destruct p as [|n|d|].
    + destruct (_ <? _)%Z; [apply heard_on; lis|]. destruct (_ && _)%bool; [destruct l; [apply heard_call; lis|apply heard_on; lis]|apply heard_on; lis].
    + destruct (readSomeAsyncInline n w) as [[d|d| |] w1] eqn:E; apply quiet_some in E; try (apply heard_on; lis); [|apply heard_fail; lis].
      destruct (_ <? _)%Z; apply heard_on; lis.
    + destruct d; [apply heard_fail; lis|]. destruct us; [apply heard_on; lis|]. destruct l; [apply heard_call; lis|apply heard_on; lis].
    + apply heard_on; lis.
Qed.

(** * What has been written *)
Definition speaks (out0 : bytes) (c : conf) : Prop :=
  exists fs part, w_out (c_world c) = out0 ++ concat (map snd fs) ++ part /\ Forall (frame_piece m) fs /\ (whole -> Forall frame_whole fs) /\
    ((Forall listening_co (c_stack c) /\ part = []) \/
     exists K cs freed v, Forall listening_co K /\ Forall small_cmd cs /\ Forall (mask_cmd m) cs /\ talking K cs freed v (c_stack c) /\
       match v with VSend lf => exists key op, has_key key = m /\ part ++ lf = sent_wire key op | _ => part = [] end).

Lemma end_frame out out0 fs part key op lf : out = out0 ++ concat (map snd fs) ++ part -> Forall (frame_piece m) fs -> (whole -> Forall frame_whole fs) ->
  has_key key = m -> part ++ lf = sent_wire key op -> (whole -> lf = []) ->
  exists fs', out = out0 ++ concat (map snd fs') ++ [] /\ Forall (frame_piece m) fs' /\ (whole -> Forall frame_whole fs').
Proof.
  intros H1 H2 H3 H4 H5 H6. exists (fs ++ [(frame_for key op, part)]). rewrite map_app, concat_app, app_nil_r. cbn [map concat snd]. rewrite app_nil_r. split; [exact H1|]. split.
  - apply Forall_app. split; [exact H2|]. constructor; [|constructor]. split; [exact H4|]. cbn [fst snd frame_for f_rsv1 f_rsv2 f_rsv3]. repeat (split; [reflexivity|]). exists lf. symmetry. exact H5.
  - intros Hw. apply Forall_app. split; [exact (H3 Hw)|]. constructor; [|constructor]. unfold frame_whole. cbn [fst snd]. rewrite (H6 Hw), app_nil_r in H5. exact H5.
Qed.

Lemma key_masked w : s_mask (w_sock w) = m -> has_key (next_key_opt w) = m.
Proof. unfold next_key_opt. intros <-. destruct (s_mask (w_sock w)); reflexivity. Qed.

Lemma speaks_step out0 c : speaks out0 c -> fair (c_world c) -> speaks out0 (snd (step react c)) /\ fair (c_world (snd (step react c))).
Proof.
  destruct c as [h s st w]. intros (fs & part & H1 & H2 & H3 & H4) HF. cbn [c_world c_stack] in *. destruct H4 as [[H4 ->]|(K & cs & freed & v & HK & Hsm & Hmk & Ht & Hv)].
  - destruct (hear_any h s st w H4) as [[Q1 Q2] Q3]. split; [|exact (Q2 HF)].
    exists fs, []. rewrite Q1. split; [exact H1|]. split; [exact H2|]. split; [exact H3|].
    destruct Q3 as [Q3|(l & log & f & K' & Q3 & Q4)]; [left; auto|]. right. exists K', (react l log), f, VIdle. rewrite Q3.
    split; [exact Q4|]. split; [apply Hsmall|]. split; [apply Hmask|]. split; [exact (tk_user K' _ f false)|reflexivity].
  - pose proof (talk_step react K h s w (unwind_listening _ HK) cs freed v st Hsm Ht) as HT.
    destruct (step react (Conf h s st w)) as [st' c']. cbn [fst snd] in *. destruct HF as (F1 & F2 & F3).
    assert (forall w', w_in w' = w_in w -> s_mask (w_sock w') = m -> (healthy (w_wr w) -> healthy (w_wr w')) -> fair w') as Hfr.
    { intros w' G1 G2 G3. split; [exact G2|]. split; [auto|]. rewrite G1. exact F3. }
    assert (forall st1 w1, w_out w1 = w_out w -> talking K cs freed VIdle st1 -> part = [] -> speaks out0 (Conf h s st1 w1)) as Hidle.
    { intros st1 w1 G1 G2 ->. exists fs, []. cbn [c_world c_stack]. rewrite G1. repeat (split; [assumption|]). right. exists K, cs, freed, VIdle. auto. }
    assert (forall st1 w1, w_out w1 = w_out w -> Forall listening_co st1 -> part = [] -> speaks out0 (Conf h s st1 w1)) as Hdone.
    { intros st1 w1 G1 G2 ->. exists fs, []. cbn [c_world c_stack]. rewrite G1. repeat (split; [assumption|]). left. auto. }
    destruct HT as [-> |st1 Hk1|c cs' st1 w1 -> G2 G3 Hf2 G4 G5 G6 G7 G8 G9|c cs' op st1 -> G2 G3|op st1 w1 G1 G2 G3 G4 G5 G6|a lf st1 w1 G1 G2 G3 G4 G5 G6|
      lf st1 G1 G2|st1 G1|lf st1 w1 G1 G2 G3 G4 G5 G6|cs' -> |cs' -> Hf2|lf w1 G2 G3 G4 G5 G6]; cbn [c_world c_stack].
    + split; [apply Hdone; auto|apply Hfr; auto].
    + split; [apply Hidle; auto|apply Hfr; auto].
    + destruct G9 as (M1 & _). inversion Hsm; subst. inversion Hmk as [|? ? Hc1 Hc2]; subst. split.
      * exists fs, []. cbn [c_world c_stack]. rewrite G6. repeat (split; [assumption|]). right. exists K, cs', freed, VIdle. auto 9.
      * apply Hfr; [exact M1| |rewrite G7; auto]. rewrite G5. destruct c; cbn in *; congruence.
    + inversion Hsm; subst. inversion Hmk; subst. split; [|apply Hfr; auto]. exists fs, []. cbn [c_world c_stack]. repeat (split; [assumption|]). right. exists K, cs', freed, (VStart op). auto 9.
    + destruct G6 as (M1 & _). subst part. split; [|apply Hfr; [exact M1|now rewrite G2|rewrite G4; auto]]. exists fs, []. cbn [c_world c_stack]. rewrite G3. repeat (split; [assumption|]).
      right. exists K, cs, freed, (VSend (sent_wire (next_key_opt w) op)). repeat (split; [assumption|]). exists (next_key_opt w), op. split; [now apply key_masked|reflexivity].
    + destruct G6 as (M1 & _). destruct Hv as (key & op & V1 & V2). split; [|apply Hfr; [exact M1|now rewrite G2|exact G4]].
      exists fs, (part ++ a). cbn [c_world c_stack]. rewrite G3, H1, <- !app_assoc. repeat (split; [assumption||reflexivity|]).
      right. exists K, cs, freed, (VSend lf). repeat (split; [assumption|]). exists key, op. split; [exact V1|]. now rewrite <- app_assoc.
    + split; [|apply Hfr; auto]. exists fs, part. cbn [c_world c_stack]. repeat (split; [assumption|]). right. exists K, cs, freed, (VSend lf). auto 9.
    + destruct Hv as (key & op & V1 & V2). split; [|apply Hfr; auto].
      destruct (end_frame _ _ _ _ _ _ _ H1 H2 H3 V1 V2) as (fs' & E1 & E2 & E3); [auto|]. exists fs', []. cbn [c_world c_stack]. repeat (split; [assumption|]). right. exists K, cs, freed, VIdle. auto 9.
    + destruct G6 as (M1 & _). destruct Hv as (key & op & V1 & V2). assert (~ whole) as Hnw by auto. split; [|apply Hfr; [exact M1|now rewrite G3|tauto]].
      destruct (end_frame _ _ _ _ _ _ _ H1 H2 H3 V1 V2) as (fs' & E1 & E2 & E3); [tauto|]. exists fs', []. cbn [c_world c_stack]. rewrite G4. repeat (split; [assumption|]). right. exists K, cs, freed, VIdle. auto 9.
    + split; [apply Hdone; auto|apply Hfr; auto].
    + split; [apply Hdone; auto|apply Hfr; auto].
    + destruct G6 as (M1 & _). destruct Hv as (key & op & V1 & V2). assert (~ whole) as Hnw by auto. split; [|apply Hfr; [exact M1|now rewrite G3|tauto]].
      destruct (end_frame _ _ _ _ _ _ _ H1 H2 H3 V1 V2) as (fs' & E1 & E2 & E3); [tauto|]. exists fs', []. cbn [c_world c_stack]. rewrite G4. repeat (split; [assumption|]). left. auto.
Qed.

Lemma speaks_tick out0 x : speaks out0 (snd x) -> fair (c_world (snd x)) -> speaks out0 (snd (tick react x)) /\ fair (c_world (snd (tick react x))).
Proof. destruct x as [st c]. cbn [snd]. intros H1 H2. destruct st; cbn [tick]; try (split; assumption); now apply speaks_step. Qed.
Lemma speaks_arrive out0 s c : script_ok (mask_ext m) any_err s -> speaks out0 c -> fair (c_world c) -> speaks out0 (arrive s c) /\ fair (c_world (arrive s c)).
Proof.
  intros H1 H2 (F1 & F2 & F3). split; [exact H2|]. split; [exact F1|]. split; [exact F2|]. apply Forall_app. auto.
Qed.
Lemma speaks_run out0 evs : script_ok (mask_ext m) any_err (arrivals evs) -> forall x, speaks out0 (snd x) -> fair (c_world (snd x)) ->
  speaks out0 (snd (run react evs x)) /\ fair (c_world (snd (run react evs x))).
Proof.
  induction evs as [|[|s] evs IH]; intros Ha x H1 H2; cbn [run arrivals] in *; [auto| |].
  - destruct (speaks_tick out0 x H1 H2). now apply IH.
  - apply Forall_app in Ha as [Ha1 Ha2]. destruct (speaks_arrive out0 s (snd x) Ha1 H1 H2). apply IH; assumption.
Qed.
Lemma speaks_ends out0 c : speaks out0 c -> exists fs, w_out (c_world c) = out0 ++ concat (map snd fs) /\ Forall (frame_piece m) fs /\ (whole -> Forall frame_whole (removelast fs)) /\
  (Forall listening_co (c_stack c) -> whole -> Forall frame_whole fs).
Proof.
  intros (fs & part & H1 & H2 & H3 & H4).
  assert (forall l : list (frame * bytes), Forall frame_whole l -> Forall frame_whole (removelast l)) as HR.
  { intros l. induction 1 as [|a l Ha Hl IH]; [constructor|]. cbn [removelast]. destruct l; [constructor|constructor; assumption]. }
  assert (part = [] -> exists fs, w_out (c_world c) = out0 ++ concat (map snd fs) /\ Forall (frame_piece m) fs /\ (whole -> Forall frame_whole (removelast fs)) /\
    (Forall listening_co (c_stack c) -> whole -> Forall frame_whole fs)) as H0.
  { intros ->. exists fs. rewrite app_nil_r in H1. auto 9. }
  destruct H4 as [[H4 H5]|(K & cs & freed & v & HK & Hsm & Hmk & Ht & Hv)]; [auto|]. destruct v as [|op|lf]; auto.
  destruct Hv as (key & op & V1 & V2). exists (fs ++ [(frame_for key op, part)]). rewrite map_app, concat_app, removelast_last. cbn [map concat snd]. rewrite app_nil_r. split; [exact H1|]. split; [|split; [exact H3|]].
  - apply Forall_app. split; [exact H2|]. constructor; [|constructor]. split; [exact V1|]. cbn [fst snd frame_for f_rsv1 f_rsv2 f_rsv3]. repeat (split; [reflexivity|]). exists lf. symmetry. exact V2.
  - intros HL. exfalso. inversion Ht as [| |F left b HF E1 E2]. rewrite <- E2 in HL. inversion HF; subst; inversion HL; contradiction.
Qed.
End Masking.

(** C24 for the asynchronous socket: whatever arrives, whatever write() does, and however the executor schedules: what listenAsync and the listener's coroutines have
    written is, at any time, a sequence of beginnings of RFC 6455 frames, all masked iff the socket was configured so; if writes make progress all but the
    last are whole. *)
Theorem C24_async : forall m react w evs st c,
  s_mask (w_sock w) = m -> mask_react m react -> small_react react -> script_ok (mask_ext m) any_err (w_in w ++ arrivals evs) ->
  run react evs (ARun, start_listen w) = (st, c) ->
  exists fs, w_out (c_world c) = w_out w ++ concat (map snd fs) /\ Forall (frame_piece m) fs /\ (healthy (w_wr w) -> Forall frame_whole (removelast fs)).
Proof.
  intros m react w evs st c Hm Hr Hs Ha E. apply Forall_app in Ha as [Ha1 Ha2].
  destruct (speaks_run m (healthy (w_wr w)) react Hs Hr (w_out w) evs Ha2 (ARun, start_listen w)) as [H1 _].
  - exists [], []. cbn. rewrite app_nil_r. split; [reflexivity|]. split; [constructor|]. split; [constructor|]. left. repeat constructor.
  - split; [exact Hm|]. split; [auto|exact Ha1].
  - rewrite E in H1. apply (speaks_ends m _ react Hr) in H1 as (fs & G1 & G2 & G3 & _). exists fs. auto.
Qed.
Print Assumptions C24_async.

(** * The sockets of AsyncConnectionHandler *)
Lemma life_run o s s' : life o s = Some s' -> v_run s' = v_run s.
Proof. unfold life. destruct (acstep _ _); [intros [= <-]; reflexivity|discriminate]. Qed.
Lemma served_unmasked xs k : Forall (mask_ext false) xs -> s_mask k = false -> s_mask (fold_left (fun k x => apply_ext x k) xs k) = false.
Proof. intros H. revert k. induction H as [|x xs Hx _ IH]; intros k Hk; cbn [fold_left]; [exact Hk|]. apply IH. destruct x; cbn in *; congruence. Qed.

Section ServerMask.
Variable setup : nat -> nat -> option (list ext).
Variable react : nat -> react_t.
Variable i : nat.
Hypothesis Hsetup : forall l p xs, setup l p = Some xs -> Forall (mask_ext false) xs.
Hypothesis Hsmall : small_react (react i).
Hypothesis Hmask : mask_react false (react i).

Definition vinv (s : server) : Prop :=
  script_ok (mask_ext false) any_err (w_in (c_world (snd (v_run s i)))) /\
  (exists fs, sent_to i s = concat (map snd fs) /\ Forall (frame_piece false) fs) /\
  (forall c, a_objs (v_life s) i = Some c -> c_socket c <> None -> speaks false False [] (snd (v_run s i)) /\ s_mask (w_sock (c_world (snd (v_run s i)))) = false).

Lemma life_objs o s s' : life o s = Some s' -> acstep o (v_life s) = Some (v_life s').
Proof. unfold life. destruct (acstep _ _); [intros [= <-]; reflexivity|discriminate]. Qed.

Lemma vinv_life o s s' : life o s = Some s' -> vinv s ->
  (forall c, a_objs (v_life s') i = Some c -> c_socket c <> None -> exists c0, a_objs (v_life s) i = Some c0 /\ c_socket c0 <> None) -> vinv s'.
Proof.
  intros E (H1 & H2 & H3) H4. unfold vinv, sent_to in *. rewrite (life_run _ _ _ E). split; [exact H1|]. split; [exact H2|].
  intros c Hc Hk. destruct (H4 c Hc Hk) as (c0 & Hc0 & Hk0). exact (H3 c0 Hc0 Hk0).
Qed.
Lemma vinv_other s s' : v_run s' i = v_run s i -> a_objs (v_life s') i = a_objs (v_life s) i -> vinv s -> vinv s'.
Proof. unfold vinv, sent_to. intros -> ->. auto. Qed.

Lemma upd_other {A} (f : nat -> A) j x : j <> i -> upd f j x i = f i.
Proof. unfold upd. intros H. destruct (Nat.eqb_spec i j); congruence. Qed.
Lemma upd_same {A} (f : nat -> A) x : upd f i x i = x.
Proof. unfold upd. now rewrite Nat.eqb_refl. Qed.

Lemma acstep_gone o s s' : acstep o s = Some s' -> (forall b, o <> AAct i b) ->
  forall c, a_objs s' i = Some c -> c_socket c <> None -> exists c0, a_objs s i = Some c0 /\ c_socket c0 <> None.
Proof.
  intros E Ho c Hc Hk. destruct o as [l|j cn p|j b|j]; cbn [acstep] in E.
  - injection E as <-. eauto.
  - injection E as <-. cbn [a_objs] in Hc. unfold upd in Hc. destruct (Nat.eqb_spec i j); [|eauto]. injection Hc as <-. now destruct Hk.
  - destruct (a_objs s j) as [c1|]; [|discriminate]. assert (j <> i) as Hj by (intros ->; now apply (Ho b)).
    destruct (c_listener c1); injection E as <-; cbn [a_objs] in Hc; unfold upd in Hc; destruct (Nat.eqb_spec i j); try congruence; eauto.
  - destruct (a_objs s j) as [c1|]; [|discriminate]. injection E as <-. cbn [a_objs] in Hc. unfold upd in Hc. destruct (Nat.eqb_spec i j); [discriminate|eauto].
Qed.
Lemma vinv_plain o s s' : life o s = Some s' -> (forall b, o <> AAct i b) -> vinv s -> vinv s'.
Proof. intros E Ho H. eapply vinv_life; [exact E|exact H|]. eapply acstep_gone; [exact (life_objs _ _ _ E)|exact Ho]. Qed.

Lemma vinv_step e s s' : (forall rs, e = VArrive i rs -> script_ok (mask_ext false) any_err rs) -> vstep setup react e s = Some s' -> vinv s -> vinv s'.
Proof.
  intros Ha E H. destruct e as [l|j p|j|j rs|j]; cbn [vstep] in E.
  - eapply vinv_plain; [exact E|discriminate|exact H].
  - eapply vinv_plain; [exact E|discriminate|exact H].
  - destruct (a_objs (v_life s) j) as [c|] eqn:Ec; [|injection E as <-; exact H].
    destruct (c_socket c) as [k|] eqn:Ek.
    + set (s1 := Server (v_life s) (upd (v_run s) j (tick (react j) (v_run s j))) (v_log s ++ map (fun c => SCall j (fst c) (snd c)) (calls_since (v_run s j) (tick (react j) (v_run s j))))) in *.
      assert (vinv s1) as H1.
      { destruct (Nat.eq_dec j i) as [-> |Hj]; [|apply (vinv_other s); [apply upd_other; exact Hj|reflexivity|exact H]].
        destruct H as (A1 & A2 & A3). destruct (A3 c Ec) as [B1 B2]; [congruence|].
        destruct (speaks_tick false False (react i) Hsmall Hmask [] (v_run s i) B1) as [G1 G2]; [split; [exact B2|]; split; [contradiction|exact A1]|].
        unfold vinv, sent_to, s1. cbn [v_run v_life]. rewrite upd_same. destruct G2 as (G2 & _ & G4). split; [exact G4|]. split; [|auto].
        apply (speaks_ends false _ (react i) Hmask) in G1 as (fs & G1 & G3 & _). exists fs. auto. }
      destruct (over (fst (tick (react j) (v_run s j)))); [|injection E as <-; exact H1].
      eapply vinv_plain; [exact E|discriminate|exact H1].
    + change (at_create setup) with (plan setup) in E. destruct (plan setup (c_listener c) (c_params c)) as [xs|] eqn:Ep.
      * destruct (life (AAct j false) s) as [s1|] eqn:E1; [|discriminate]. injection E as <-.
        destruct (Nat.eq_dec j i) as [-> |Hj].
        -- destruct H as (A1 & A2 & A3). unfold vinv, sent_to, set_run. cbn [v_run v_life]. rewrite upd_same. cbn [snd start_listen c_world set_sock w_in w_out w_sock].
           split; [exact A1|]. split; [exact A2|]. intros c1 _ _. split.
           ++ destruct A2 as (fs & A2 & A4). exists fs, []. cbn [c_world c_stack w_out set_sock]. rewrite app_nil_r. split; [exact A2|]. split; [exact A4|]. split; [contradiction|]. left. repeat constructor.
           ++ apply served_unmasked; [|reflexivity]. unfold plan in Ep. destruct (c_listener c) as [l|]; [eapply Hsetup, Ep|]. injection Ep as <-. constructor.
        -- assert (vinv s1) as H1 by (eapply vinv_plain; [exact E1|congruence|exact H]). apply (vinv_other s1); [apply upd_other; exact Hj|reflexivity|exact H1].
      * destruct (life (AAct j true) s) as [s1|] eqn:E1; [|discriminate].
        destruct (Nat.eq_dec j i) as [-> |Hj]; [|eapply vinv_plain; [exact E|discriminate|]; eapply vinv_plain; [exact E1|congruence|exact H]].
        assert (a_objs (v_life s') i = None) as Hn.
        { apply life_objs in E. cbn [acstep] in E. destruct (a_objs (v_life s1) i); [|discriminate]. injection E as <-. cbn [a_objs]. apply upd_same. }
        destruct H as (A1 & A2 & A3). unfold vinv, sent_to in *. rewrite (life_run _ _ _ E), (life_run _ _ _ E1). split; [exact A1|]. split; [exact A2|]. congruence.
  - injection E as <-. destruct (Nat.eq_dec j i) as [-> |Hj]; [|apply (vinv_other s); [apply upd_other; exact Hj|reflexivity|exact H]].
    destruct H as (A1 & A2 & A3). unfold vinv, sent_to, set_run in *. cbn [v_run v_life]. rewrite upd_same. cbn [snd arrive c_world set_in w_in w_out w_sock].
    split; [apply Forall_app; split; [exact A1|exact (Ha rs eq_refl)]|]. split; [exact A2|exact A3].
  - destruct (a_objs (v_life s) j) as [c|]; [|injection E as <-; exact H]. eapply vinv_plain; [exact E|discriminate|exact H].
Qed.
Lemma vinv_run evs : (forall rs, In (VArrive i rs) evs -> script_ok (mask_ext false) any_err rs) -> forall s s', vrun setup react evs s = Some s' -> vinv s -> vinv s'.
Proof.
  induction evs as [|e evs IH]; intros Ha s s' E H; cbn [vrun] in E; [injection E as <-; exact H|].
  destruct (vstep setup react e s) as [s1|] eqn:E1; [|discriminate]. eapply IH; [intros rs Hi; apply Ha; now right|exact E|].
  eapply vinv_step; [|exact E1|exact H]. intros rs ->. apply Ha. now left.
Qed.
End ServerMask.

(** Whatever happens on any connection: a peer of an AsyncConnectionHandler is sent unmasked frames only, unless the application calls setConfig to have them masked. *)
Theorem C24_async_server : forall setup react ws evs i s,
  (forall l p xs, setup l p = Some xs -> Forall (mask_ext false) xs) -> mask_react false (react i) -> small_react (react i) ->
  w_out (ws i) = [] -> script_ok (mask_ext false) any_err (w_in (ws i)) -> script_ok (mask_ext false) any_err (arrived i evs) ->
  vrun setup react evs (server_init ws) = Some s ->
  exists fs, sent_to i s = concat (map snd fs) /\ Forall (frame_piece false) fs.
Proof.
  intros setup react ws evs i s H1 H2 H3 H4 H5 H6 E.
  destruct (vinv_run setup react i H1 H3 H2 evs) with (s := server_init ws) (s' := s) as (_ & H & _); [|exact E| |exact H].
  - intros rs Hi. apply Forall_forall. intros x Hx. eapply Forall_forall in H6; [exact H6|]. unfold arrived. apply in_flat_map. exists (VArrive i rs). split; [exact Hi|]. now rewrite Nat.eqb_refl.
  - split; [exact H5|]. split; [exists []; split; [exact H4|constructor]|]. intros c Hc. discriminate Hc.
Qed.
Print Assumptions C24_async_server.

(** * The sockets of ConnectionHandler *)
Definition framed (w : world) : Prop :=
  s_mask (w_sock w) = false /\ script_ok (mask_ext false) any_err (w_in w) /\ exists fs, w_out w = concat (map snd fs) /\ Forall (frame_piece false) fs.
Lemma framed_rel w w' : framed w -> sends_rel false true w w' -> script_ok (mask_ext false) any_err (w_in w') -> framed w'.
Proof.
  intros (H1 & H2 & fs & H3 & H4) HR H5. destruct (HR H1) as (G1 & fs' & G2 & G3 & _). split; [exact G1|]. split; [exact H5|].
  exists (fs ++ fs'). rewrite map_app, concat_app, <- H3. split; [exact G2|]. apply Forall_app. auto.
Qed.
Lemma framed_cmds cs w o w' : Forall (mask_cmd false) cs -> exec_cmds cs w = (o, w') -> framed w -> framed w'.
Proof.
  intros Hc E H. eapply framed_rel; [exact H|eapply sends_cmds; eassumption|].
  apply PropThreadServer2.exec_cmds_effect in E. destruct E as (E & _). rewrite E. apply H.
Qed.
Lemma framed_listen react w o w' : mask_react false react -> listen react w = (o, w') -> framed w -> framed w'.
Proof.
  intros Hr E H. destruct (sends_listen react false Hr w o w' (proj1 (proj2 H)) E) as [H1 H2]. eapply framed_rel; eassumption.
Qed.
Lemma framed_more s w : script_ok (mask_ext false) any_err s -> framed w -> framed (more s w).
Proof. intros H (H1 & H2 & H3). split; [exact H1|]. split; [apply Forall_app; auto|exact H3]. Qed.

Section ThreadMask.
Variable setup : nat -> nat -> list cmd.
Variable farewell : nat -> list cmd.
Variable react : nat -> react_t.
Variable i : nat.
Hypothesis Hsetup : forall l p, Forall (mask_cmd false) (setup l p).
Hypothesis Hfarewell : forall l, Forall (mask_cmd false) (farewell l).
Hypothesis Hmask : mask_react false (react i).

Definition pframed (x : bphase) : Prop :=
  match x with
  | PNew w => w_out w = [] /\ script_ok (mask_ext false) any_err (w_in w)
  | PListen w w1 => framed w /\ framed w1
  | PReady w | POver w | PStuck w => framed w
  end.
Definition binv (s : bserver) : Prop := pframed (b_phase s i).
Lemma hello_mask l p : Forall (mask_cmd false) (hello setup l p).
Proof. destruct l; [apply Hsetup|constructor]. Qed.
Lemma bye_mask l : Forall (mask_cmd false) (bye farewell l).
Proof. destruct l; [apply Hfarewell|constructor]. Qed.
Lemma blife_phase o s s' : blife o s = BOk s' -> b_phase s' = b_phase s.
Proof. unfold blife. destruct (hstep _ _); [intros [= <-]; reflexivity|discriminate]. Qed.
Lemma binv_set j x s : (j = i -> pframed x) -> binv s -> binv (set_phase j x s).
Proof. intros H1 H2. unfold binv, set_phase. cbn [b_phase]. unfold upd. destruct (Nat.eqb_spec i j) as [E|E]; [apply H1; congruence|exact H2]. Qed.
Lemma binv_destroy j w s s' : (j = i -> framed w) -> binv s -> destroy farewell j w s = BOk s' -> binv s'.
Proof.
  intros H1 H2 E. unfold destroy in E. cbv zeta in E. destruct (blife (ODestroy j) s) as [s1| |] eqn:E1; cbn [bthen] in E; try discriminate.
  assert (binv s1) as H3 by (unfold binv; rewrite (blife_phase _ _ _ E1); exact H2).
  destruct (exec_cmds _ w) as [o w'] eqn:E2.
  destruct o; try discriminate; injection E as <-; (apply binv_set; [|exact H3]; intros Hj; eapply framed_cmds; [apply bye_mask|exact E2|auto]).
Qed.
Lemma binv_run_thread j w w1 s s' : (j = i -> framed w) -> binv s -> thread_run farewell react j w w1 s = BOk s' -> binv s'.
Proof.
  intros H1 H2 E. unfold thread_run in E. destruct (listen (react j) w) as [o w'] eqn:E1.
  assert (j = i -> framed w') as H3 by (intros ->; eapply framed_listen; eauto).
  destruct o; try discriminate.
  - eapply binv_destroy; [exact H3| |exact E]. exact H2.
  - injection E as <-. apply binv_set; [|exact H2]. intros Hj. cbn [pframed]. auto.
Qed.
Lemma binv_step e s s' : (forall rs, e = BArrive i rs -> script_ok (mask_ext false) any_err rs) -> bstep setup farewell react e s = BOk s' -> binv s -> binv s'.
Proof.
  intros Ha E H. destruct e as [l|j p sp|j rs|j]; cbn [bstep] in E.
  - unfold binv. rewrite (blife_phase _ _ _ E). exact H.
  - destruct (b_phase s j) as [w|w|w w1|w|w] eqn:Ep; try (injection E as <-; exact H).
    destruct (exec_cmds _ _) as [o w1] eqn:E1.
    assert (j = i -> framed w1) as H1.
    { intros ->. unfold binv in H. rewrite Ep in H. destruct H as [A1 A2]. eapply framed_cmds; [apply hello_mask|exact E1|]. split; [reflexivity|]. split; [exact A2|]. exists []. split; [exact A1|constructor]. }
    destruct o; try discriminate; (match type of E with bthen ?b _ = _ => destruct b as [s1| |] eqn:E2 end; cbn [bthen] in E; try discriminate;
      assert (binv s1) as H2 by (unfold binv; rewrite (blife_phase _ _ _ E2); exact H)).
    + destruct sp; [injection E as <-; apply binv_set; auto|eapply binv_destroy; eauto].
    + injection E as <-; apply binv_set; auto.
    + injection E as <-; apply binv_set; auto.
  - injection E as <-. apply binv_set; [|exact H]. intros ->. unfold binv in H. specialize (Ha rs eq_refl).
    destruct (b_phase s i) as [w|w|w w1|w|w]; cbn [arrive_phase pframed] in *; auto using framed_more.
    + destruct H as [A1 A2]. split; [exact A1|]. apply Forall_app. auto.
    + destruct H. auto using framed_more.
  - destruct (b_phase s j) as [w|w|w w1|w|w] eqn:Ep; try (injection E as <-; exact H).
    + destruct (blife (ORun j) s) as [s1| |] eqn:E1; cbn [bthen] in E; try discriminate.
      eapply binv_run_thread; [|unfold binv; rewrite (blife_phase _ _ _ E1); exact H|exact E]. intros ->. unfold binv in H. rewrite Ep in H. exact H.
    + eapply binv_run_thread; [|exact H|exact E]. intros ->. unfold binv in H. rewrite Ep in H. apply H.
Qed.
Lemma binv_run evs : (forall rs, In (BArrive i rs) evs -> script_ok (mask_ext false) any_err rs) -> forall s s', brun setup farewell react evs s = BOk s' -> binv s -> binv s'.
Proof.
  induction evs as [|e evs IH]; intros Ha s s' E H; cbn [brun] in E; [injection E as <-; exact H|].
  destruct (bstep setup farewell react e s) as [s1| |] eqn:E1; cbn [bthen] in E; try discriminate. eapply IH; [intros rs Hi; apply Ha; now right|exact E|].
  eapply binv_step; [|exact E1|exact H]. intros rs ->. apply Ha. now left.
Qed.
End ThreadMask.

(** The same for ConnectionHandler: sends of the instance listener, of the callbacks and of onBeforeDestroy. *)
Theorem C24_server : forall setup farewell react ws evs i s,
  (forall l p, Forall (mask_cmd false) (setup l p)) -> (forall l, Forall (mask_cmd false) (farewell l)) -> mask_react false (react i) ->
  w_out (ws i) = [] -> script_ok (mask_ext false) any_err (w_in (ws i)) -> script_ok (mask_ext false) any_err (barrived i evs) ->
  brun setup farewell react evs (bserver_init ws) = BOk s ->
  exists fs, bsent_to i s = concat (map snd fs) /\ Forall (frame_piece false) fs.
Proof.
  intros setup farewell react ws evs i s H1 H2 H3 H4 H5 H6 E.
  assert (pframed (b_phase s i)) as H.
  { eapply (binv_run setup farewell react i H1 H2 H3 evs); [|exact E|].
    - intros rs Hi. apply Forall_forall. intros x Hx. eapply Forall_forall in H6; [exact H6|]. unfold barrived. apply in_flat_map. exists (BArrive i rs). split; [exact Hi|]. now rewrite Nat.eqb_refl.
    - split; [exact H4|exact H5]. }
  unfold bsent_to. destruct (b_phase s i) as [w|w|w w1|w|w]; cbn [pframed phase_world] in *; try apply H.
  - exists []. split; [apply H|constructor].
Qed.
Print Assumptions C24_server.

(** Servers that greet, echo and say goodbye (PropServer.v, PropThreadServer2.v); another thread installs a listener. *)
Example C24_server_nonvacuous :
  (forall l p, Forall (mask_cmd false) (PropThreadServer2.demo_setup l p)) /\ (forall l, Forall (mask_cmd false) (PropThreadServer2.demo_farewell l)) /\
  (forall i, mask_react false (PropThreadServer2.demo_react i)) /\
  let evs := PropThreadServer2.demo_evs ++ [BArrive 1%nat [RExt (XSetListener None); RExt (XSetConfig false 3%Z); RData x88 [x00]]; BRun 1%nat] in
  script_ok (mask_ext false) any_err (barrived 1 evs) /\
  match brun PropThreadServer2.demo_setup PropThreadServer2.demo_farewell PropThreadServer2.demo_react evs (bserver_init (fun _ => PropThreadServer2.demo_world)) with
  | BOk s => bsent_to 1 s = [x81; x01; x68] ++ [x81; x01; x61] ++ [x81; x01; x62]
  | _ => False
  end.
Proof.
  assert (2 ^ 31 < 2 ^ 63 /\ 1 < 2 ^ 31) as Hpow by (split; reflexivity).
  split; [intros l p|split; [intros l|split; [intros i; apply PropReply.polite_mask, PropReply.echo_polite; reflexivity|cbv zeta; split; [repeat constructor|vm_compute; reflexivity]]]].
  - repeat constructor; cbn; change (lenN _) with 1; intuition lia.
  - repeat constructor; cbn; change (lenN _) with 1; intuition lia.
Qed.
Example C24_async_server_nonvacuous :
  (forall l p xs, PropServer.demo_setup l p = Some xs -> Forall (mask_ext false) xs) /\ mask_react false (SpecReply.echo 50) /\ small_react (SpecReply.echo 50) /\
  script_ok (mask_ext false) any_err (arrived 1 PropServer.demo_evs) /\
  match vrun PropServer.demo_setup (fun _ => SpecReply.echo 50) PropServer.demo_evs (server_init PropServer.demo_worlds) with
  | Some s => sent_to 1 s = [x81; x02; x61; x62] /\ w_out (PropServer.demo_worlds 1%nat) = [] /\ w_in (PropServer.demo_worlds 1%nat) = []
  | None => False
  end.
Proof.
  split; [|split; [apply PropReply.polite_mask, PropReply.echo_polite; reflexivity|split; [|split; [repeat constructor|vm_compute; auto]]]].
  - intros l p xs. unfold PropServer.demo_setup. destruct (Nat.eqb p 9); [discriminate|]. intros [= <-]. repeat constructor.
  - intros l log. eapply Forall_impl; [|apply PropReply.echo_polite; reflexivity]. intros [] Hc; cbn in *; try exact Logic.I; try contradiction; try exact Hc; lia.
Qed.
