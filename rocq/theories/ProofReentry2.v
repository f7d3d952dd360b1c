(** Lemmas for C99: callbacks that listen between frames. *)
From Verif Require Import Bytes Frame World WebSocket Object SpecAsync SpecSend SpecFrame SpecListen SpecObject
  ProofFrame ProofStream ProofSend ProofHeader ProofListen ProofApi ProofInv ProofQuit ProofObject ProofReentry.
From Coq Require Import Lia PeanoNat ZifyBool ZifyNat ZifyN.
Local Open Scope N_scope.
Local Arguments takeN : simpl never.
Local Arguments dropN : simpl never.
Local Arguments lenN : simpl never.
Local Arguments be_enc : simpl never.
Local Arguments be_dec : simpl never.

Section Boundary.
Context {S : Type}.
Variables (loose : bool) (obj : object S).
Hypothesis Hobj : at_boundaries loose obj.

(** * A frame is handled as if the callbacks at its end did nothing; then they run *)
Definition obj0 : object S := fun l ev => match ev with EvMsg _ _ => obj l ev | _ => Finish end.
Definition after (d : nat) : MS S unit := fun x =>
  match s_listener (w_sock (snd x)) with
  | Some l => exec_code S (call_object S obj d) (obj l (snd (last (w_log (snd x)) (0%nat, EvEnd 0)))) x
  | None => (Ret tt, x)
  end.
Definition final (h : header) : bool := ((8 <=? h_opcode h) || h_fin h)%bool.

Lemma answers_calm a : answers loose a -> SpecObject.calm a.
Proof. destruct a; cbn; auto. Qed.
Lemma perform_calm c1 c2 a x : SpecObject.calm a -> perform S c1 a x = perform S c2 a x.
Proof. destruct a; cbn; intros H; try contradiction; reflexivity. Qed.
Lemma code_calm c1 c2 c : forall x, every false (answers loose) c -> exec_code S c1 c x = exec_code S c2 c x.
Proof.
  induction c as [| |k IH|s0 k IH|a k IH]; intros x H; cbn [exec_code every] in *; auto.
  destruct H as [Ha Hk]. rewrite (perform_calm c1 c2 a x (answers_calm a Ha)).
  destruct (perform S c2 a x) as [[[]|e| |u|] x']; auto.
Qed.
Lemma call_piece d op dd x : call_object S obj (Datatypes.S d) (EvMsg op dd) x = call_object S obj0 (Datatypes.S d) (EvMsg op dd) x.
Proof.
  cbn [call_object]. destruct (s_listener (w_sock (snd x))) as [l|]; [|reflexivity]. cbn [obj0]. apply code_calm. exact (Hobj l (EvMsg op dd)).
Qed.
Lemma call_end d ev x : (forall op dd, ev <> EvMsg op dd) ->
  call_object S obj (Datatypes.S d) ev x = bindS (call_object S obj0 (Datatypes.S d) ev) (fun _ => after d) x.
Proof.
  intros Hn. unfold bindS, after. cbn [call_object]. destruct (s_listener (w_sock (snd x))) as [l|] eqn:El.
  - assert (obj0 l ev = Finish) as -> by (destruct ev; try reflexivity; exfalso; eapply Hn; reflexivity). cbn [exec_code].
    cbn [snd]. change (w_sock (set_log (snd x) (w_log (snd x) ++ [(l, ev)]))) with (w_sock (snd x)). rewrite El.
    change (w_log (set_log (snd x) (w_log (snd x) ++ [(l, ev)]))) with (w_log (snd x) ++ [(l, ev)]). rewrite last_last. reflexivity.
  - destruct x as [s w]. cbn [snd] in *. now rewrite El.
Qed.
Lemma assocS {A B C} (m : MS S A) (f : A -> MS S B) (g : B -> MS S C) x : bindS (bindS m f) g x = bindS m (fun a => bindS (f a) g) x.
Proof. unfold bindS. destruct (m x) as [[] x1]; reflexivity. Qed.
Lemma retS {A B} (a : A) (f : A -> MS S B) x : bindS (lift (ret a)) f x = f a x.
Proof. destruct x. reflexivity. Qed.
Lemma extS {A B} (m1 m2 : MS S A) (f1 f2 : A -> MS S B) x : m1 x = m2 x -> (forall a y, f1 a y = f2 a y) -> bindS m1 f1 x = bindS m2 f2 x.
Proof. intros H1 H2. unfold bindS. rewrite H1. destruct (m2 x) as [[] x1]; auto. Qed.
Lemma throwS {A B} e (f : A -> MS S B) x : bindS (lift (throw e)) f x = lift (throw e) x.
Proof. destruct x. reflexivity. Qed.

Lemma payload_same d fuel : forall h short alloc progress x,
  payloadS S (call_object S obj (Datatypes.S d)) fuel h short alloc progress x = payloadS S (call_object S obj0 (Datatypes.S d)) fuel h short alloc progress x.
Proof.
  induction fuel as [|fuel IH]; intros h short alloc progress x; cbn [payloadS]; [reflexivity|].
  destruct (progress <? h_len h)%Z; [|reflexivity]. apply extS; [reflexivity|]. intros w0 y. cbv zeta. apply extS; [reflexivity|].
  intros [dd|[]] z; try reflexivity; [|apply IH].
  destruct (alloc <? Z.of_N (lenN dd))%Z; [reflexivity|]. destruct short as [sh|]; [apply IH|].
  apply extS; [apply call_piece|]. intros _ y'. apply IH.
Qed.
Lemma readPayload_split d h x :
  readPayloadS S (call_object S obj (Datatypes.S d)) h None x =
  bindS (readPayloadS S (call_object S obj0 (Datatypes.S d)) h None) (fun r => bindS (if h_fin h then after d else lift (ret tt)) (fun _ => lift (ret r))) x.
Proof.
  unfold readPayloadS. cbn [andb]. rewrite assocS. apply extS; [reflexivity|]. intros w0 y. cbv zeta.
  destruct (_ <? 0)%Z; [now rewrite throwS|]. rewrite assocS. apply extS; [apply payload_same|]. intros r z. rewrite assocS.
  destruct (h_fin h).
  - etransitivity; [apply extS; [apply call_end; discriminate|reflexivity]|]. rewrite assocS. apply extS; [reflexivity|]. intros u v. now rewrite retS.
  - apply extS; [reflexivity|]. intros u v. now rewrite retS, retS.
Qed.
Lemma readPayload_short d h sh x :
  readPayloadS S (call_object S obj (Datatypes.S d)) h (Some sh) x = readPayloadS S (call_object S obj0 (Datatypes.S d)) h (Some sh) x.
Proof.
  unfold readPayloadS. destruct (_ && _)%bool; [reflexivity|]. apply extS; [reflexivity|]. intros w0 y. cbv zeta.
  destruct (_ <? 0)%Z; [reflexivity|]. apply extS; [apply payload_same|]. reflexivity.
Qed.
Lemma handle_split d h x :
  handleFrameS S (call_object S obj (Datatypes.S d)) h x =
  bindS (handleFrameS S (call_object S obj0 (Datatypes.S d)) h) (fun _ => if final h then after d else lift (ret tt)) x.
Proof.
  assert (h_opcode h < 8 -> forall y, bindS (readPayloadS S (call_object S obj (Datatypes.S d)) h None) (fun _ => lift (ret tt)) y =
    bindS (bindS (readPayloadS S (call_object S obj0 (Datatypes.S d)) h None) (fun _ => lift (ret tt))) (fun _ => if final h then after d else lift (ret tt)) y) as H1.
  { intros Hop y. assert (final h = h_fin h) as -> by (unfold final; destruct (N.leb_spec 8 (h_opcode h)); [lia|reflexivity]).
    etransitivity; [apply extS; [apply readPayload_split|reflexivity]|]. rewrite !assocS. apply extS; [reflexivity|]. intros r z. rewrite retS, assocS.
    unfold bindS. destruct (h_fin h); [destruct (after d z) as [[[]|e| |u|] [s2 w2]]; reflexivity|]. destruct z. reflexivity. }
  assert (8 <= h_opcode h -> forall f y, (forall p op dd, f p <> EvMsg op dd) ->
    bindS (readPayloadS S (call_object S obj (Datatypes.S d)) h (Some [])) (fun p => call_object S obj (Datatypes.S d) (f p)) y =
    bindS (bindS (readPayloadS S (call_object S obj0 (Datatypes.S d)) h (Some [])) (fun p => call_object S obj0 (Datatypes.S d) (f p))) (fun _ => if final h then after d else lift (ret tt)) y) as H2.
  { intros Hop f y Hf. assert (final h = true) as -> by (unfold final; destruct (N.leb_spec 8 (h_opcode h)); [reflexivity|lia]).
    rewrite assocS. apply extS; [apply readPayload_short|]. intros r z. apply call_end. intros op dd. apply Hf. }
  unfold handleFrameS.
  destruct (h_opcode h) as [|[[[[p|p|]|[p|p|]|]|[[p|p|]|[p|p|]|]|]|[[[p|p|]|[p|p|]|]|[[p|p|]|[p|p|]|]|]|]] eqn:Eo; try (now rewrite throwS);
    try (apply (H2 ltac:(lia) (fun p => EvPing (str p))); discriminate); try (apply (H2 ltac:(lia) (fun p => EvPong (str p))); discriminate);
    try (apply (H2 ltac:(lia) (fun p => EvClose (close_code (str p)) (close_reason (str p)))); discriminate).
  - rewrite assocS. apply extS; [reflexivity|]. intros w0 y. destruct (_ <? 0)%Z; [now rewrite throwS|]. apply H1. lia.
  - rewrite assocS. apply extS; [reflexivity|]. intros [] y; [|now rewrite throwS]. apply H1. lia.
  - rewrite assocS. apply extS; [reflexivity|]. intros [] y; [|now rewrite throwS]. apply H1. lia.
Qed.
Lemma iterate_split d h x :
  iterateFrameS S (call_object S obj (Datatypes.S d)) h x =
  bindS (iterateFrameS S (call_object S obj0 (Datatypes.S d)) h) (fun h' => bindS (if final h' then after d else lift (ret tt)) (fun _ => lift (ret h'))) x.
Proof.
  unfold iterateFrameS. rewrite assocS. apply extS; [reflexivity|]. intros h' y. rewrite assocS.
  etransitivity; [apply extS; [apply handle_split|reflexivity]|]. rewrite assocS. apply extS; [reflexivity|]. intros u z. now rewrite retS.
Qed.
Lemma loop_iterate call fuel h x : loopS S call (Datatypes.S fuel) h x =
  bindS (iterateFrameS S call h) (fun h' => bindS (lift get) (fun w => if (negb (h_opcode h' =? OPCODE_CLOSE) && s_listening (w_sock w))%bool then loopS S call fuel h' else lift (ret tt))) x.
Proof.
  cbn [loopS]. unfold iterateFrameS. rewrite assocS. apply extS; [reflexivity|]. intros h' y. rewrite assocS. apply extS; [reflexivity|].
  intros u z. now rewrite retS.
Qed.

(** * Ready to read the frames [fs] *)
Variable l : nat.
Record ready_with (tail : bytes) (fs : list (lform * frame)) (w : world) : Prop := Ready {
  rd_in : if loose then steady (w_in w) else clean (w_in w);
  rd_wr : healthy (w_wr w); rd_buf : (0 < s_buf (w_sock w))%Z; rd_last : last_ok (w_sock w); rd_listener : s_listener (w_sock w) = Some l;
  rd_bytes : bytes_of (w_in w) = wires fs ++ tail; rd_frames : readable (open_of (w_sock w)) fs = true }.
Notation ready := (ready_with []).
Lemma ready_steady tail fs w : ready_with tail fs w -> steady (w_in w).
Proof. intros [H _ _ _ _ _ _]. destruct loose; [exact H|now apply clean_steady]. Qed.

Definition shows {A} (fs : list (lform * frame)) (w : world) (o : outcome A) (w' : world) : Prop :=
  exists fs1 fs2 new, fs = fs1 ++ fs2 /\ w_log w' = w_log w ++ new /\ Forall (fun e => fst e = l) new /\ transcript new = frames_shown fs1 /\
    ready fs2 w' /\ (size w' <= size w)%nat /\ (o = Wait -> fs2 = [] /\ w_in w' = []) /\ (forall u, o <> Ub u) /\ o <> OutOfFuel /\
    (loose = false -> (forall e, o <> Throw e) /\ (s_listening (w_sock w) = true -> s_listening (w_sock w') = true)).

Lemma shows_refl {A} fs w (o : outcome A) : ready fs w -> (o = Wait -> fs = [] /\ w_in w = []) -> (forall u, o <> Ub u) -> o <> OutOfFuel ->
  (loose = false -> forall e, o <> Throw e) -> shows fs w o w.
Proof.
  intros H H1 H2 H3 H4. exists [], fs, []. split; [reflexivity|]. split; [now rewrite app_nil_r|]. split; [constructor|]. split; [reflexivity|].
  split; [exact H|]. split; [lia|]. split; [exact H1|]. split; [exact H2|]. split; [exact H3|]. intros Hl. split; [exact (H4 Hl)|auto].
Qed.
Lemma frames_shown_app a b : frames_shown (a ++ b) = frames_shown a ++ frames_shown b.
Proof. unfold frames_shown. apply flat_map_app. Qed.
Lemma transcript_app2 a b : transcript (a ++ b) = transcript a ++ transcript b.
Proof. unfold transcript. apply flat_map_app. Qed.
(** In sequence. *)
Lemma shows_then {A B} fs w (o1 : outcome A) w1 (o2 : outcome B) w2 :
  shows fs w o1 w1 -> (forall fs2, ready fs2 w1 -> (size w1 <= size w)%nat -> shows fs2 w1 o2 w2) -> shows fs w o2 w2.
Proof.
  intros (f1 & f2 & n1 & A1 & A2 & A3 & A4 & A5 & A6 & _ & _ & _ & A7) H.
  destruct (H f2 A5 A6) as (f3 & f4 & n2 & B1 & B2 & B3 & B4 & B5 & B6 & B7 & B8 & B9 & B10).
  exists (f1 ++ f3), f4, (n1 ++ n2). split; [rewrite A1, B1; now rewrite app_assoc|]. split; [rewrite B2, A2; now rewrite app_assoc|].
  split; [apply Forall_app; split; assumption|]. split; [rewrite transcript_app2, frames_shown_app, A4, B4; reflexivity|].
  split; [exact B5|]. split; [lia|]. split; [exact B7|]. split; [exact B8|]. split; [exact B9|].
  intros Hl. destruct (A7 Hl), (B10 Hl). split; auto.
Qed.
Lemma shows_outcome {A B} fs w (o1 : outcome A) (o2 : outcome B) w1 : shows fs w o1 w1 ->
  (o2 = Wait -> o1 = Wait) -> (forall u, o2 <> Ub u) -> o2 <> OutOfFuel -> (forall e, o2 = Throw e -> exists e1, o1 = Throw e1) -> shows fs w o2 w1.
Proof.
  intros (f1 & f2 & n1 & A1 & A2 & A3 & A4 & A5 & A6 & A7 & _ & _ & A8) H1 H2 H3 H4. exists f1, f2, n1. do 6 (split; [assumption|]).
  split; [auto|]. split; [exact H2|]. split; [exact H3|]. intros Hl. destruct (A8 Hl) as [X Y]. split; [|exact Y]. intros e He. destruct (H4 e He) as [e1 ->]. now apply (X e1).
Qed.

(** * One frame *)
Lemma no_frames {A} (f : header -> MS S A) h s w o s' w' : ready [] w -> bindS (lift (readFrameHeader h)) f (s, w) = (o, (s', w')) -> shows [] w o w' /\ o = Wait.
Proof.
  intros R E. unfold bindS, lift in E. cbn [fst snd] in E. destruct (readFrameHeader h w) as [o1 w1] eqn:E1. pose proof (fin0_header _ _ _ _ E1) as [G1 _].
  apply readFrameHeader_spec in E1. destruct E1 as [Hr E1]. pose proof (rd_bytes _ _ _ R) as Hb. cbn in Hb. rewrite Hb in E1.
  destruct o1 as [h'|e| |u|]; try contradiction.
  - destruct E1 as (i & [=] & _).
  - elim E1. exact (ready_steady _ _ _ R).
  - injection E as <- <- <-. split; [|reflexivity]. destruct E1 as [Hin _]. destruct Hr as (Hwr & _ & _ & _ & Hlog & HJ & _).
    exists [], [], []. split; [reflexivity|]. split; [now rewrite app_nil_r|]. split; [constructor|]. split; [reflexivity|].
    split; [|split; [exact G1|split; [auto|split; [discriminate|split; [discriminate|]]]]].
    + destruct R as [R1 R2 R3 R4 R5 R6 R7].
      assert (forall J : sock -> Prop, (forall y, J y -> J (set_listening y false)) -> J (w_sock w) -> J (w_sock w1)) as HJ'.
      { intros J HJs HJ0. destruct (HJ J is_stop (fun _ => True)) as [_ X]; [intros x y Hx; unfold is_stop in Hx; subst x; apply HJs| |exact HJ0|exact X].
        apply steady_stop_only. destruct loose; [exact R1|now apply clean_steady]. }
      split; try assumption.
      * rewrite Hin. destruct loose; constructor.
      * now rewrite Hwr.
      * apply (HJ' (fun k => (0 < s_buf k)%Z)); auto.
      * apply (HJ' last_ok); auto.
      * apply (HJ' (fun k => s_listener k = Some l)); auto.
      * now rewrite Hin.
    + intros Hl. split; [discriminate|]. intros Hli. destruct R as [R1 _ _ _ _ _ _]. rewrite Hl in R1.
      destruct (HJ (fun k => s_listening k = true) (fun _ => False) (fun _ => True)) as [_ X]; [intros ? ? []| |exact Hli|exact X].
      eapply Forall_impl; [|exact R1]. intros [b bs|[]|x]; cbn; auto.
Qed.
Lemma issued_answers (react : react_t) : (forall l log, Forall (issued false (answers loose)) (react l log)) -> polite_react react /\ (loose = false -> never_stops react).
Proof.
  intros H. split; [|intros Hl]; intros l0 log; specialize (H l0 log).
  - eapply Forall_impl; [|exact H]. intros c [[_ [=]]|(a & Pa & Ca)]. destruct a; cbn in Pa, Ca; try contradiction; subst; cbn; auto. destruct Ca as [? ->]. exact Pa.
  - induction H as [|c cs [[_ [=]]|(a & Pa & Ca)] _ IH]; [reflexivity|]. cbn [existsb]. rewrite IH. destruct a; cbn in Pa, Ca; try contradiction; try congruence; subst; auto. destruct Ca as [? ->]. reflexivity.
Qed.
Lemma one_frame tail d h lf f fs s w o s' w' : ready_with tail ((lf, f) :: fs) w -> iterateFrameS S (call_object S obj0 (Datatypes.S d)) h (s, w) = (o, (s', w')) ->
  exists h', o = Ret h' /\ h_opcode h' = f_opcode f /\ (size w' < size w)%nat /\
    exists new, w_log w' = w_log w ++ new /\ Forall (fun e => fst e = l) new /\ transcript new = frame_shown f /\ ready_with tail fs w' /\
      (loose = false -> s_listening (w_sock w) = true -> s_listening (w_sock w') = true) /\ open_of (w_sock w') = next_open (open_of (w_sock w)) (finfo_of f).
Proof.
  intros R E.
  assert (every_call false (answers loose) obj0) as H0.
  { intros l0 ev. unfold obj0. destruct ev; try exact I. exact (Hobj l0 (EvMsg opcode data)). }
  destruct (sim_iterate false (answers loose) answers_calm obj0 H0 d h _ _ _ _ _ E) as (_ & frag & F & Hsim).
  specialize (Hsim frag (fun n _ => eq_refl)). set (react := by_count frag) in *.
  destruct (issued_answers react) as [Hp Hn]; [intros l0 log; apply F|].
  pose proof (ready_steady _ _ _ R) as Hst. destruct R as [R1 R2 R3 R4 R5 R6 R7]. cbn [wires flat_map fst snd] in R6. fold (wires fs) in R6. rewrite <- app_assoc in R6. cbn [readable] in R7.
  apply Bool.andb_true_iff in R7 as [R7 R8]. apply Bool.andb_true_iff in R7 as [R7 R9]. apply Bool.andb_true_iff in R7 as [R7 R10].
  assert (SpecListen.calm react w) as C by (split; [exact Hst|split; [exact R2|split; [exact Hp|exact R3]]]).
  destruct (iterateFrame_frame react h w lf f (wires fs ++ tail) o w' C R4 R6) as (h' & new & -> & G1 & G2 & G3 & G4 & G5 & G6 & G7 & G8); [lia|exact R10|exact R9|exact Hsim|].
  destruct (iterateFrame_any react h w (Ret h') w') as (new2 & os & Hf & _); [now apply steady_stop_only|exact R4|now apply polite_tame|exact Hsim|].
  exists h'. split; [reflexivity|]. split; [destruct G6 as (_ & _ & G6 & _); exact G6|].
  assert (size w' < size w)%nat as Hsz.
  { clear -Hsim. unfold iterateFrame, bind in Hsim. destruct (readFrameHeader h w) as [o1 w1] eqn:E1. apply readFrameHeader_fin in E1. destruct E1 as (_ & E1 & _).
    destruct o1 as [h1| | | |]; try discriminate. specialize (E1 _ eq_refl). destruct (handleFrame react h1 w1) as [o2 w2] eqn:E2. apply handleFrame_fin in E2. destruct E2 as [E2 _].
    destruct o2; try discriminate. injection Hsim as _ <-. unfold size. lia. }
  split; [exact Hsz|]. exists new. split; [exact G2|]. split; [eapply Forall_impl; [|exact G3]; intros e He; cbn in He; congruence|].
  split; [rewrite G4; unfold seen; now rewrite R5|].
  destruct Hf as (Hl1 & _ & _ & _ & Hbuf & Hlis & _ & Hc & _). destruct (Hc C) as (_ & _ & Hcl). destruct G7 as (G7 & G9 & _ & _).
  split.
  - split; try assumption.
    + destruct loose eqn:El; [exact G7|apply Hcl; exact R1].
    + rewrite Hbuf. exact R3.
    + rewrite Hlis. exact R5.
    + rewrite G5. exact R8.
  - split; [|exact G5]. intros Hl Hli. rewrite Hl in R1. destruct (Hcl R1) as [_ ->]. rewrite Hli, (never_stops_stops react _ _ (Hn Hl)). reflexivity.
Qed.

(** * Code between frames, and reading frames, by induction on the depth *)
Definition reads_ok (d : nat) : Prop := forall fs w, ready fs w -> (size w <= d)%nat ->
  (forall h s o s' w', iterateFrameS S (call_object S obj d) h (s, w) = (o, (s', w')) -> shows fs w o w' /\ (fs = [] -> o = Wait)) /\
  (forall s o s' w', listenS S (call_object S obj d) (s, w) = (o, (s', w')) -> shows fs w o w' /\ (loose = false -> no_close fs -> o = Wait)).
Lemma send_ready op fs w o w' : lenN (req_payload op) < 2 ^ 31 -> ready fs w -> send_reporting op w = (o, w') ->
  (exists b, o = Ret b) /\ w_log w' = w_log w /\ ready fs w' /\ size w' = size w /\ s_listening (w_sock w') = s_listening (w_sock w).
Proof.
  intros Hop R E.
  assert (exec_cmds [CSend false op] w = (match o with Ret _ => Ret tt | Throw e => Throw e | Wait => Wait | Ub u => Ub u | OutOfFuel => OutOfFuel end, w')) as Es.
  { cbn [exec_cmds exec_cmd]. unfold bind. destruct op; cbn [send_reporting] in E; unfold bind in E; try (destruct (send _ w) as [[[]|e| |u|] w2]; injection E as <- <-; reflexivity).
    cbn [send]. unfold bind. rewrite E. destruct o; reflexivity. }
  assert (Forall polite_cmd [CSend false op]) as Hp by (constructor; [exact Hop|constructor]).
  destruct (exec_cmds_polite _ _ _ _ Hp (rd_wr _ _ _ R) Es) as [Ho Hl].
  destruct o as [b| | | |]; try discriminate. split; [eauto|].
  pose proof (keeps_exec_cmds [CSend false op]) as K. destruct (K ltac:(constructor; [exact I|constructor]) _ _ _ Es) as [(K1 & K2) _].
  destruct K2 as (K2 & _ & (T1 & T2 & T3 & T4 & T5) & K5 & _). split; [exact K2|].
  split; [|split; [unfold size; now rewrite K1|rewrite Hl; cbn; apply Bool.andb_true_r]].
  destruct R as [R1 R2 R3 R4 R5 R6 R7]. split; try (now rewrite K1).
  - now apply K5.
  - now rewrite T2.
  - unfold last_ok. now rewrite T4.
  - now rewrite T3.
  - unfold open_of. now rewrite T4.
Qed.
Lemma loosen c : every false (answers loose) c -> every (S := S) loose (listens loose) c.
Proof.
  induction c as [| |k IH|s0 k IH|a k IH]; cbn [every]; auto; [discriminate|]. intros [H1 H2]. split; [|auto]. destruct a; cbn in *; auto; contradiction.
Qed.
Lemma all_code l0 ev : every loose (listens loose) (obj l0 ev).
Proof. pose proof (Hobj l0 ev) as H. destruct ev; try exact H. now apply loosen. Qed.
Lemma code_shows d (IH : reads_ok d) c : forall fs s w o s' w', every loose (listens loose) c -> ready fs w -> (size w <= d)%nat ->
  exec_code S (call_object S obj d) c (s, w) = (o, (s', w')) -> shows fs w o w'.
Proof.
  induction c as [| |k IHc|s0 k IHc|a k IHc]; intros fs s w o s' w' He R Hd E; cbn [exec_code every] in *.
  - injection E as <- <- <-. apply shows_refl; try discriminate. exact R.
  - injection E as <- <- <-. apply shows_refl; try discriminate; [exact R|]. congruence.
  - exact (IHc _ _ _ _ _ _ _ (He _) R Hd E).
  - exact (IHc _ _ _ _ _ _ He R Hd E).
  - destruct He as [Ha Hk].
    assert (forall o1 s1 w1, perform S (call_object S obj d) a (s, w) = (o1, (s1, w1)) -> shows fs w o1 w1) as Hp.
    { intros o1 s1 w1 E1. destruct a as [|l0|m b|op| | |]; cbn [perform listens answers] in *; try contradiction.
      - injection E1 as <- <- <-. exists [], fs, []. split; [reflexivity|]. split; [cbn; now rewrite app_nil_r|]. split; [constructor|]. split; [reflexivity|].
        split; [destruct R as [R1 R2 R3 R4 R5 R6 R7]; split; assumption|]. split; [unfold size; cbn; lia|]. do 3 (split; [discriminate|]). congruence.
      - unfold lift in E1. cbn [fst snd] in E1. destruct (send_reporting op w) as [o2 w2] eqn:E2. injection E1 as <- <- <-.
        destruct (send_ready op fs w o2 w2 Ha R E2) as ((b & ->) & H1 & H2 & H3 & H4).
        exists [], fs, []. split; [reflexivity|]. split; [rewrite app_nil_r; exact H1|]. split; [constructor|]. split; [reflexivity|].
        split; [exact H2|]. split; [lia|]. do 3 (split; [discriminate|]). intros _. split; [discriminate|]. now rewrite H4.
      - injection E1 as <- <- <-. apply shows_refl; try discriminate. exact R.
      - destruct (IH fs w R Hd) as [_ H]. unfold bindS in E1. destruct (listenS S (call_object S obj d) (s, w)) as [o2 [s2 w2]] eqn:E2.
        destruct (H _ _ _ _ E2) as [H1 _]. pose proof H1 as (_ & _ & _ & _ & _ & _ & _ & _ & _ & _ & Hu & Ho & _).
        destruct o2 as [[]|e| |u|]; try congruence; injection E1 as <- <- <-; (eapply shows_outcome; [exact H1|..]); try discriminate; eauto.
      - destruct (IH fs w R Hd) as [H _]. unfold bindS in E1. destruct (iterateFrameS S (call_object S obj d) header_init (s, w)) as [o2 [s2 w2]] eqn:E2.
        destruct (H _ _ _ _ _ E2) as [H1 _]. pose proof H1 as (_ & _ & _ & _ & _ & _ & _ & _ & _ & _ & Hu & Ho & _).
        destruct o2 as [h2|e| |u|]; try congruence; injection E1 as <- <- <-; (eapply shows_outcome; [exact H1|..]); try discriminate; eauto. }
    destruct (perform S (call_object S obj d) a (s, w)) as [o1 [s1 w1]] eqn:E1. specialize (Hp _ _ _ eq_refl).
    assert (forall r, exec_code S (call_object S obj d) (k r) (s1, w1) = (o, (s', w')) -> shows fs w o w') as Hgo.
    { intros r Er. eapply shows_then; [exact Hp|]. intros fs2 R2 Hs2. eapply IHc; [apply Hk|exact R2| |exact Er]. lia. }
    destruct o1 as [[]|e| |u|]; eauto; injection E as <- <- <-; (eapply shows_outcome; [exact Hp|..]); try discriminate; auto;
      destruct Hp as (_ & _ & _ & _ & _ & _ & _ & _ & _ & _ & Hu & Ho & _); congruence.
Qed.
Lemma iterate_shows d (IH : reads_ok d) lf f fs w h s o s' w' : ready ((lf, f) :: fs) w -> (size w <= Datatypes.S d)%nat ->
  iterateFrameS S (call_object S obj (Datatypes.S d)) h (s, w) = (o, (s', w')) ->
  exists fs1 fs2 new, fs = fs1 ++ fs2 /\ w_log w' = w_log w ++ new /\ Forall (fun e => fst e = l) new /\ transcript new = frames_shown ((lf, f) :: fs1) /\
    ready fs2 w' /\ (size w' < size w)%nat /\ (o = Wait -> fs2 = [] /\ w_in w' = []) /\ (forall u, o <> Ub u) /\ o <> OutOfFuel /\
    (loose = false -> (forall e, o <> Throw e) /\ (s_listening (w_sock w) = true -> s_listening (w_sock w') = true)) /\
    (forall h', o = Ret h' -> h_opcode h' = f_opcode f).
Proof.
  intros R Hd E. rewrite iterate_split in E. unfold bindS at 1 in E.
  destruct (iterateFrameS S (call_object S obj0 (Datatypes.S d)) h (s, w)) as [o1 [s1 w1]] eqn:E1.
  destruct (one_frame [] d h lf f fs s w o1 s1 w1 R E1) as (h' & -> & Hh & Hsz & new & G1 & G2 & G3 & G4 & G5 & _).
  assert (forall o2 s2 w2, (if final h' then after d else lift (ret tt)) (s1, w1) = (o2, (s2, w2)) -> shows fs w1 o2 w2) as Haft.
  { intros o2 s2 w2 E2. destruct (final h').
    - unfold after in E2. cbn [snd] in E2. rewrite (rd_listener _ _ _ G4) in E2. eapply code_shows; [exact IH|apply all_code|exact G4|lia|exact E2].
    - injection E2 as <- <- <-. apply shows_refl; try discriminate. exact G4. }
  unfold bindS in E. destruct ((if final h' then after d else lift (ret tt)) (s1, w1)) as [o2 [s2 w2]] eqn:E2. specialize (Haft _ _ _ eq_refl).
  destruct Haft as (f1 & f2 & n1 & A1 & A2 & A3 & A4 & A5 & A6 & A7 & A8 & A9 & A10).
  assert (w' = w2 /\ match o2 with Ret _ => o = Ret h' | Throw e => o = Throw e | Wait => o = Wait | Ub u => o = Ub u | OutOfFuel => o = OutOfFuel end) as [-> Ho]
    by (destruct o2; injection E as <- <- <-; auto).
  exists f1, f2, (new ++ n1). split; [exact A1|]. split; [rewrite A2, G1; now rewrite app_assoc|]. split; [apply Forall_app; split; assumption|].
  split; [rewrite transcript_app2, G3, A4; reflexivity|]. split; [exact A5|]. split; [lia|].
  split; [intros ->; apply A7; destruct o2; congruence|]. split; [intros u ->; destruct o2; try discriminate; now apply (A8 u0)|].
  split; [intros ->; destruct o2; discriminate || congruence|]. split.
  - intros Hl. destruct (A10 Hl) as [X Y]. split; [|auto]. intros e ->. destruct o2 as [|e0| | |]; try discriminate. now apply (X e0).
  - intros h2 ->. destruct o2; try discriminate. congruence.
Qed.
Lemma loop_shows d (IH : reads_ok d) fuel : forall fs w h s o s' w', ready fs w -> (size w <= Datatypes.S d)%nat -> (size w < fuel)%nat ->
  loopS S (call_object S obj (Datatypes.S d)) fuel h (s, w) = (o, (s', w')) ->
  shows fs w o w' /\ (loose = false -> s_listening (w_sock w) = true -> no_close fs -> o = Wait).
Proof.
  induction fuel as [|fuel IHf]; intros fs w h s o s' w' R Hd Hf E; [lia|]. destruct fs as [|[lf f] fs].
  - cbn [loopS] in E. apply no_frames in E; [|exact R]. destruct E as [E1 E2]. auto.
  - rewrite loop_iterate in E. unfold bindS at 1 in E. destruct (iterateFrameS S _ h (s, w)) as [o1 [s1 w1]] eqn:E1.
    destruct (iterate_shows d IH lf f fs w h s o1 s1 w1 R Hd E1) as (f1 & f2 & n1 & A1 & A2 & A3 & A4 & A5 & A6 & A7 & A8 & A9 & A10 & A11).
    assert (forall (oo : outcome unit), (oo = Wait -> o1 = Wait) -> (forall u, oo <> Ub u) -> oo <> OutOfFuel -> (forall e, oo = Throw e -> o1 = Throw e) -> shows ((lf, f) :: fs) w oo w1) as Hsh.
    { intros oo B1 B2 B3 B4. exists ((lf, f) :: f1), f2, n1. split; [rewrite A1; reflexivity|]. do 4 (split; [assumption|]). split; [lia|]. split; [auto|].
      split; [exact B2|]. split; [exact B3|]. intros Hl. destruct (A10 Hl) as [X Y]. split; [|exact Y]. intros e He. apply (X e). auto. }
    destruct o1 as [h'|e| |u|]; try (elim (A8 u); reflexivity); try (elim A9; reflexivity).
    + unfold bindS, lift, get in E. cbn [fst snd] in E. pose proof (A11 h' eq_refl) as Hh. rewrite Hh in E.
      destruct (negb (f_opcode f =? OPCODE_CLOSE) && s_listening (w_sock w1))%bool eqn:Eb.
      * split.
        -- eapply (shows_then (A := unit)); [apply (Hsh (Ret tt)); discriminate|]. intros fs2 R2 _. apply IHf with (fs := fs2) in E; [|exact R2|lia|lia]. apply E.
        -- intros Hl Hli Hc. apply IHf with (fs := f2) in E; [|exact A5|lia|lia]. apply E; [exact Hl|now apply (A10 Hl)|].
           inversion Hc as [|? ? _ Hc2]; subst. apply Forall_app in Hc2. apply Hc2.
      * injection E as <- <- <-. split; [apply Hsh; discriminate|]. intros Hl Hli Hc. inversion Hc as [|? ? Hc1 _]; subst. cbn [snd] in Hc1.
        destruct (A10 Hl) as [_ Y]. rewrite (Y Hli), Bool.andb_true_r in Eb. change OPCODE_CLOSE with 8 in Eb. lia.
    + injection E as <- <- <-. split; [apply Hsh; try discriminate; congruence|]. intros Hl. destruct (A10 Hl) as [X _]. now elim (X e).
    + injection E as <- <- <-. split; [apply Hsh; try discriminate; auto|auto].
Qed.
Lemma listening_ready fs w : ready fs w -> ready fs (set_sock w (set_listening (w_sock w) true)).
Proof. intros [R1 R2 R3 R4 R5 R6 R7]. split; assumption. Qed.
Lemma all_reads d : reads_ok d.
Proof.
  assert (forall d, (d = 0%nat \/ exists d', d = Datatypes.S d' /\ reads_ok d') -> reads_ok d) as Hstep.
  { clear d. intros d Hd fs w R Hsz.
    assert (forall fs w, ready fs w -> (size w <= d)%nat -> forall h s o s' w', iterateFrameS S (call_object S obj d) h (s, w) = (o, (s', w')) ->
      shows fs w o w' /\ (fs = [] -> o = Wait)) as Hit.
    { clear fs w R Hsz. intros fs w R Hsz h s o s' w' E. destruct fs as [|[lf f] fs].
      - apply no_frames in E; [|exact R]. destruct E as [E1 E2]. auto.
      - destruct Hd as [-> |(d' & -> & IH)].
        + exfalso. pose proof (rd_bytes _ _ _ R) as Hb. unfold size in Hsz. destruct (w_in w) as [|e r]; [|destruct e; cbn [script_size] in Hsz; lia].
          cbn in Hb. unfold wire, rfc_header in Hb. discriminate.
        + destruct (iterate_shows d' IH lf f fs w h s o s' w' R Hsz E) as (f1 & f2 & n1 & A1 & A2 & A3 & A4 & A5 & A6 & A7 & A8 & A9 & A10 & _).
          split; [|discriminate]. exists ((lf, f) :: f1), f2, n1. split; [rewrite A1; reflexivity|]. do 4 (split; [assumption|]). split; [lia|]. auto. }
    split; [apply Hit; assumption|]. intros s o s' w' E.
    unfold listenS, bindS, lift, modify_sock, get in E. cbn [fst snd] in E. unfold tryS in E.
    set (w1 := set_sock w (set_listening (w_sock w) true)) in *. pose proof (listening_ready _ _ R) as R1. fold w1 in R1.
    assert (forall fuel o1 s1 w2, (size w1 < fuel)%nat -> loopS S (call_object S obj d) fuel header_init (s, w1) = (o1, (s1, w2)) ->
      shows fs w1 o1 w2 /\ (loose = false -> no_close fs -> o1 = Wait)) as Hlo.
    { intros fuel o1 s1 w2 Hf E1. destruct Hd as [-> |(d' & -> & IH)].
      - destruct fuel as [|fuel]; [lia|]. assert (fs = []) as ->.
        { pose proof (rd_bytes _ _ _ R) as Hb. unfold size in Hsz. destruct (w_in w) as [|e r]; [|destruct e; cbn [script_size] in Hsz; lia].
          destruct fs as [|[lf f] fs]; [reflexivity|]. cbn in Hb. unfold wire, rfc_header in Hb. discriminate. }
        cbn [loopS] in E1. apply no_frames in E1; [|exact R1]. destruct E1 as [X Y]. auto.
      - apply (loop_shows d' IH _ fs) in E1; [|exact R1|exact Hsz|exact Hf]. destruct E1 as [X Y]. split; [exact X|]. intros Hl. now apply Y. }
    destruct (loopS S _ _ _ _) as [o1 [s1 w2]] eqn:E1. apply Hlo in E1; [|unfold size; cbn; lia]. destruct E1 as [Hs Hw].
    assert (w' = w2 /\ o = match o1 with Throw _ => Ret tt | _ => o1 end) as [-> ->] by (destruct o1; injection E as <- <- <-; auto).
    split.
    - destruct Hs as (f1 & f2 & n1 & A1 & A2 & A3 & A4 & A5 & A6 & A7 & A8 & A9 & A10). exists f1, f2, n1. do 6 (split; [assumption|]).
      split; [destruct o1; auto; discriminate|]. split; [destruct o1; auto; discriminate|]. split; [destruct o1; auto; discriminate|].
      intros Hl. destruct (A10 Hl) as [X Y]. split; [destruct o1; try discriminate; now elim (X e)|]. intros _. now apply Y.
    - intros Hl Hc. rewrite (Hw Hl Hc). reflexivity. }
  induction d as [|d IH]; apply Hstep; eauto.
Qed.
End Boundary.

(** * A ping, and what its callback does *)
Section Ping.
Context {S : Type}.
Variables (obj : object S) (l : nat).
Hypothesis Hobj : at_boundaries false obj.
Lemma control_last d h s w o s' w' : 8 <= h_opcode h -> s_listener (w_sock w) = Some l ->
  handleFrameS S (call_object S (obj0 obj) (Datatypes.S d)) h (s, w) = (o, (s', w')) -> forall u, o = Ret u -> s_listener (w_sock w') = Some l ->
  exists log ev, w_log w' = log ++ [(l, ev)] /\ forall op dd, ev <> EvMsg op dd.
Proof.
  intros Hop Hl E u Ho Hl'.
  assert (forall f y, (forall p op dd, f p <> EvMsg op dd) ->
    bindS (readPayloadS S (call_object S (obj0 obj) (Datatypes.S d)) h (Some [])) (fun p => call_object S (obj0 obj) (Datatypes.S d) (f p)) y = (o, (s', w')) ->
    exists log ev, w_log w' = log ++ [(l, ev)] /\ forall op dd, ev <> EvMsg op dd) as H2.
  { intros f y Hf E2. unfold bindS in E2. destruct (readPayloadS S _ h (Some []) y) as [[r|e| |u0|] [s1 w1]]; try (subst o; discriminate).
    cbn [call_object fst snd] in E2. destruct (s_listener (w_sock w1)) as [l1|] eqn:El.
    - assert (obj0 obj l1 (f r) = Finish) as Hz by (unfold obj0; destruct (f r) eqn:Ef; try reflexivity; elim (Hf _ _ _ Ef)).
      rewrite Hz in E2. cbn [exec_code] in E2. injection E2 as _ _ <-. cbn in Hl'. rewrite El in Hl'. injection Hl' as ->.
      cbn. eexists _, (f r). split; [reflexivity|apply Hf].
    - injection E2 as _ _ <-. congruence. }
  unfold handleFrameS in E.
  destruct (h_opcode h) as [|[[[[p|p|]|[p|p|]|]|[[p|p|]|[p|p|]|]|]|[[[p|p|]|[p|p|]|]|[[p|p|]|[p|p|]|]|]|]] eqn:Eo; try lia; try (injection E as <- _ _; discriminate);
    try (eapply (H2 (fun p => EvPing (str p))); [discriminate|exact E]); try (eapply (H2 (fun p => EvPong (str p))); [discriminate|exact E]);
    try (eapply (H2 (fun p => EvClose (close_code (str p)) (close_reason (str p)))); [discriminate|exact E]).
Qed.
Lemma ping_last tail d h lf f fs s w h' s' w' : ready_with false l tail ((lf, f) :: fs) w -> f_opcode f = 9 ->
  iterateFrameS S (call_object S (obj0 obj) (Datatypes.S d)) h (s, w) = (Ret h', (s', w')) ->
  final h' = true /\ snd (last (w_log w') (0%nat, EvEnd 0)) = EvPing (f_payload f).
Proof.
  intros R H9 E. destruct (one_frame false obj Hobj l tail d h lf f fs s w _ s' w' R E) as (h2 & [= <-] & Hh & _ & new & G1 & G2 & G3 & G4 & _).
  assert (final h' = true) as Hfin by (unfold final; rewrite Hh, H9; reflexivity). split; [exact Hfin|].
  pose proof (rd_listener _ _ _ _ _ R) as Hl. unfold iterateFrameS, bindS, lift in E. cbn [fst snd] in E. destruct (readFrameHeader h w) as [[h1|e| |u|] w1] eqn:E1; try discriminate.
  destruct (handleFrameS S _ h1 (s, w1)) as [o2 [s2 w2]] eqn:E2. destruct o2; try discriminate. injection E as <- _ <-.
  apply readFrameHeader_spec in E1. destruct E1 as [(_ & _ & _ & _ & _ & HJ & _) _].
  destruct (control_last d h1 s w1 (Ret a) s2 w2) with (u := a) as (log & ev & Hlog & Hev); [rewrite Hh, H9; lia| |exact E2|reflexivity|exact (rd_listener _ _ _ _ _ G4)|].
  { destruct (HJ (fun k => s_listener k = Some l) is_stop (fun _ => True)) as [_ X]; [intros x y Hx; unfold is_stop in Hx; subst x; auto| |exact Hl|exact X].
    apply steady_stop_only. eapply ready_steady; [exact Hobj|exact R]. }
  rewrite Hlog, last_last. cbn [snd].
  assert (exists pre, new = pre ++ [(l, ev)]) as [pre Hpre].
  { destruct new as [|e0 new0] using List.rev_ind; [cbn in G3; unfold frame_shown, shown in G3; rewrite H9 in G3; discriminate|].
    exists new0. rewrite Hlog, app_assoc in G1. apply app_inj_tail in G1 as [_ ->]. reflexivity. }
  rewrite Hpre, transcript_app2 in G3. unfold frame_shown, shown in G3. rewrite H9 in G3.
  destruct ev as [op dd|op|p|p|c p]; [elim (Hev op dd); reflexivity|..]; cbn [transcript flat_map observe snd app] in G3.
  all: change [OPing (f_payload f)] with ([] ++ [OPing (f_payload f)]) in G3; apply app_inj_tail in G3; destruct G3 as [_ G3]; congruence.
Qed.
End Ping.
