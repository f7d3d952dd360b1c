(** C12 for the asynchronous socket: after a Close frame has been told nothing is, whatever callbacks and other coroutines do. *)
From Verif Require Import Bytes Frame World WebSocket AsyncWebSocket SpecFrame SpecSend SpecListen SpecAsync Coroutines SpecCoroutines.
Local Open Scope N_scope.
Local Arguments takeN : simpl never.
Local Arguments dropN : simpl never.
Local Arguments lenN : simpl never.
Local Arguments be_enc : simpl never.
Local Arguments be_dec : simpl never.
Local Arguments packHeaderBits : simpl never.
Local Arguments unpackHeaderBits : simpl never.
Local Arguments N.leb : simpl never.
Local Arguments N.ltb : simpl never.
Local Arguments N.eqb : simpl never.
Local Arguments Z.ltb : simpl never.
Local Arguments Z.leb : simpl never.

(** Coroutines that tell nothing: sends and code of listeners. *)
Definition talker (c : cor) : Prop := match c with CoSend _ _ _ _ _ | CoWrite _ _ | CoUser _ _ | CoCatch => True | _ => False end.
Definition awaits (h : header) (us : bool) (next : hf_pc) : Prop :=
  match next with
  | HfOnClose => us = true /\ h_opcode h = 8
  | HfOnPing | HfOnPong => us = true /\ h_opcode h <> 8
  | HfFinish => us = false /\ h_opcode h <> 8
  | HfAct => False
  end.
Definition closing (cl : bool) (h : header) (next : hf_pc) : Prop :=
  match next with
  | HfOnClose => cl = false /\ h_opcode h = 8
  | HfOnPing | HfOnPong => cl = false /\ h_opcode h <> 8
  | HfFinish => cl = true -> h_opcode h = 8
  | HfAct => False
  end.

(** The stack of listenAsync(); [cl]: a Close frame has been told. *)
Inductive shape (cl : bool) (h : header) : list cor -> Prop :=
| sh_nil : shape cl h []
| sh_listen : (cl = true -> h_opcode h = 8) -> shape cl h [CoListen]
| sh_read p l : cl = false -> shape cl h [CoReadFrame p; CoHandle l HfAct; CoListen]
| sh_act l : cl = false -> shape cl h [CoHandle l HfAct; CoListen]
| sh_payload l us al pr p l' next : cl = false -> awaits h us next -> shape cl h [CoPayload l us al pr p; CoHandle l' next; CoListen]
| sh_handle l next : closing cl h next -> shape cl h [CoHandle l next; CoListen]
| sh_talk c st : talker c -> shape cl h st -> shape cl h (c :: st).

Lemma shape_unwind cl h : forall st st', shape cl h st -> unwind st = Some st' -> shape cl h st'.
Proof.
  intros st st' H. induction H as [|H|p l H|l H|l us al pr p l' next H H1|l next H|c st Hc H IH]; intros E; cbn [unwind] in E; try discriminate E.
  destruct c; try destruct Hc; try (now apply IH). now injection E as <-.
Qed.
Lemma shape_fail cl h e sh st w s c : shape cl h st -> fail e (Conf h sh st w) = (s, c) ->
  c_world c = w /\ shape cl (c_hdr c) (c_stack c).
Proof.
  intros H E. unfold fail in E. cbn [c_stack c_hdr c_short c_world] in E. destruct (unwind st) as [st'|] eqn:Eu; injection E as <- <-.
  - split; [reflexivity|]. exact (shape_unwind _ _ _ _ H Eu).
  - split; [reflexivity|]. apply sh_nil.
Qed.
Lemma fail_none cl h e sh st w s c : unwind st = None -> fail e (Conf h sh st w) = (s, c) -> c_world c = w /\ shape cl (c_hdr c) (c_stack c).
Proof. intros Eu E. unfold fail in E. cbn [c_stack c_hdr c_short c_world] in E. rewrite Eu in E. injection E as <- <-. split; [reflexivity|apply sh_nil]. Qed.

Lemma log_exact n got w : w_log (snd (readExactAsyncInline n got w)) = w_log w.
Proof. unfold readExactAsyncInline. destruct (n <=? lenN got); [reflexivity|]. destruct (read_raw _ _ _) as [[[d|[]|] s] k]; reflexivity. Qed.
Lemma log_some n w : w_log (snd (readSomeAsyncInline n w)) = w_log w.
Proof. unfold readSomeAsyncInline. destruct (n <=? 0)%Z; [reflexivity|]. destruct (read_raw _ _ _) as [[[d|[]|] s] k]; reflexivity. Qed.
Lemma log_write d w : w_log (snd (writeExactAsyncInline d w)) = w_log w.
Proof. unfold writeExactAsyncInline. destruct d; [reflexivity|]. destruct (w_wr w) as [|[n|[]|] q]; reflexivity. Qed.
Lemma log_checkA h w : w_log (snd (checkForContinuationA h w)) = w_log w.
Proof. unfold checkForContinuationA. destruct (_ || _)%bool; reflexivity. Qed.

Section Async.
Variable react : react_t.

(** What a step may do: tell nothing, or one thing that is no Close, or a Close that is the last. *)
Definition good_step (cl : bool) (w : world) (c : conf) : Prop :=
  (w_log (c_world c) = w_log w /\ shape cl (c_hdr c) (c_stack c)) \/
  (cl = false /\ exists l ev, w_log (c_world c) = w_log w ++ [(l, ev)] /\
     match ev with EvClose _ _ => shape true (c_hdr c) (c_stack c) | _ => shape false (c_hdr c) (c_stack c) end).

(** Talkers on top of anything. *)
Lemma talker_step_gen (P : list cor -> Prop) h sh co K w s c :
  (forall c st, talker c -> P st -> P (c :: st)) -> (forall st st', P st -> unwind st = Some st' -> P st') -> P [] ->
  talker co -> P K -> step react (Conf h sh (co :: K) w) = (s, c) ->
  w_log (c_world c) = w_log w /\ (c_hdr c = h /\ c_short c = sh) /\ P (c_stack c).
Proof.
  intros sh_talk sh_unwind sh_nil Ht HK E. cbn [step] in E.
  assert (Hf : forall e w', w_log w' = w_log w -> fail e (Conf h sh K w') = (s, c) -> w_log (c_world c) = w_log w /\ (c_hdr c = h /\ c_short c = sh) /\ P (c_stack c)).
  { intros e w' Hw Ef. unfold fail in Ef. cbn [c_stack c_hdr c_short c_world] in Ef. destruct (unwind K) as [st'|] eqn:Eu; injection Ef as <- <-.
    - split; [exact Hw|]. split; [now split|]. exact (sh_unwind _ _ HK Eu).
    - split; [exact Hw|]. split; [now split|exact sh_nil]. }
  assert (Hr : forall st co' w', w_log w' = w_log w -> talker co' -> (st, Conf h sh (co' :: K) w') = (s, c) -> w_log (c_world c) = w_log w /\ (c_hdr c = h /\ c_short c = sh) /\ P (c_stack c)).
  { intros st co' w' Hw Hc [= <- <-]. split; [exact Hw|]. split; [now split|]. now apply sh_talk. }
  assert (Hr2 : forall st co1 co2 w', w_log w' = w_log w -> talker co1 -> talker co2 -> (st, Conf h sh (co1 :: co2 :: K) w') = (s, c) -> w_log (c_world c) = w_log w /\ (c_hdr c = h /\ c_short c = sh) /\ P (c_stack c)).
  { intros st co1 co2 w' Hw H1 H2 [= <- <-]. split; [exact Hw|]. split; [now split|]. apply sh_talk; [exact H1|]. now apply sh_talk. }
  assert (Hp : forall st w', w_log w' = w_log w -> (st, Conf h sh K w') = (s, c) -> w_log (c_world c) = w_log w /\ (c_hdr c = h /\ c_short c = sh) /\ P (c_stack c)).
  { intros st w' Hw [= <- <-]. now split. }
  assert (Hu : forall st w', w_log w' = w_log w -> (st, Conf h sh [] w') = (s, c) -> w_log (c_world c) = w_log w /\ (c_hdr c = h /\ c_short c = sh) /\ P (c_stack c)).
  { intros st w' Hw [= <- <-]. repeat split; [exact Hw|exact sh_nil]. }
  destruct co as [|p|l p|l us al pr p|fin op m hh p|hh p|cs fr|]; try destruct Ht.
  - (* CoSend *)
    destruct p as [| |d|]; cbn [step_send] in E.
    + assert (Hh : forall fin op n, w_log (snd (sendFrameHeaderAsync hh fin op n w)) = w_log w /\ talker (snd (fst (sendFrameHeaderAsync hh fin op n w)))).
      { intros f o n. unfold sendFrameHeaderAsync. cbn [h_hasMask]. destruct (s_mask (w_sock w)); split; first [reflexivity|exact I]. }
      destruct m as [[|b bs]|]; match type of E with context [sendFrameHeaderAsync hh fin op ?n w] =>
        destruct (Hh fin op n) as [Hl Hc]; destruct (sendFrameHeaderAsync hh fin op n w) as [[h' co] w'] end; cbn [fst snd] in Hl, Hc;
        revert E; apply Hr2; first [assumption|exact I].
    + cbv zeta in E. destruct (h_hasMask hh).
      * destruct (2 ^ 31 <=? _); revert E; [apply Hu|apply Hr]; auto; exact I.
      * revert E; apply Hr; auto; exact I.
    + pose proof (log_write d w) as Hl. destruct (writeExactAsyncInline d w) as [[d'|d'| |] w']; cbn [snd] in Hl.
      * revert E; apply Hp; auto.
      * revert E; apply Hr; auto; exact I.
      * revert E; apply Hr; auto; exact I.
      * revert E; apply Hf; auto.
    + revert E; apply Hp; auto.
  - (* CoWrite *)
    destruct p as [d| |d| |d]; cbn [step_writeFrame] in E; cbv zeta in E.
    + pose proof (log_write d w) as Hl. destruct (writeExactAsyncInline d w) as [[d'|d'| |] w']; cbn [snd] in Hl; revert E; first [apply Hf; auto; fail|apply Hr; auto; exact I].
    + destruct (_ =? 2); [revert E; apply Hr; auto; exact I|]. destruct (_ =? 3); revert E; apply Hr; auto; exact I.
    + pose proof (log_write d w) as Hl. destruct (writeExactAsyncInline d w) as [[d'|d'| |] w']; cbn [snd] in Hl; revert E; first [apply Hf; auto; fail|apply Hr; auto; exact I].
    + destruct (h_hasMask hh); revert E; [apply Hr|apply Hp]; auto; exact I.
    + pose proof (log_write d w) as Hl. destruct (writeExactAsyncInline d w) as [[d'|d'| |] w']; cbn [snd] in Hl; revert E;
        [apply Hp; auto|apply Hr; auto; exact I|apply Hr; auto; exact I|apply Hf; auto].
  - (* CoUser *)
    destruct cs as [|c0 cs]; cbn [step_user] in E; [revert E; apply Hp; auto|]. cbv zeta in E.
    destruct c0 as [|l|m b|ca op| | |f o m].
    + revert E; apply Hr; auto; exact I.
    + revert E; apply Hr; auto; exact I.
    + revert E; apply Hr; auto; exact I.
    + assert (Hs : talker (start_send op)) by (destruct op; exact I).
      injection E as <- <-. split; [reflexivity|]. split; [now split|]. cbn [c_stack c_hdr]. apply sh_talk; [exact Hs|]. destruct ca; cbn [app].
      * apply sh_talk; [exact I|]. apply sh_talk; [exact I|exact HK].
      * apply sh_talk; [exact I|exact HK].
    + destruct fr; revert E; [apply Hu|apply Hr]; auto; exact I.
    + revert E; apply Hf; auto.
    + revert E; apply Hr2; first [reflexivity|assumption|exact I].
  - (* CoCatch *) revert E; apply Hp; auto.
Qed.

Lemma talker_step cl h sh co K w s c : talker co -> shape cl h K -> step react (Conf h sh (co :: K) w) = (s, c) ->
  w_log (c_world c) = w_log w /\ shape cl (c_hdr c) (c_stack c).
Proof.
  intros Ht HK E. destruct (talker_step_gen (shape cl h) h sh co K w s c) as (H1 & [H2 _] & H3); auto using sh_talk, sh_nil.
  - intros st st'. apply shape_unwind.
  - split; [exact H1|]. now rewrite H2.
Qed.
Lemma talkers_step h sh st w s c : Forall talker st -> step react (Conf h sh st w) = (s, c) ->
  w_log (c_world c) = w_log w /\ Forall talker (c_stack c).
Proof.
  intros H E. destruct st as [|co K].
  - cbn [step] in E. injection E as <- <-. split; [reflexivity|exact H].
  - inversion H as [|? ? H1 H2]; subst. destruct (talker_step_gen (Forall talker) h sh co K w s c) as (G1 & _ & G3); auto.
    induction st as [|c1 st IH]; intros st' Hs Eu; [discriminate Eu|]. inversion Hs as [|? ? Hs1 Hs2]; subst.
    cbn [unwind] in Eu. destruct c1; try (now apply IH). now injection Eu as <-.
Qed.

Lemma payload_shape h us w e : readPayloadAsync h us w = e -> match e with inl _ => True | inr co => exists l al, co = CoPayload l us al 0 RpAct end.
Proof. intros <-. unfold readPayloadAsync. destruct (us && _)%bool; [exact I|]. destruct (_ <? 0)%Z; [exact I|]. eexists _, _. reflexivity. Qed.

Lemma read_step h sh p l w s c : step react (Conf h sh [CoReadFrame p; CoHandle l HfAct; CoListen] w) = (s, c) ->
  w_log (c_world c) = w_log w /\ shape false (c_hdr c) (c_stack c).
Proof.
  intros E. cbn [step] in E. set (K := [CoHandle l HfAct; CoListen]) in E.
  assert (Hr : forall st h' p' w', w_log w' = w_log w -> (st, Conf h' sh (CoReadFrame p' :: K) w') = (s, c) -> w_log (c_world c) = w_log w /\ shape false (c_hdr c) (c_stack c)).
  { intros st h' p' w' Hw [= <- <-]. split; [exact Hw|]. now apply sh_read. }
  assert (Hd : forall st h' w', w_log w' = w_log w -> (st, Conf h' sh K w') = (s, c) -> w_log (c_world c) = w_log w /\ shape false (c_hdr c) (c_stack c)).
  { intros st h' w' Hw [= <- <-]. split; [exact Hw|]. now apply sh_act. }
  assert (Hf : forall e h' w', w_log w' = w_log w -> fail e (Conf h' sh K w') = (s, c) -> w_log (c_world c) = w_log w /\ shape false (c_hdr c) (c_stack c)).
  { intros e h' w' Hw Ef. destruct (fail_none false _ _ _ _ _ _ _ (eq_refl : unwind K = None) Ef) as [-> H]. now split. }
  destruct p as [got|bb|t got|t d|got]; cbn [step_readFrame] in E; cbv zeta in E.
  - pose proof (log_exact 2 got w) as Hl. destruct (readExactAsyncInline 2 got w) as [[d'|d'| |] w']; cbn [snd] in Hl; revert E; first [apply Hr; exact Hl|apply Hf; exact Hl].
  - destruct (unpackHeaderBits (be_dec bb) h) as [h' m1].
    destruct (m1 <? 126); [revert E; now apply Hr|]. destruct (m1 =? 126); [revert E; now apply Hr|]. destruct (m1 =? 127); revert E; [now apply Hr|now apply Hf].
  - pose proof (log_exact (if t =? 2 then 2 else 8) got w) as Hl. destruct (readExactAsyncInline (if t =? 2 then 2 else 8) got w) as [[d'|d'| |] w']; cbn [snd] in Hl;
      revert E; first [apply Hr; exact Hl|apply Hf; exact Hl].
  - destruct (h_hasMask _); revert E; [now apply Hr|now apply Hd].
  - pose proof (log_exact 4 got w) as Hl. destruct (readExactAsyncInline 4 got w) as [[d'|d'| |] w']; cbn [snd] in Hl;
      revert E; first [apply Hr; exact Hl|apply Hf; exact Hl|apply Hd; exact Hl].
Qed.

Lemma act_step h sh l w s c : step react (Conf h sh [CoHandle l HfAct; CoListen] w) = (s, c) ->
  w_log (c_world c) = w_log w /\ shape false (c_hdr c) (c_stack c).
Proof.
  intros E. cbn [step] in E.
  assert (Hf : forall e h' sh' w', w_log w' = w_log w -> fail e (Conf h' sh' [CoListen] w') = (s, c) -> w_log (c_world c) = w_log w /\ shape false (c_hdr c) (c_stack c)).
  { intros e h' sh' w' Hw Ef. destruct (fail_none false _ _ _ _ _ _ _ (eq_refl : unwind [CoListen] = None) Ef) as [-> H]. now split. }
  assert (Hp : forall us next sh' w', w_log w' = w_log w -> awaits h us next ->
     match readPayloadAsync h us w' with
     | inl e => fail e (Conf h sh' [CoListen] w')
     | inr co => (ARun, Conf h sh' (co :: CoHandle l next :: [CoListen]) w')
     end = (s, c) -> w_log (c_world c) = w_log w /\ shape false (c_hdr c) (c_stack c)).
  { intros us next sh' w' Hw Ha Ep. pose proof (payload_shape h us w' _ eq_refl) as Hs. destruct (readPayloadAsync h us w') as [e|co].
    - revert Ep. now apply Hf.
    - destruct Hs as (l1 & al & ->). injection Ep as <- <-. split; [exact Hw|]. now apply sh_payload. }
  unfold step_handle in E. cbv zeta in E.
  assert (Hc : h_opcode h = 1 \/ h_opcode h = 2 -> (let (ok, w') := checkForContinuationA h w in
      if (ok : bool) then match readPayloadAsync h false w' with
                          | inl e => fail e (Conf h sh [CoListen] w')
                          | inr co => (ARun, Conf h sh (co :: CoHandle l HfFinish :: [CoListen]) w')
                          end else fail ExContinuationExpected (Conf h sh [CoListen] w')) = (s, c) -> w_log (c_world c) = w_log w /\ shape false (c_hdr c) (c_stack c)).
  { intros Hop. pose proof (log_checkA h w) as Hl. destruct (checkForContinuationA h w) as [[] w']; cbn [snd] in Hl; [apply Hp|apply Hf]; auto.
    split; [reflexivity|]. destruct Hop as [-> | ->]; discriminate. }
  destruct (h_opcode h) as [|q] eqn:En.
  { destruct (_ <? 0)%Z; revert E; [now apply Hf|]. apply Hp; [reflexivity|]. split; [reflexivity|]. rewrite En. discriminate. }
  destruct q as [[[p|[p|p|]|]|[[p|p|]|[p|p|]|]|]|[[[p|p|]|[p|p|]|]|[[p|p|]|[p|p|]|]|]|]; try (revert E; now apply Hf).
  - revert E. apply Hp; [reflexivity|]. split; [reflexivity|]. rewrite En. discriminate.
  - revert E. apply Hp; [reflexivity|]. split; [reflexivity|]. rewrite En. discriminate.
  - revert E. apply Hp; [reflexivity|]. split; [reflexivity|]. exact En.
  - apply Hc; [now right|exact E].
  - apply Hc; [now left|exact E].
Qed.

Lemma payload_step h sh l us al pr p l' next w s c : awaits h us next ->
  step react (Conf h sh [CoPayload l us al pr p; CoHandle l' next; CoListen] w) = (s, c) -> good_step false w c.
Proof.
  intros Ha E. cbn [step] in E. set (K := [CoHandle l' next; CoListen]) in E.
  assert (HK : shape false h K).
  { apply sh_handle. destruct next; cbn [awaits closing] in *; try exact Ha; [destruct Ha; auto|destruct Ha; auto|destruct Ha; auto|discriminate]. }
  assert (Hr : forall st sh' pr' p' w', w_log w' = w_log w -> (st, Conf h sh' (CoPayload l us al pr' p' :: K) w') = (s, c) -> good_step false w c).
  { intros st sh' pr' p' w' Hw [= <- <-]. left. split; [exact Hw|]. now apply sh_payload. }
  assert (Hd : forall st w', w_log w' = w_log w -> (st, Conf h sh K w') = (s, c) -> good_step false w c).
  { intros st w' Hw [= <- <-]. left. split; [exact Hw|exact HK]. }
  assert (Hf : forall e w', w_log w' = w_log w -> fail e (Conf h sh K w') = (s, c) -> good_step false w c).
  { intros e w' Hw Ef. left. destruct (fail_none false _ _ _ _ _ _ _ (eq_refl : unwind K = None) Ef) as [-> H]. now split. }
  assert (Ht : forall li ev fr pr' p', match ev with EvClose _ _ => False | _ => True end ->
     (let (co, w') := call_listener react li ev fr w in (ARun, Conf h sh (co :: CoPayload l us al pr' p' :: K) w')) = (s, c) -> good_step false w c).
  { intros li ev fr pr' p' Hev [= <- <-]. right. split; [reflexivity|]. exists li, ev. split; [reflexivity|].
    cbn [c_hdr c_stack]. destruct ev; try destruct Hev; (apply sh_talk; [exact I|]; now apply sh_payload). }
  destruct p as [|n|d|]; cbn [step_payload] in E; cbv zeta in E.
  - destruct (pr <? h_len h)%Z; [revert E; now apply Hr|]. destruct (negb us && h_fin h)%bool; [|revert E; now apply Hd].
    destruct l as [li|]; [|revert E; now apply Hd]. revert E. apply Ht. exact I.
  - pose proof (log_some n w) as Hl. destruct (readSomeAsyncInline n w) as [[d'|d'| |] w']; cbn [snd] in Hl.
    + destruct (al <? _)%Z; [|revert E; now apply Hr]. injection E as <- <-. left. split; [exact Hl|apply sh_nil].
    + revert E; now apply Hr.
    + revert E; now apply Hr.
    + revert E; now apply Hf.
  - destruct d as [|b d]; [revert E; now apply Hf|]. destruct us; [revert E; now apply Hr|]. destruct l as [li|]; [|revert E; now apply Hr].
    revert E. apply Ht. exact I.
  - revert E; now apply Hd.
Qed.

Lemma handle_step cl h sh l next w s c : closing cl h next ->
  step react (Conf h sh [CoHandle l next; CoListen] w) = (s, c) -> good_step cl w c.
Proof.
  intros Hc E. cbn [step] in E. unfold step_handle in E. cbv zeta in E.
  destruct next; cbn [closing] in Hc.
  - destruct Hc.
  - destruct Hc as [-> Hop]. destruct l as [li|]; injection E as <- <-.
    + right. split; [reflexivity|]. eexists li, _. split; [reflexivity|]. cbn [c_hdr c_stack]. apply sh_talk; [exact I|]. apply sh_handle. now intros _.
    + left. split; [reflexivity|]. apply sh_listen. now intros _.
  - destruct Hc as [-> Hop]. destruct l as [li|]; injection E as <- <-.
    + right. split; [reflexivity|]. eexists li, _. split; [reflexivity|]. cbn [c_hdr c_stack]. apply sh_talk; [exact I|]. apply sh_handle. discriminate.
    + left. split; [reflexivity|]. apply sh_listen. discriminate.
  - destruct Hc as [-> Hop]. destruct l as [li|]; injection E as <- <-.
    + right. split; [reflexivity|]. eexists li, _. split; [reflexivity|]. cbn [c_hdr c_stack]. apply sh_talk; [exact I|]. apply sh_handle. discriminate.
    + left. split; [reflexivity|]. apply sh_listen. discriminate.
  - injection E as <- <-. left. split; [reflexivity|]. now apply sh_listen.
Qed.

Lemma shape_step cl h sh st w s c : shape cl h st -> step react (Conf h sh st w) = (s, c) -> good_step cl w c.
Proof.
  intros H E. destruct H as [|H|p l ->|l ->|l us al pr p l' next -> H|l next H|co K Ht HK].
  - cbn [step] in E. injection E as <- <-. left. split; [reflexivity|apply sh_nil].
  - cbn [step] in E. destruct (N.eqb_spec (h_opcode h) OPCODE_CLOSE) as [Ec|Ec]; injection E as <- <-.
    + left. split; [reflexivity|apply sh_nil].
    + destruct cl; [now destruct (Ec (H eq_refl))|]. left. split; [reflexivity|]. now apply sh_read.
  - left. eapply read_step, E.
  - left. eapply act_step, E.
  - eapply payload_step; eassumption.
  - eapply handle_step; eassumption.
  - left. eapply talker_step; eassumption.
Qed.


(** ** Runs *)
Definition no_close (l : list (nat * event)) : Prop := Forall (fun x => match snd x with EvClose _ _ => False | _ => True end) l.
Definition close_last (cl : bool) (l : list (nat * event)) : Prop :=
  if cl then exists n1 x, l = n1 ++ [x] /\ no_close n1 else no_close l.
Definition told_ok (l0 : list (nat * event)) (h : header) (st : list cor) (w : world) : Prop :=
  exists cl new, w_log w = l0 ++ new /\ close_last cl new /\ shape cl h st.

Lemma told_step l0 h sh st w s c : told_ok l0 h st w -> step react (Conf h sh st w) = (s, c) -> told_ok l0 (c_hdr c) (c_stack c) (c_world c).
Proof.
  intros (cl & new & El & Hc & Hs) E. destruct (shape_step _ _ _ _ _ _ _ Hs E) as [[H1 H2]|(-> & l & ev & H1 & H2)].
  - exists cl, new. split; [now rewrite H1|]. now split.
  - cbn [close_last] in Hc. exists (match ev with EvClose _ _ => true | _ => false end), (new ++ [(l, ev)]).
    split; [now rewrite H1, El, app_assoc|]. destruct ev as [op d|op|m|m|k m]; cbn [close_last]; (split; [|exact H2]).
    all: first [eexists _, _; split; [reflexivity|exact Hc] | apply Forall_app; split; [exact Hc|apply Forall_cons; [exact I|apply Forall_nil]]].
Qed.

Definition crowd_ok (l0 : list (nat * event)) (s : crowd_t) : Prop :=
  told_ok l0 (k_hdr (fst s 0%nat)) (k_stack (fst s 0%nat)) (snd s) /\ forall i, i <> 0%nat -> Forall talker (k_stack (fst s i)).

Lemma ktick_cases k w k' w' : ktick react k w = (k', w') -> (k' = k /\ w' = w) \/
  exists st c, step react (Conf (k_hdr k) (k_short k) (k_stack k) w) = (st, c) /\ k' = Task st (c_hdr c) (c_short c) (c_stack c) /\ w' = c_world c.
Proof.
  unfold ktick, tick. destruct k as [st h sh K]. cbn [k_status k_hdr k_short k_stack]. intros E.
  destruct st; try (injection E as <- <-; now left).
  - right. destruct (step react _) as [st c]. injection E as <- <-. now exists st, c.
  - right. destruct (step react _) as [st c]. injection E as <- <-. now exists st, c.
Qed.
Lemma crowd_step l0 e s : crowd_ok l0 s -> crowd_ok l0 (kstep react e s).
Proof.
  intros [H0 Hi]. destruct e as [i|rs]; cbn [kstep].
  - destruct (ktick react (fst s i) (snd s)) as [k w] eqn:E. destruct (ktick_cases _ _ _ _ E) as [[-> ->]|(st & c & Es & -> & ->)].
    + split; cbn [fst snd].
      * destruct (Nat.eqb_spec 0 i) as [<-|]; exact H0.
      * intros j Hj. destruct (Nat.eqb_spec j i) as [->|]; now apply Hi.
    + split; cbn [fst snd].
      * destruct (Nat.eqb_spec 0 i) as [<-|Hn]; cbn [k_hdr k_stack].
        -- exact (told_step _ _ _ _ _ _ _ H0 Es).
        -- destruct (talkers_step _ _ _ _ _ _ (Hi i (fun x => Hn (eq_sym x))) Es) as [Hl _].
           destruct H0 as (cl & new & G1 & G2 & G3). exists cl, new. split; [now rewrite Hl|]. now split.
      * intros j Hj. destruct (Nat.eqb_spec j i) as [->|]; [|now apply Hi]. cbn [k_stack].
        exact (proj2 (talkers_step _ _ _ _ _ _ (Hi i Hj) Es)).
  - split; [exact H0|exact Hi].
Qed.
Lemma crowd_run l0 : forall evs s, crowd_ok l0 s -> crowd_ok l0 (krun react evs s).
Proof.
  unfold krun. induction evs as [|e evs IH]; intros s H; cbn [fold_left]; [exact H|]. apply IH, crowd_step, H.
Qed.
Lemma close_last_last cl new n1 (l : nat) c m n2 : close_last cl new -> new = n1 ++ (l, EvClose c m) :: n2 -> n2 = [].
Proof.
  intros Hc En.
  assert (Hno : forall n r, no_close n -> n <> n1 ++ (l, EvClose c m) :: r).
  { intros n r Hn ->. apply Forall_app in Hn. destruct Hn as [_ Hn]. inversion Hn as [|? ? Hx _]; subst. exact Hx. }
  destruct cl; cbn [close_last] in Hc; [|exact (False_ind _ (Hno new n2 Hc En))].
  destruct Hc as (n & x & -> & Hn).
  destruct n2 as [|y n2] using List.rev_ind; [reflexivity|]. rewrite app_comm_cons, app_assoc in En. apply app_inj_tail in En. destruct En as [En _].
  exact (False_ind _ (Hno n n2 Hn En)).
Qed.
End Async.

(** C12. In listenAsync() a Close frame is the last thing that is told: for every code of listeners and of other coroutines on the same
    socket, every order of executor steps and arrivals, calls of other threads during reads, and every behaviour of reads and writes. *)
Theorem C12_several_coroutines : forall react work w evs,
  exists new, notified (krun react evs (crowd_init work w)) = w_log w ++ new /\
    forall n1 l c m n2, new = n1 ++ (l, EvClose c m) :: n2 -> n2 = [].
Proof.
  intros react work w evs. destruct (crowd_run react (w_log w) evs (crowd_init work w)) as [(cl & new & H1 & H2 & _) _].
  - split; cbn [crowd_init fst snd].
    + exists false, []. split; [symmetry; apply app_nil_r|]. split; [apply Forall_nil|]. apply sh_listen. discriminate.
    + intros [|i] Hi; [now destruct Hi|]. apply Forall_cons; [exact I|apply Forall_nil].
  - exists new. split; [exact H1|]. intros n1 l c m n2 En. exact (close_last_last cl new n1 l c m n2 H2 En).
Qed.
Print Assumptions C12_several_coroutines.

Theorem C12_async : forall react w evs st c,
  run react evs (ARun, start_listen w) = (st, c) ->
  exists new, w_log (c_world c) = w_log w ++ new /\
    forall n1 l k m n2, new = n1 ++ (l, EvClose k m) :: n2 -> n2 = [].
Proof.
  intros react w evs st c E.
  assert (H : told_ok (w_log w) (c_hdr c) (c_stack c) (c_world c)).
  { assert (H0 : told_ok (w_log w) (c_hdr (start_listen w)) (c_stack (start_listen w)) (c_world (start_listen w))).
    { exists false, []. split; [symmetry; apply app_nil_r|]. split; [apply Forall_nil|]. apply sh_listen. discriminate. }
    revert E H0. generalize ARun as st0. generalize (start_listen w) as c0. induction evs as [|e evs IH]; intros c0 st0 E H0; cbn [run] in E.
    - injection E as <- <-. exact H0.
    - destruct e as [|rs].
      + destruct (tick react (st0, c0)) as [st1 c1] eqn:Et. apply (IH c1 st1 E).
        unfold tick in Et. destruct c0 as [h sh K w0]. destruct st0; try (injection Et as <- <-; exact H0); exact (told_step _ _ _ _ _ _ _ _ H0 Et).
      + exact (IH _ _ E H0). }
  destruct H as (cl & new & H1 & H2 & _). exists new. split; [exact H1|]. intros n1 l k m n2 En. exact (close_last_last cl new n1 l k m n2 H2 En).
Qed.
Print Assumptions C12_async.

(** * A concrete case: a ping, a Close frame and another ping arrive; callbacks answer everything, with a new buffer size each time;
    another coroutine sends and takes the listener away; a write fails. *)
Definition closing_react : react_t := fun _ log => [CSend true (SoText (Some [x61])); CSetConfig true (Z.of_nat (length log)); CSend true SoClose0].
Definition closing_work (i : nat) : list cmd := match i with 1%nat => [CSend true (SoPing (Some [x62])); CSetListener (Some 2%nat); CSend false (SoPong None)] | _ => [] end.
Definition closing_world : world :=
  World [RData x89 [x01; x7a; x88]; RData x00 [x89; x00]] [WAccept 1; WIo IoBroken; WAccept 2; WIo IoRetry; WIo IoZero] [] (fun n => Byte.x2a) 0 [] (Sock false 8 (Some 1%nat) (-1) false).
Example C12_async_nonvacuous :
  let s := krun closing_react (concat (repeat [CTick 0; CTick 1; CTick 0] 40)) (crowd_init closing_work closing_world) in
  let c := run closing_react (repeat Tick 100) (ARun, start_listen closing_world) in
  notified s = [(1%nat, EvPing [x7a]); (2%nat, EvClose 0 [])] /\ k_status (fst s 0%nat) = ADone /\ w_in (snd s) = [RData x89 [x00]] /\
  w_log (c_world (snd c)) = [(1%nat, EvPing [x7a]); (1%nat, EvClose 0 [])] /\ fst c = ADone.
Proof. vm_compute. repeat split. Qed.
