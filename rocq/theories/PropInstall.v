(** C45, asynchronous socket, listeners installed by anybody at any time: who is called. *)
From Verif Require Import Bytes Frame World WebSocket AsyncWebSocket SpecFrame SpecSend SpecListen SpecAsync
  ProofFrame ProofStream ProofSend ProofHeader ProofListen ProofInv ProofAsync ProofAsync2 PropAsync.
From Coq Require Import ZifyBool ZifyNat ZifyN.
Local Open Scope N_scope.
Local Arguments takeN : simpl never.
Local Arguments dropN : simpl never.
Local Arguments lenN : simpl never.
Local Arguments be_enc : simpl never.
Local Arguments be_dec : simpl never.
Notation step := AsyncWebSocket.step.

(** ** Specification *)
(** Anything that may happen: the executor takes a step, something happens on the connection (which includes what other
    threads do to the socket while it waits for bytes), or another thread calls the socket between two steps. *)
Definition call_now (x : ext) (c : conf) : conf :=
  Conf (c_hdr c) (c_short c) (c_stack c) (set_sock (c_world c) (apply_ext x (w_sock (c_world c)))).
Inductive moves (react : react_t) (c : conf) : conf -> Prop :=
| mv_refl : moves react c c
| mv_step c1 : moves react c c1 -> moves react c (snd (step react c1))
| mv_arrive c1 s : moves react c c1 -> moves react c (arrive s c1)
| mv_call c1 x : moves react c c1 -> moves react c (call_now x c1).
(** The same from the moment listenAsync turns to the next frame until it is back for the one after it. *)
Inductive frame_moves (px : ext -> Prop) (react : react_t) (c : conf) : conf -> Prop :=
| fm_start : frame_moves px react c (snd (step react c))
| fm_step c1 : frame_moves px react c c1 -> c_stack c1 <> [CoListen] -> frame_moves px react c (snd (step react c1))
| fm_arrive c1 s : frame_moves px react c c1 -> script_ok px any_err s -> frame_moves px react c (arrive s c1)
| fm_call c1 x : frame_moves px react c c1 -> px x -> frame_moves px react c (call_now x c1).
Definition any_ext (x : ext) : Prop := True.
Definition no_install (x : ext) : Prop := match x with XSetListener _ => False | _ => True end.
Definition installed (c : conf) : option nat := s_listener (w_sock (c_world c)).
Definition is_data (ev : event) : bool := match ev with EvMsg _ _ | EvEnd _ => true | _ => false end.

(** ** Proof *)
Section Frame.
Variable react : react_t.
Variable L D : option nat.
Variable log0 : list (nat * event).

Inductive base2 : list cor -> Prop :=
| b2_l : base2 [CoListen]
| b2_h p : p <> HfAct -> base2 [CoHandle L p; CoListen]
| b2_p us al pr pp p : p <> HfAct -> base2 [CoPayload D us al pr pp; CoHandle L p; CoListen].
Inductive shape2 : conf -> Prop :=
| sh2_c h s us K w : Forall userish us -> base2 K -> shape2 (Conf h s (us ++ K) w)
| sh2_d h s w : shape2 (Conf h s [] w).
Definition by2 (w : world) : Prop := exists new, w_log w = log0 ++ new /\
  Forall (fun e => Some (fst e) = if is_data (snd e) then D else L) new.

Lemma by2_call w l ev : by2 w -> (if is_data ev then D else L) = Some l -> by2 (set_log w (w_log w ++ [(l, ev)])).
Proof.
  intros (new & H1 & H2) HL. exists (new ++ [(l, ev)]). cbn. rewrite H1, app_assoc. split; [reflexivity|].
  apply Forall_app. split; [exact H2|]. constructor; [cbn; congruence|constructor].
Qed.
Lemma by2_eq w w' : w_log w' = w_log w -> by2 w -> by2 w'.
Proof. intros H. unfold by2. now rewrite H. Qed.
Lemma base2_unwind K : base2 K -> unwind K = None.
Proof. destruct 1; reflexivity. Qed.
Lemma shape2_fail e h s us K w : Forall userish us -> base2 K -> by2 w ->
  shape2 (snd (fail e (Conf h s (us ++ K) w))) /\ by2 (c_world (snd (fail e (Conf h s (us ++ K) w)))).
Proof.
  intros Hu HK HL. unfold fail. cbn [c_stack c_hdr c_short c_world].
  destruct (unwind (us ++ K)) as [st|] eqn:Eu; cbn [snd c_world]; (split; [|exact HL]); [|constructor].
  assert (exists us', Forall userish us' /\ st = us' ++ K) as (us' & H1 & ->).
  { revert st Eu. induction Hu as [|co us Hc Hu IH]; intros st Eu; cbn [app] in Eu; [rewrite (base2_unwind K HK) in Eu; discriminate|].
    destruct co; cbn in Hc; try tauto; cbn [unwind] in Eu; try (now apply IH). injection Eu as <-. eauto. }
  now constructor.
Qed.
Lemma shape2_fail0 e h s K w : base2 K -> by2 w -> shape2 (snd (fail e (Conf h s K w))) /\ by2 (c_world (snd (fail e (Conf h s K w)))).
Proof. intros HK HL. apply (shape2_fail e h s [] K w); [constructor|exact HK|exact HL]. Qed.

Ltac top2 us := first
 [ match goal with |- shape2 (Conf _ _ (?a :: ?b :: ?c :: us ++ _) _) /\ _ => split; [apply (sh2_c _ _ (a :: b :: c :: us)); [repeat (constructor; [exact I|]); assumption|assumption]|] end
 | match goal with |- shape2 (Conf _ _ (?a :: ?b :: us ++ _) _) /\ _ => split; [apply (sh2_c _ _ (a :: b :: us)); [repeat (constructor; [exact I|]); assumption|assumption]|] end
 | match goal with |- shape2 (Conf _ _ (?a :: us ++ _) _) /\ _ => split; [apply (sh2_c _ _ (a :: us)); [repeat (constructor; [exact I|]); assumption|assumption]|] end
 | match goal with |- shape2 (Conf _ _ (us ++ _) _) /\ _ => split; [apply sh2_c; assumption|] end
 | match goal with |- shape2 (Conf _ _ [] _) /\ _ => split; [apply sh2_d|] end ].

Lemma frame2_user co us K h s w : userish co -> Forall userish us -> base2 K -> by2 w ->
  let c' := snd (step react (Conf h s (co :: us ++ K) w)) in shape2 c' /\ by2 (c_world c').
Proof.
  intros Hc Hu HK HL. cbv zeta. unfold AsyncWebSocket.step.
  destruct co as [|p|l p|l ush al pr p|fin op m hh p|hh p|cs frd|]; cbn in Hc; try tauto.
  - unfold step_send. cbv zeta.
    assert (forall n h' co w1, sendFrameHeaderAsync hh fin op n w = (h', co, w1) -> (exists p, co = CoWrite h' p) /\ w_log w1 = w_log w) as Hs.
    { intros n h' co w1. unfold sendFrameHeaderAsync. cbv zeta. cbn [h_hasMask]. destruct (s_mask (w_sock w)); intros Eq; injection Eq as <- <- <-; eauto. }
    destruct p as [| |left|].
    + destruct m as [[|b bs]|]; destruct (sendFrameHeaderAsync hh fin op _ w) as [[h' co] w1] eqn:Es; apply Hs in Es; destruct Es as [[pp ->] Hlog];
        cbn [snd]; top2 us; cbn [c_world]; eapply by2_eq; eassumption.
    + destruct (h_hasMask hh); [destruct (_ <=? _)|]; cbn [snd]; top2 us; exact HL.
    + destruct (writeExactAsyncInline left w) as [r w1] eqn:Ew. apply writeA_log in Ew.
      assert (by2 w1) as HL1 by (eapply by2_eq; eassumption).
      destruct r; try (cbn [snd]; top2 us; exact HL1). now apply shape2_fail.
    + cbn [snd]. top2 us. exact HL.
  - unfold step_writeFrame. cbv zeta.
    destruct p as [left| |left| |left].
    1,3,5: destruct (writeExactAsyncInline left w) as [r w1] eqn:Ew; apply writeA_log in Ew;
      assert (by2 w1) as HL1 by (eapply by2_eq; eassumption);
      destruct r; try (cbn [snd]; top2 us; exact HL1); now apply shape2_fail.
    + destruct (_ =? 2); [|destruct (_ =? 3)]; cbn [snd]; top2 us; exact HL.
    + destruct (h_hasMask hh); cbn [snd]; top2 us; exact HL.
  - unfold step_user. destruct cs as [|cm cs]; [cbn [snd]; top2 us; exact HL|]. cbv zeta.
    destruct cm as [|l|mk b|catch o| | |fin0 opc0 msg0]; try (cbn [snd]; top2 us; exact HL).
    + assert (userish (start_send o)) as Hss by (unfold start_send; destruct (send_args o) as [[? ?] ?]; exact I).
      cbn [snd]. split; [|exact HL]. destruct catch; cbn [app].
      * apply (sh2_c _ _ (start_send o :: CoCatch :: CoUser cs frd :: us)); [|assumption]. repeat (constructor; [first [exact I|exact Hss]|]). assumption.
      * apply (sh2_c _ _ (start_send o :: CoUser cs frd :: us)); [|assumption]. repeat (constructor; [first [exact I|exact Hss]|]). assumption.
    + destruct frd; cbn [snd]; top2 us; exact HL.
    + now apply shape2_fail.
  - cbn [snd]. top2 us. exact HL.
Qed.

Lemma frame2_step c : shape2 c -> c_stack c <> [CoListen] -> by2 (c_world c) ->
  shape2 (snd (step react c)) /\ by2 (c_world (snd (step react c))).
Proof.
  intros HS Hne HL. destruct HS as [h s us K w Hu HK|h s w]; cbn [c_stack c_world] in *; [|split; [constructor|exact HL]].
  destruct us as [|co us].
  2: { inversion Hu; subst. now apply frame2_user. }
  cbn [app] in *. destruct HK as [|p Hp|ush al pr pp p Hp].
  - congruence.
  - unfold AsyncWebSocket.step, step_handle. cbv zeta. destruct p; [congruence| | | |].
    1,2,3: destruct L as [l|] eqn:EL; cbn [snd call_listener]; (split; [|first [exact HL|apply by2_call; [exact HL|exact EL]]]);
      [apply (sh2_c _ _ [CoUser _ false]); [repeat constructor|rewrite <- EL; apply b2_h; discriminate]|apply (sh2_c _ _ []); [constructor|apply b2_l]].
    cbn [snd]. split; [|exact HL]. apply (sh2_c _ _ []); [constructor|apply b2_l].
  - unfold AsyncWebSocket.step, step_payload. cbv zeta. destruct pp as [|n|got|].
    + destruct (pr <? h_len h)%Z; [cbn [snd]; split; [apply (sh2_c _ _ []); [constructor|now apply b2_p]|exact HL]|].
      destruct (negb ush && h_fin h)%bool; [|cbn [snd]; split; [apply (sh2_c _ _ []); [constructor|now apply b2_h]|exact HL]].
      destruct D as [l|] eqn:EL; cbn [snd call_listener]; (split; [|first [exact HL|apply by2_call; [exact HL|exact EL]]]).
      * apply (sh2_c _ _ [CoUser _ false]); [repeat constructor|rewrite <- EL; now apply b2_p].
      * apply (sh2_c _ _ []); [constructor|now apply b2_h].
    + destruct (readSomeAsyncInline n w) as [r w1] eqn:Er. apply readSomeA_log in Er.
      assert (by2 w1) as HL1 by (eapply by2_eq; eassumption).
      destruct r; [destruct (al <? Z.of_N (lenN d))%Z| | |]; cbn [snd];
        try (split; [apply (sh2_c _ _ []); [constructor|now apply b2_p]|exact HL1]); [split; [constructor|exact HL1]|].
      apply shape2_fail0; [now apply b2_h|exact HL1].
    + destruct got; [apply shape2_fail0; [now apply b2_h|exact HL]|].
      destruct ush; [cbn [snd]; split; [apply (sh2_c _ _ []); [constructor|now apply b2_p]|exact HL]|].
      destruct D as [l|] eqn:EL; cbn [snd call_listener]; (split; [|first [exact HL|apply by2_call; [exact HL|exact EL]]]).
      * apply (sh2_c _ _ [CoUser _ _]); [repeat constructor|rewrite <- EL; now apply b2_p].
      * apply (sh2_c _ _ []); [constructor|rewrite <- EL; now apply b2_p].
    + cbn [snd]. split; [apply (sh2_c _ _ []); [constructor|now apply b2_h]|exact HL].
Qed.
End Frame.

(** Before the header has been read: nothing was called, the listener for control frames is fixed. *)
Inductive early (L : option nat) : conf -> Prop :=
| ea_a h s p w : early L (Conf h s [CoReadFrame p; CoHandle L HfAct; CoListen] w)
| ea_b h s w : early L (Conf h s [CoHandle L HfAct; CoListen] w).

Lemma readExactA_log n got w r w' : readExactAsyncInline n got w = (r, w') -> w_log w' = w_log w.
Proof.
  unfold readExactAsyncInline. destruct (n <=? lenN got); intros E; [injection E as <- <-; auto|].
  destruct (read_raw (n - lenN got) (w_in w) (w_sock w)) as [[r0 s'] k'] eqn:Er.
  assert (w' = set_sock (set_in w s') k') as -> by (destruct r0 as [d|[]|]; congruence). auto.
Qed.
Lemma early_step react L c : early L c ->
  w_log (c_world (snd (step react c))) = w_log (c_world c) /\
  (early L (snd (step react c)) \/ shape2 L (installed c) (snd (step react c))).
Proof.
  destruct 1 as [h s p w|h s w].
  - unfold AsyncWebSocket.step, step_readFrame.
    destruct p as [got|bb|ty got|ty d|got].
    1,3,5: match goal with |- context [readExactAsyncInline ?n ?g ?w0] => destruct (readExactAsyncInline n g w0) as [r w1] eqn:Er end;
      apply readExactA_log in Er; destruct r; cbn [snd c_world fail unwind c_stack c_hdr c_short]; (split; [exact Er|]);
      first [left; constructor|right; constructor].
    + destruct (unpackHeaderBits (be_dec bb) h) as [h1 l1].
      destruct (l1 <? 126); [|destruct (l1 =? 126); [|destruct (l1 =? 127)]]; cbn [snd c_world fail unwind c_stack c_hdr c_short]; (split; [reflexivity|]);
        first [left; constructor|right; constructor].
    + cbv zeta. destruct (h_hasMask _); cbn [snd c_world]; (split; [reflexivity|]); left; constructor.
  - unfold AsyncWebSocket.step, step_handle. cbv zeta. cbn [c_world installed].
    set (D := s_listener (w_sock w)).
    assert (forall us nx sh w0, nx <> HfAct -> s_listener (w_sock w0) = D -> w_log w0 = w_log w ->
      let c' := snd (match readPayloadAsync h us w0 with inl e => fail e (Conf h sh [CoListen] w0) | inr co => (ARun, Conf h sh (co :: CoHandle L nx :: [CoListen]) w0) end) in
      w_log (c_world c') = w_log w /\ (early L c' \/ shape2 L D c')) as Hp.
    { intros us nx sh w0 Hnx Hli HL. unfold readPayloadAsync. destruct (us && _)%bool; [split; [exact HL|right; constructor]|].
      destruct (_ <? 0)%Z; [split; [exact HL|right; constructor]|]. cbn [snd c_world]. split; [exact HL|]. right. rewrite Hli.
      apply (sh2_c _ _ _ _ []); [constructor|]. now constructor. }
    assert (let c' := snd (let (ok, w') := checkForContinuationA h w in
          if (ok : bool) then match readPayloadAsync h false w' with inl e => fail e (Conf h s [CoListen] w') | inr co => (ARun, Conf h s (co :: CoHandle L HfFinish :: [CoListen]) w') end
          else fail ExContinuationExpected (Conf h s [CoListen] w')) in w_log (c_world c') = w_log w /\ (early L c' \/ shape2 L D c')) as Hc.
    { unfold checkForContinuationA. cbv zeta. destruct (_ || _)%bool; [split; [reflexivity|right; constructor]|].
      apply Hp; [discriminate|reflexivity|reflexivity]. }
    destruct (h_opcode h) as [|[[[[p|p|]|[p|p|]|]|[[p|p|]|[p|p|]|]|]|[[[p|p|]|[p|p|]|]|[[p|p|]|[p|p|]|]|]|]];
      first [exact Hc|apply Hp; [discriminate|reflexivity|reflexivity]|destruct (_ <? 0)%Z; [|apply Hp; [discriminate|reflexivity|reflexivity]]|idtac];
      split; [reflexivity|right; constructor|reflexivity|right; constructor|..]; first [reflexivity|right; constructor].
Qed.

(** ** C45: who is called *)
(** During one frame, with listeners installed by callbacks and by other threads at any point, with waits and arrivals:
    onPing, onPong and onClose are called on the listener that was installed when the socket turned to the frame, and
    readMessage on the one that was installed at one moment [cm] of that frame. *)
Theorem C45_async_who : forall react c c',
  c_stack c = [CoListen] -> frame_moves any_ext react c c' ->
  exists cm new, moves react c cm /\ moves react cm c' /\
    w_log (c_world c') = w_log (c_world c) ++ new /\ w_log (c_world cm) = w_log (c_world c) /\
    Forall (fun e => Some (fst e) = installed (if is_data (snd e) then cm else c)) new.
Proof.
  intros react c c' Hc H. set (L := installed c). set (log0 := w_log (c_world c)).
  assert (moves react c c' /\
    ((early L c' /\ w_log (c_world c') = log0) \/
     exists cm, moves react c cm /\ moves react cm c' /\ w_log (c_world cm) = log0 /\ shape2 L (installed cm) c' /\ by2 L (installed cm) log0 (c_world c'))) as [Hm Hcase].
  { induction H as [|c1 H IH Hne|c1 s H IH _|c1 x H IH _].
    - assert (moves react c (snd (step react c))) as Hmv by apply mv_step, mv_refl. split; [exact Hmv|].
      assert ((early L (snd (step react c)) \/ shape2 L L (snd (step react c))) /\ w_log (c_world (snd (step react c))) = log0) as [[He|He] Hl].
      { unfold L, log0, installed. destruct c as [h s st w]. cbn in Hc. subst st. unfold AsyncWebSocket.step.
        destruct (h_opcode h =? OPCODE_CLOSE); cbn [snd c_world]; (split; [|reflexivity]); [right|left]; constructor. }
      + left. auto.
      + right. exists c. split; [apply mv_refl|]. split; [exact Hmv|]. split; [reflexivity|]. split; [exact He|].
        exists []. rewrite app_nil_r. split; [exact Hl|constructor].
    - destruct IH as [Hm IH]. split; [now apply mv_step|]. destruct IH as [[He Hl]|(cm & M1 & M2 & M3 & M4 & M5)].
      + destruct (early_step react L c1 He) as [E1 [E2|E2]]; [left; split; [exact E2|congruence]|].
        right. exists c1. split; [exact Hm|]. split; [apply mv_step, mv_refl|]. split; [exact Hl|]. split; [exact E2|].
        exists []. rewrite app_nil_r. split; [congruence|constructor].
      + right. exists cm. split; [exact M1|]. split; [now apply mv_step|]. split; [exact M3|]. now apply frame2_step.
    - destruct IH as [Hm IH]. split; [now apply mv_arrive|]. destruct IH as [[He Hl]|(cm & M1 & M2 & M3 & M4 & M5)].
      + left. split; [destruct He; constructor|exact Hl].
      + right. exists cm. split; [exact M1|]. split; [now apply mv_arrive|]. split; [exact M3|]. split; [destruct M4; constructor; assumption|exact M5].
    - destruct IH as [Hm IH]. split; [now apply mv_call|]. destruct IH as [[He Hl]|(cm & M1 & M2 & M3 & M4 & M5)].
      + left. split; [destruct He; constructor|exact Hl].
      + right. exists cm. split; [exact M1|]. split; [now apply mv_call|]. split; [exact M3|]. split; [destruct M4; constructor; assumption|exact M5]. }
  destruct Hcase as [[He Hl]|(cm & M1 & M2 & M3 & M4 & (new & N1 & N2))].
  - exists c', []. split; [exact Hm|]. split; [apply mv_refl|]. rewrite app_nil_r. split; [exact Hl|]. split; [exact Hl|constructor].
  - exists cm, new. split; [exact M1|]. split; [exact M2|]. split; [exact N1|]. split; [exact M3|].
    eapply Forall_impl; [|exact N2]. intros e He. cbv beta in *. destruct (is_data (snd e)); exact He.
Qed.
Print Assumptions C45_async_who.

Lemma readExactA_quiet n got w r w' : script_ok no_install any_err (w_in w) -> readExactAsyncInline n got w = (r, w') ->
  script_ok no_install any_err (w_in w') /\ s_listener (w_sock w') = s_listener (w_sock w).
Proof.
  intros Hs. unfold readExactAsyncInline. destruct (n <=? lenN got); intros E; [injection E as <- <-; auto|].
  destruct (read_raw (n - lenN got) (w_in w) (w_sock w)) as [[r0 s'] k'] eqn:Er.
  assert (w' = set_sock (set_in w s') k') as -> by (destruct r0 as [d|[]|]; congruence). cbn [w_in w_sock set_sock set_in].
  split; [eapply read_raw_ok; eassumption|].
  eapply (read_raw_inv (fun k => s_listener k = s_listener (w_sock w)) no_install any_err); [|exact Er|exact Hs|reflexivity].
  intros x y Hx Hy. destruct x; cbn in *; congruence || contradiction.
Qed.
Lemma early_quiet react L c : early L c -> script_ok no_install any_err (w_in (c_world c)) -> installed c = L ->
  early L (snd (step react c)) -> script_ok no_install any_err (w_in (c_world (snd (step react c)))) /\ installed (snd (step react c)) = L.
Proof.
  unfold installed. destruct 1 as [h s p w|h s w]; cbn [c_world]; intros Hs Hi.
  - unfold AsyncWebSocket.step, step_readFrame.
    destruct p as [got|bb|ty got|ty d|got].
    1,3,5: match goal with |- context [readExactAsyncInline ?n ?g ?w0] => destruct (readExactAsyncInline n g w0) as [r w1] eqn:Er end;
      apply readExactA_quiet in Er; [|exact Hs]; destruct Er as [Er1 Er2];
      destruct r; cbn [snd c_world fail unwind c_stack c_hdr c_short]; intros _; (split; [exact Er1|congruence]).
    + destruct (unpackHeaderBits (be_dec bb) h) as [h1 l1].
      destruct (l1 <? 126); [|destruct (l1 =? 126); [|destruct (l1 =? 127)]]; cbn [snd c_world fail unwind c_stack c_hdr c_short]; auto.
    + cbv zeta. destruct (h_hasMask _); cbn [snd c_world]; auto.
  - intros He. exfalso. unfold AsyncWebSocket.step, step_handle in He. cbv zeta in He. revert He.
    assert (forall us nx sh w0, nx <> HfAct ->
      ~ early L (snd (match readPayloadAsync h us w0 with inl e => fail e (Conf h sh [CoListen] w0) | inr co => (ARun, Conf h sh (co :: CoHandle L nx :: [CoListen]) w0) end))) as Hp.
    { intros us nx sh w0 Hnx. unfold readPayloadAsync. destruct (us && _)%bool; [intros H; inversion H|].
      destruct (_ <? 0)%Z; intros H; inversion H. }
    assert (~ early L (snd (let (ok, w') := checkForContinuationA h w in
          if (ok : bool) then match readPayloadAsync h false w' with inl e => fail e (Conf h s [CoListen] w') | inr co => (ARun, Conf h s (co :: CoHandle L HfFinish :: [CoListen]) w') end
          else fail ExContinuationExpected (Conf h s [CoListen] w')))) as Hc.
    { unfold checkForContinuationA. cbv zeta. destruct (_ || _)%bool; [intros H; inversion H|]. apply Hp. discriminate. }
    destruct (h_opcode h) as [|[[[[p|p|]|[p|p|]|]|[[p|p|]|[p|p|]|]|]|[[[p|p|]|[p|p|]|]|[[p|p|]|[p|p|]|]|]|]];
      first [exact Hc|apply Hp; discriminate|destruct (_ <? 0)%Z; [intros H; inversion H|apply Hp; discriminate]|intros H; inversion H].
Qed.

(** If during the frame no other thread installs a listener, all calls for it - whatever the callbacks install - go to the
    listener that was installed when the socket turned to the frame. So a listener that was installed, by a callback or by
    another thread, gets all calls from the next frame on that the socket turns to. *)
Theorem C45_async_next_frame_partial : forall react c c',
  c_stack c = [CoListen] -> script_ok no_install any_err (w_in (c_world c)) -> frame_moves no_install react c c' ->
  exists new, w_log (c_world c') = w_log (c_world c) ++ new /\ Forall (fun e => Some (fst e) = installed c) new.
Proof.
  intros react c c' Hc Hs H. set (L := installed c). set (log0 := w_log (c_world c)).
  assert ((early L c' /\ w_log (c_world c') = log0 /\ script_ok no_install any_err (w_in (c_world c')) /\ installed c' = L) \/
          (shape2 L L c' /\ by2 L L log0 (c_world c'))) as Hcase.
  { induction H as [|c1 H IH Hne|c1 s H IH Hs1|c1 x H IH Hx].
    - unfold L, log0, installed. destruct c as [h s st w]. cbn in Hc. subst st. unfold AsyncWebSocket.step.
      destruct (h_opcode h =? OPCODE_CLOSE); cbn [snd c_world]; [right|left].
      + split; [constructor|]. exists []. rewrite app_nil_r. split; [reflexivity|constructor].
      + split; [constructor|auto].
    - destruct IH as [(He & Hl & Hs1 & Hi)|[M4 M5]].
      + destruct (early_step react L c1 He) as [E1 [E2|E2]].
        * left. destruct (early_quiet react L c1 He Hs1 Hi E2) as [Q1 Q2]. split; [exact E2|]. split; [congruence|auto].
        * right. rewrite Hi in E2. split; [exact E2|]. exists []. rewrite app_nil_r. split; [congruence|constructor].
      + right. now apply frame2_step.
    - destruct IH as [(He & Hl & Hs2 & Hi)|[M4 M5]].
      + left. split; [destruct He; constructor|]. split; [exact Hl|]. split; [|exact Hi]. cbn [arrive c_world set_in w_in].
        apply Forall_app. auto.
      + right. split; [destruct M4; constructor; assumption|exact M5].
    - destruct IH as [(He & Hl & Hs2 & Hi)|[M4 M5]].
      + left. split; [destruct He; constructor|]. split; [exact Hl|]. split; [exact Hs2|]. rewrite <- Hi. destruct x; reflexivity || destruct Hx.
      + right. split; [destruct M4; constructor; assumption|exact M5]. }
  destruct Hcase as [(_ & Hl & _)|[_ (new & N1 & N2)]].
  - exists []. rewrite app_nil_r. split; [exact Hl|constructor].
  - exists new. split; [exact N1|]. eapply Forall_impl; [|exact N2]. intros e He. cbv beta in *. destruct (is_data (snd e)); exact He.
Qed.
Print Assumptions C45_async_next_frame_partial.

(** Listener 7 is installed when the socket turns to a text frame; another thread installs 8 before the second header byte:
    the data goes to 8, also after a third one installs 9. For a ping in the same situation (C45_async_external_install_refuted) the call goes to 7. *)
Fixpoint frame_ticks (react : react_t) (n : nat) (c : conf) : conf :=
  match n with
  | O => c
  | S n' => match c_stack c with [CoListen] => c | _ => frame_ticks react n' (snd (step react c)) end
  end.
Lemma frame_ticks_moves px react n : forall c c1, frame_moves px react c c1 -> frame_moves px react c (frame_ticks react n c1).
Proof.
  induction n as [|n IH]; intros c c1 H; cbn [frame_ticks]; [exact H|].
  destruct (c_stack c1) as [|[] []] eqn:E; try exact H; (apply IH, fm_step; [exact H|rewrite E; discriminate]).
Qed.
Example C45_who_nonvacuous :
  let r : react_t := fun l log => [CSend false (SoPing None)] in
  let w := aworld [RData x81 []; RExt (XSetListener (Some 8%nat)); RData x02 [x61]] [] in
  let c := start_listen w in
  exists c', c_stack c = [CoListen] /\ installed c = Some 7%nat /\ frame_moves any_ext r c c' /\
    w_log (c_world c') = [(8%nat, EvMsg 1 [x61]); (8%nat, EvMsg 1 [x62]); (8%nat, EvEnd 1)].
Proof.
  cbv zeta. set (r := fun (_ : nat) (_ : list (nat * event)) => [CSend false (SoPing None)]).
  set (c := start_listen _).
  exists (frame_ticks r 40 (call_now (XSetListener (Some 9%nat)) (arrive [RData x62 []] (frame_ticks r 19 (snd (step r c)))))).
  split; [reflexivity|]. split; [reflexivity|]. split.
  - apply frame_ticks_moves. apply fm_call; [|exact I]. apply fm_arrive; [|repeat constructor]. apply frame_ticks_moves. apply fm_start.
  - vm_compute. reflexivity.
Qed.
