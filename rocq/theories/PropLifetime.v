(** C85: listener objects outlive their callbacks. *)
From Verif Require Import Bytes Frame World WebSocket AsyncWebSocket Coroutines SpecLifetime.
From Coq Require Import Lia.
Local Open Scope N_scope.
Local Arguments takeN : simpl never.
Local Arguments dropN : simpl never.
Local Arguments lenN : simpl never.
Local Arguments be_enc : simpl never.
Local Arguments be_dec : simpl never.

Definition plain (co : cor) : Prop := match co with CoListen | CoReadFrame _ | CoHandle _ _ | CoPayload _ _ _ _ _ => True | _ => False end.
Definition sendish (co : cor) : Prop := match co with CoSend _ _ _ _ _ | CoWrite _ _ | CoCatch => True | _ => False end.

Inductive life : list cor -> list (nat * event) -> Prop :=
| life_frame K log : Forall plain K -> life K log
| life_call us cs f co K log l ev : Forall sendish us -> holds co l -> plain co -> Forall plain K -> life (us ++ CoUser cs f :: co :: K) (log ++ [(l, ev)]).

Lemma unwind_plain K : Forall plain K -> unwind K = None.
Proof. induction 1 as [|[] K H _ IH]; cbn in *; try contradiction; try exact IH; reflexivity. Qed.
Lemma unwind_life us : Forall sendish us -> forall cs f co K log l ev st, holds co l -> plain co -> Forall plain K ->
  unwind (us ++ CoUser cs f :: co :: K) = Some st -> life st (log ++ [(l, ev)]).
Proof.
  induction 1 as [|x us Hx Hus IH]; intros cs f co K log l ev st H1 H2 H3 E.
  - cbn [app unwind] in E. change (match co with CoCatch => Some K | _ => unwind K end) with (unwind (co :: K)) in E.
    rewrite unwind_plain in E by (constructor; assumption). discriminate.
  - destruct x; try contradiction; cbn [app unwind] in E; try (eapply IH; eassumption).
    injection E as <-. now apply life_call.
Qed.
Lemma fail_plain e h s K w : Forall plain K -> life (c_stack (snd (fail e (Conf h s K w)))) (w_log (c_world (snd (fail e (Conf h s K w))))).
Proof. intros H. unfold fail. cbn [c_stack]. rewrite unwind_plain by exact H. apply life_frame. constructor. Qed.
Lemma fail_call e h s us cs f co K w log l ev : Forall sendish us -> holds co l -> plain co -> Forall plain K -> w_log w = log ++ [(l, ev)] ->
  let c' := snd (fail e (Conf h s (us ++ CoUser cs f :: co :: K) w)) in life (c_stack c') (w_log (c_world c')).
Proof.
  intros H1 H2 H3 H4 Hw. unfold fail. cbn [c_stack c_hdr c_short c_world]. destruct (unwind _) as [st|] eqn:E; cbn [snd c_stack c_world].
  - rewrite Hw. eapply unwind_life; eassumption.
  - apply life_frame. constructor.
Qed.

Lemma read_log n got w r w' : readExactAsyncInline n got w = (r, w') -> w_log w' = w_log w.
Proof.
  unfold readExactAsyncInline. destruct (_ <=? _); [intros E; injection E as <- <-; reflexivity|].
  destruct (read_raw _ _ _) as [[[d|[]|] s] k]; intros E; injection E as <- <-; reflexivity.
Qed.
Lemma some_log n w r w' : readSomeAsyncInline n w = (r, w') -> w_log w' = w_log w.
Proof.
  unfold readSomeAsyncInline. destruct (_ <=? _)%Z; [intros E; injection E as <- <-; reflexivity|].
  destruct (read_raw _ _ _) as [[[d|[]|] s] k]; intros E; injection E as <- <-; reflexivity.
Qed.
Lemma write_log d w r w' : writeExactAsyncInline d w = (r, w') -> w_log w' = w_log w.
Proof.
  unfold writeExactAsyncInline. destruct d; [intros E; injection E as <- <-; reflexivity|].
  destruct (w_wr w) as [|[n|[]|] q]; intros E; injection E as <- <-; reflexivity.
Qed.
Lemma header_log h fin op n w h' co w' : sendFrameHeaderAsync h fin op n w = (h', co, w') -> w_log w' = w_log w /\ sendish co.
Proof. unfold sendFrameHeaderAsync. destruct (h_hasMask _); intros E; injection E as <- <- <-; split; exact I || reflexivity. Qed.

Lemma sendish_us us1 us cs f co K : us1 ++ us ++ CoUser cs f :: co :: K = (us1 ++ us) ++ CoUser cs f :: co :: K.
Proof. apply app_assoc. Qed.

(** Steps below the callback. *)
Lemma step_sendish react co us h s K w cs f c0 log l ev : sendish co -> Forall sendish us -> holds c0 l -> plain c0 -> Forall plain K -> w_log w = log ++ [(l, ev)] ->
  let c' := snd (step react (Conf h s (co :: us ++ CoUser cs f :: c0 :: K) w)) in life (c_stack c') (w_log (c_world c')).
Proof.
  intros Hco H1 H2 H3 H4 Hw.
  assert (forall us' h' s' w' st, Forall sendish us' -> w_log w' = w_log w -> let c' := snd (st : status, Conf h' s' (us' ++ us ++ CoUser cs f :: c0 :: K) w') in
            life (c_stack c') (w_log (c_world c'))) as Hgo.
  { intros us' h' s' w' st Hus' Hl. cbn [snd c_stack c_world]. rewrite Hl, Hw, app_assoc. apply life_call; try assumption. apply Forall_app. auto. }
  assert (forall e h' s' w', w_log w' = w_log w -> let c' := snd (fail e (Conf h' s' (us ++ CoUser cs f :: c0 :: K) w')) in life (c_stack c') (w_log (c_world c'))) as Hno.
  { intros e h' s' w' Hl. eapply fail_call; try eassumption. rewrite Hl. exact Hw. }
  destruct co as [| | | |fin opcode m hd p|hd p| |]; try contradiction; cbn [step].
  - unfold step_send. destruct p as [| |d|].
    + destruct m as [[|b m]|]; destruct (sendFrameHeaderAsync _ _ _ _ _) as [[h' co'] w'] eqn:E; apply header_log in E; destruct E as [El Ec];
        match goal with |- context [Conf _ _ (?a :: ?b :: us ++ _)] => apply (Hgo [a; b]); [repeat constructor; exact Ec|exact El] end.
    + cbv zeta. destruct (h_hasMask hd); [destruct (_ <=? _)|].
      * apply life_frame. constructor.
      * match goal with |- context [Conf _ _ (?a :: us ++ _)] => apply (Hgo [a]); [repeat constructor|reflexivity] end.
      * match goal with |- context [Conf _ _ (?a :: us ++ _)] => apply (Hgo [a]); [repeat constructor|reflexivity] end.
    + destruct (writeExactAsyncInline d w) as [[d'|d'| |] w'] eqn:E; apply write_log in E.
      * apply (Hgo []); [constructor|exact E].
      * match goal with |- context [Conf _ _ (?a :: us ++ _)] => apply (Hgo [a]); [repeat constructor|exact E] end.
      * match goal with |- context [Conf _ _ (?a :: us ++ _)] => apply (Hgo [a]); [repeat constructor|exact E] end.
      * apply Hno. exact E.
    + apply (Hgo []); [constructor|reflexivity].
  - unfold step_writeFrame. cbv zeta. destruct p as [d| |d| |d];
    try (destruct (writeExactAsyncInline d w) as [[d'|d'| |] w'] eqn:E; apply write_log in E;
      first [ apply (Hgo []); [constructor|exact E] | apply Hno; exact E
            | match goal with |- context [Conf _ _ (?a :: us ++ _)] => apply (Hgo [a]); [repeat constructor|exact E] end ]).
    + destruct (_ =? 2); [|destruct (_ =? 3)]; match goal with |- context [Conf _ _ (?a :: us ++ _)] => apply (Hgo [a]); [repeat constructor|reflexivity] end.
    + destruct (h_hasMask hd); [match goal with |- context [Conf _ _ (?a :: us ++ _)] => apply (Hgo [a]); [repeat constructor|reflexivity] end|].
      apply (Hgo []); [constructor|reflexivity].
  - apply (Hgo []); [constructor|reflexivity].
Qed.

Lemma step_user_life react cs f h s K w c0 log l ev : holds c0 l -> plain c0 -> Forall plain K -> w_log w = log ++ [(l, ev)] ->
  let c' := snd (step react (Conf h s (CoUser cs f :: c0 :: K) w)) in life (c_stack c') (w_log (c_world c')).
Proof.
  intros H2 H3 H4 Hw. cbn [step].
  assert (forall us' cs' h' s' w' st, Forall sendish us' -> w_log w' = w_log w -> let c' := snd (st : status, Conf h' s' (us' ++ CoUser cs' f :: c0 :: K) w') in
            life (c_stack c') (w_log (c_world c'))) as Hgo.
  { intros us' cs' h' s' w' st Hus' Hl. cbn [snd c_stack c_world]. rewrite Hl, Hw. apply life_call; assumption. }
  unfold step_user. destruct cs as [|[|k|mm b|catch op| | |fin opcode mm] cs]; cbv zeta.
  - apply life_frame. constructor; assumption.
  - apply (Hgo []); [constructor|reflexivity].
  - apply (Hgo []); [constructor|reflexivity].
  - apply (Hgo []); [constructor|reflexivity].
  - destruct catch.
    + apply (Hgo [start_send op; CoCatch]); [|reflexivity]. unfold start_send. destruct (send_args op) as [[? ?] ?]. repeat constructor.
    + apply (Hgo [start_send op]); [|reflexivity]. unfold start_send. destruct (send_args op) as [[? ?] ?]. repeat constructor.
  - destruct f; [apply life_frame; constructor|]. apply (Hgo []); [constructor|reflexivity].
  - apply fail_plain. constructor; assumption.
  - apply (Hgo [start_send (SoFrame fin opcode mm)]); [repeat constructor|reflexivity].
Qed.

(** Steps of the listening coroutines proper. *)
Lemma step_plain react co h s K w : plain co -> Forall plain K ->
  let c' := snd (step react (Conf h s (co :: K) w)) in life (c_stack c') (w_log (c_world c')).
Proof.
  intros Hco HK.
  assert (forall st h' s' w' K', Forall plain K' -> let c' := snd (st : status, Conf h' s' K' w') in life (c_stack c') (w_log (c_world c'))) as Hgo
    by (intros; apply life_frame; assumption).
  assert (forall e h' s' w', let c' := snd (fail e (Conf h' s' K w')) in life (c_stack c') (w_log (c_world c'))) as Hno by (intros; apply fail_plain; exact HK).
  assert (forall st l e fr h' s' c0 w', plain c0 -> holds c0 l ->
            let c' := snd (let (co, w'') := call_listener react l e fr w' in (st : status, Conf h' s' (co :: c0 :: K) w'')) in life (c_stack c') (w_log (c_world c'))) as Hca.
  { intros st l e fr h' s' c0 w' Hp Hh. cbn [call_listener snd c_stack c_world]. apply (life_call [] _ _ c0 K _ l e); try assumption. constructor. }
  destruct co as [|p|l p|l useShort rem shift p| | | |]; try contradiction; cbn [step].
  - destruct (_ =? _); apply Hgo; [exact HK|]. repeat (constructor; [exact I|]). exact HK.
  - unfold step_readFrame. cbv zeta. destruct p as [got|bb|t got|t d|got].
    + destruct (readExactAsyncInline _ _ _) as [[]]; try apply Hno; apply Hgo; (constructor; [exact I|exact HK]).
    + destruct (unpackHeaderBits _ _) as [h' m]. destruct (_ <? _); [apply Hgo; constructor; [exact I|exact HK]|].
      destruct (_ =? 126); [apply Hgo; constructor; [exact I|exact HK]|]. destruct (_ =? 127); [apply Hgo; constructor; [exact I|exact HK]|]. apply Hno.
    + destruct (readExactAsyncInline _ _ _) as [[]]; try apply Hno; apply Hgo; (constructor; [exact I|exact HK]).
    + destruct (h_hasMask _); apply Hgo; [constructor; [exact I|exact HK]|exact HK].
    + destruct (readExactAsyncInline _ _ _) as [[]]; try apply Hno; apply Hgo; try exact HK; (constructor; [exact I|exact HK]).
  - unfold step_handle. cbv zeta.
    assert (forall us nx s' w', let c' := snd (match readPayloadAsync h us w' with inl e => fail e (Conf h s' K w') | inr co => (ARun, Conf h s' (co :: CoHandle l nx :: K) w') end) in
              life (c_stack c') (w_log (c_world c'))) as Hpl.
    { intros us nx s' w'. unfold readPayloadAsync. destruct (_ && _)%bool; [apply Hno|]. destruct (_ <? _)%Z; [apply Hno|]. apply Hgo. repeat (constructor; [exact I|]). exact HK. }
    assert (forall e, let c' := snd (match l with Some li => let (co, w') := call_listener react li e false w in (ARun, Conf h s (co :: CoHandle l HfFinish :: K) w') | None => (ARun, Conf h s K w) end) in
              life (c_stack c') (w_log (c_world c'))) as Hcall.
    { intros e. destruct l as [li|]; [apply Hca; [exact I|reflexivity]|apply Hgo; exact HK]. }
    destruct p; [|apply Hcall|apply Hcall|apply Hcall|apply Hgo; exact HK].
    destruct (h_opcode h) as [|q]; [|repeat match goal with |- context [match ?q with xH => _ | _ => _ end] => is_var q; destruct q end];
      repeat first [ apply Hno | apply Hpl | match goal with |- context [(?a <? ?b)%Z] => destruct (a <? b)%Z end
                   | destruct (checkForContinuationA h w) as [[] w1] ].
  - unfold step_payload. cbv zeta. destruct p as [|n|d|].
    + destruct (_ <? _)%Z; [apply Hgo; constructor; [exact I|exact HK]|]. destruct (_ && _)%bool; [|apply Hgo; exact HK].
      destruct l as [li|]; [apply Hca; [exact I|reflexivity]|apply Hgo; exact HK].
    + destruct (readSomeAsyncInline n w) as [[]]; try apply Hno; try (apply Hgo; constructor; [exact I|exact HK]).
      destruct (_ <? _)%Z; apply Hgo; [constructor|constructor; [exact I|exact HK]].
    + destruct d; [apply Hno|]. destruct useShort; [apply Hgo; constructor; [exact I|exact HK]|].
      destruct l as [li|]; [apply Hca; [exact I|reflexivity]|apply Hgo; constructor; [exact I|exact HK]].
    + apply Hgo. exact HK.
Qed.

Lemma step_life react c : life (c_stack c) (w_log (c_world c)) -> let c' := snd (step react c) in life (c_stack c') (w_log (c_world c')).
Proof.
  destruct c as [h s st w]. cbn [c_stack c_world]. intros H. inversion H as [K log HK|us cs f co K log l ev H1 H2 H3 H4 E1 E2]; subst.
  - destruct st as [|co K]; [apply life_frame; constructor|]. inversion HK; subst. now apply step_plain.
  - destruct us as [|u us]; cbn [app].
    + eapply step_user_life; try eassumption. symmetry. exact E2.
    + inversion H1; subst. eapply step_sendish; try eassumption. symmetry. exact E2.
Qed.

(** Coroutines of the application. *)
Definition userish2 (co : cor) : Prop := sendish co \/ exists cs f, co = CoUser cs f.
Lemma unwind_sub (P : cor -> Prop) st : Forall P st -> forall st', unwind st = Some st' -> Forall P st'.
Proof. induction 1 as [|x st Hx H IH]; intros st' E; [discriminate|]. destruct x; cbn in E; try (apply IH; exact E). injection E as <-. exact H. Qed.
Lemma fail_sub (P : cor -> Prop) e h s K w : Forall P K -> let c' := snd (fail e (Conf h s K w)) in Forall P (c_stack c') /\ w_log (c_world c') = w_log w.
Proof.
  intros H. unfold fail. cbn [c_stack c_hdr c_short c_world]. destruct (unwind K) eqn:E; cbn; [|auto]. split; [eapply unwind_sub; eassumption|reflexivity].
Qed.
Lemma step_other react c : Forall userish2 (c_stack c) -> let c' := snd (step react c) in Forall userish2 (c_stack c') /\ w_log (c_world c') = w_log (c_world c).
Proof.
  destruct c as [h s st w]. cbn [c_stack c_world]. intros H. destruct st as [|co K]; [split; [constructor|reflexivity]|]. inversion H as [|? ? Hc HK]; subst.
  assert (forall e h' s' w', w_log w' = w_log w -> let c' := snd (fail e (Conf h' s' K w')) in Forall userish2 (c_stack c') /\ w_log (c_world c') = w_log w) as Hno.
  { intros e h' s' w' Hl. rewrite <- Hl. now apply fail_sub. }
  assert (forall us' h' s' w' st, Forall userish2 us' -> w_log w' = w_log w -> let c' := snd (st : status, Conf h' s' (us' ++ K) w') in
            Forall userish2 (c_stack c') /\ w_log (c_world c') = w_log w) as Hgo.
  { intros us' h' s' w' st Hus Hl. cbn [snd c_stack c_world]. split; [apply Forall_app; auto|exact Hl]. }
  assert (forall co, sendish co -> userish2 co) as Hs by (intros; now left).
  assert (forall op, userish2 (start_send op)) as Hst by (intros op; left; unfold start_send; destruct (send_args op) as [[? ?] ?]; exact I).
  destruct Hc as [Hc|(cs & f & ->)].
  - destruct co as [| | | |fin opcode m hd p|hd p| |]; try contradiction; cbn [step].
    + unfold step_send. destruct p as [| |d|].
      * destruct m as [[|b m]|]; destruct (sendFrameHeaderAsync _ _ _ _ _) as [[h' co'] w'] eqn:E; apply header_log in E; destruct E as [El Ec];
          match goal with |- context [Conf _ _ (?a :: ?b :: K)] => apply (Hgo [a; b]); [repeat constructor; (exact Ec || exact I)|exact El] end.
      * cbv zeta. destruct (h_hasMask hd); [destruct (_ <=? _)|].
        -- cbn. auto.
        -- match goal with |- context [Conf _ _ (?a :: K)] => apply (Hgo [a]); [repeat constructor|reflexivity] end.
        -- match goal with |- context [Conf _ _ (?a :: K)] => apply (Hgo [a]); [repeat constructor|reflexivity] end.
      * destruct (writeExactAsyncInline d w) as [[d'|d'| |] w'] eqn:E; apply write_log in E.
        -- apply (Hgo []); [constructor|exact E].
        -- match goal with |- context [Conf _ _ (?a :: K)] => apply (Hgo [a]); [repeat constructor|exact E] end.
        -- match goal with |- context [Conf _ _ (?a :: K)] => apply (Hgo [a]); [repeat constructor|exact E] end.
        -- apply Hno. exact E.
      * apply (Hgo []); [constructor|reflexivity].
    + unfold step_writeFrame. cbv zeta. destruct p as [d| |d| |d];
      try (destruct (writeExactAsyncInline d w) as [[d'|d'| |] w'] eqn:E; apply write_log in E;
        first [ apply (Hgo []); [constructor|exact E] | apply Hno; exact E
              | match goal with |- context [Conf _ _ (?a :: K)] => apply (Hgo [a]); [repeat constructor|exact E] end ]).
      * destruct (_ =? 2); [|destruct (_ =? 3)]; match goal with |- context [Conf _ _ (?a :: K)] => apply (Hgo [a]); [repeat constructor|reflexivity] end.
      * destruct (h_hasMask hd); [match goal with |- context [Conf _ _ (?a :: K)] => apply (Hgo [a]); [repeat constructor|reflexivity] end|].
        apply (Hgo []); [constructor|reflexivity].
    + apply (Hgo []); [constructor|reflexivity].
  - cbn [step]. assert (forall cs', userish2 (CoUser cs' f)) as Hu by (intros; right; eauto).
    unfold step_user. destruct cs as [|[|k|mm b|catch op| | |fin opcode mm] cs]; cbv zeta.
    + apply (Hgo []); [constructor|reflexivity].
    + apply (Hgo [CoUser cs f]); [constructor; [apply Hu|constructor]|reflexivity].
    + apply (Hgo [CoUser cs f]); [constructor; [apply Hu|constructor]|reflexivity].
    + apply (Hgo [CoUser cs f]); [constructor; [apply Hu|constructor]|reflexivity].
    + destruct catch.
      * apply (Hgo [start_send op; CoCatch; CoUser cs f]); [|reflexivity]. constructor; [apply Hst|]. constructor; [left; exact I|]. constructor; [apply Hu|constructor].
      * apply (Hgo [start_send op; CoUser cs f]); [|reflexivity]. constructor; [apply Hst|]. constructor; [apply Hu|constructor].
    + destruct f; [cbn; auto|]. apply (Hgo [CoUser cs false]); [constructor; [apply Hu|constructor]|reflexivity].
    + apply Hno. reflexivity.
    + apply (Hgo [start_send (SoFrame fin opcode mm); CoUser cs f]); [|reflexivity]. constructor; [apply Hst|]. constructor; [apply Hu|constructor].
Qed.

Lemma life_in_callback stack log below : life stack log -> in_callback stack below ->
  exists l co K, below = co :: K /\ holds co l /\ last_call log l.
Proof.
  intros H (above & cs & f & E). inversion H as [K lg HK|us cs2 f2 co K lg l ev H1 H2 H3 H4]; subst.
  - exfalso. rewrite Forall_forall in HK. apply (HK (CoUser cs f)). apply in_or_app. right. now left.
  - exists l, co, K.
    assert (below = co :: K) as ->.
    { clear H. revert us H1 H0. clear - H3 H4. induction above as [|a above IH]; intros us H1 E.
      - destruct us as [|u us]; cbn [app] in E; [congruence|]. injection E as -> _. inversion H1; contradiction.
      - destruct us as [|u us]; cbn [app] in E.
        + exfalso. injection E as _ E. assert (In (CoUser cs f) (co :: K)) as Hin by (rewrite E; apply in_or_app; right; now left).
          assert (Forall plain (co :: K)) as Hp by (now constructor). rewrite Forall_forall in Hp. exact (Hp _ Hin).
        + injection E as _ E. inversion H1; subst. eapply IH; eassumption. }
    split; [reflexivity|]. split; [exact H2|]. exists lg, ev. reflexivity.
Qed.

Definition crowd_life (s : crowd_t) : Prop :=
  life (k_stack (fst s 0%nat)) (w_log (snd s)) /\ forall i, i <> 0%nat -> Forall userish2 (k_stack (fst s i)).
Lemma kstep_life react e s : crowd_life s -> crowd_life (kstep react e s).
Proof.
  intros [H1 H2]. destruct e as [i|rs]; [|split; assumption].
  unfold kstep, ktick. destruct s as [f w]. cbn [fst snd] in *.
  destruct (tick react _) as [st c] eqn:E. cbn [fst snd].
  assert (c = Conf (k_hdr (f i)) (k_short (f i)) (k_stack (f i)) w \/ c = snd (step react (Conf (k_hdr (f i)) (k_short (f i)) (k_stack (f i)) w))) as Hc.
  { unfold tick in E. destruct (k_status (f i)); try (left; congruence); right; now rewrite E. }
  destruct (Nat.eq_dec i 0) as [-> |Hi].
  - assert (life (c_stack c) (w_log (c_world c))) as Hl by (destruct Hc as [-> | ->]; [exact H1|now apply step_life]).
    split; cbn [fst snd]; [exact Hl|]. intros j Hj. destruct (Nat.eqb_spec j 0); [contradiction|]. cbn. apply H2. exact Hj.
  - assert (Forall userish2 (c_stack c) /\ w_log (c_world c) = w_log w) as [Hu Hl]
      by (destruct Hc as [-> | ->]; [split; [apply H2; exact Hi|reflexivity]|apply (step_other react (Conf _ _ _ _)); apply H2; exact Hi]).
    split; cbn [fst snd].
    + destruct (Nat.eqb_spec 0 i); [congruence|]. rewrite Hl. exact H1.
    + intros j Hj. destruct (Nat.eqb_spec j i); [exact Hu|]. apply H2. exact Hj.
Qed.
Lemma krun_life react evs : forall s, crowd_life s -> crowd_life (krun react evs s).
Proof. induction evs as [|e evs IH]; intros s H; [exact H|]. cbn. apply IH. now apply kstep_life. Qed.

(** At every moment of every history of a socket used by any number of coroutines (and threads: the calls contained in arrivals), while a
    callback coroutine of a listener has not ended, the object waiting for it holds the listener whose callback it is: the last one called. *)
Theorem C85_alive : forall react work w evs below,
  let s := krun react evs (crowd_init work w) in
  in_callback (k_stack (fst s 0%nat)) below ->
  exists l co K, below = co :: K /\ holds co l /\ last_call (w_log (snd s)) l.
Proof.
  intros react work w evs below s H. eapply life_in_callback; [|exact H]. apply krun_life.
  split; [apply life_frame; repeat constructor|]. intros i Hi. destruct i; [contradiction|]. cbn. constructor; [|constructor]. right. eauto.
Qed.
Print Assumptions C85_alive.

(** Listener 7 replaces itself in its callback and goes on sending on a connection that accepts nothing; coroutine 1 removes the listener
    altogether. The callback is in progress and the waiting ReadPayloadCoroutine keeps listener 7 alive. *)
Example C85_nonvacuous :
  let react : react_t := fun l _ => match l with 7%nat => [CSetListener (Some 8%nat); CSend false (SoText (Some [x61]))] | _ => [] end in
  let w := World [RData x81 [x01; x62]] [WIo IoRetry; WIo IoRetry; WIo IoRetry] [] (fun _ => x00) 0 [] (set_listener (sock_new false) (Some 7%nat)) in
  let s := krun react (repeat (CTick 0) 12 ++ [CTick 1]) (crowd_init (fun _ => [CSetListener None]) w) in
  s_listener (w_sock (snd s)) = None /\ in_callback (k_stack (fst s 0%nat)) [CoPayload (Some 7%nat) false 1024 1 RpAct; CoHandle (Some 7%nat) HfFinish; CoListen] /\
  last_call (w_log (snd s)) 7.
Proof.
  cbv zeta. split; [vm_compute; reflexivity|]. split.
  - eexists [_; _], [], false. vm_compute. reflexivity.
  - exists [], (EvMsg 1 [x62]). vm_compute. reflexivity.
Qed.
