(** Lemmas for C100: listener objects on the asynchronous socket, and on both. *)
From Verif Require Import Bytes Frame World WebSocket AsyncWebSocket Object AsyncObject SpecAsync SpecSend SpecFrame SpecListen SpecObject
  ProofSend ProofQuit ProofObject.
From Coq Require Import Lia PeanoNat.
Local Open Scope N_scope.
Local Arguments takeN : simpl never.
Local Arguments dropN : simpl never.
Local Arguments lenN : simpl never.
Local Arguments be_enc : simpl never.
Local Arguments be_dec : simpl never.
Local Arguments packHeaderBits : simpl never.

Definition sender (co : cor) : Prop := match co with CoSend _ _ _ _ _ | CoWrite _ _ => True | _ => False end.
Definition hearer (co : cor) : Prop := match co with CoListen | CoReadFrame _ | CoHandle _ _ | CoPayload _ _ _ _ _ => True | _ => False end.
Lemma unwind_hearers K : Forall hearer K -> unwind K = None.
Proof. induction 1 as [|co K H _ IH]; [reflexivity|]. destruct co; cbn in H; try contradiction; exact IH. Qed.
Lemma fail_hearers e h s K w : Forall hearer K -> fail e (Conf h s K w) = (AFail e, Conf h s [] w).
Proof. intros H. unfold fail. cbn [c_stack c_hdr c_short c_world]. now rewrite (unwind_hearers _ H). Qed.

(** A sending coroutine whose writes make progress: what it does does not depend on who started it. *)
Lemma step_sender co hdr short w : sender co -> healthy (w_wr w) ->
  exists w', healthy (w_wr w') /\ w_log w' = w_log w /\
    ((exists P, Forall sender P /\ forall react K, step react (Conf hdr short (co :: K) w) = (ARun, Conf hdr short (P ++ K) w')) \/
     (exists u, forall react K, step react (Conf hdr short (co :: K) w) = (AUb u, Conf hdr short [] w'))).
Proof.
  intros Hs Hw.
  assert (forall d, exists r w', writeExactAsyncInline d w = (r, w') /\ healthy (w_wr w') /\ w_log w' = w_log w /\ (exists e, r = INext e \/ r = IAgain e)) as Hwrite.
  { intros d. unfold writeExactAsyncInline. destruct d as [|b bs]; [do 2 eexists; split; [reflexivity|]; eauto|].
    destruct (w_wr w) as [|[n|e|] q] eqn:E.
    - do 2 eexists. split; [reflexivity|]. cbn. split; [constructor|]. split; [reflexivity|]. eauto.
    - inversion Hw; subst. do 2 eexists. split; [reflexivity|]. cbn. eauto.
    - inversion Hw as [|? ? He Hq]; subst. destruct e; cbn in He; try contradiction. do 2 eexists. split; [reflexivity|]. cbn. eauto.
    - inversion Hw as [|? ? He Hq]; subst. cbn in He. contradiction. }
  destruct co as [| | | |fin op m h p|h p| |]; cbn in Hs; try contradiction.
  - destruct p as [| |d|].
    + assert (forall n, exists h' co w', sendFrameHeaderAsync h fin op n w = (h', co, w') /\ sender co /\ healthy (w_wr w') /\ w_log w' = w_log w) as Hh.
      { intros n. unfold sendFrameHeaderAsync. destruct (h_hasMask _); do 3 eexists; (split; [reflexivity|]); cbn; auto. }
      destruct m as [[|b bs]|].
      * destruct (Hh 0%Z) as (h' & co & w' & E & G1 & G2 & G3). exists w'. split; [exact G2|]. split; [exact G3|]. left. exists [co; CoSend fin op (Some []) h' SfFinish].
        split; [repeat (apply Forall_cons || apply Forall_nil); [exact G1|exact I]|]. intros react K. cbn [step step_send]. rewrite E. reflexivity.
      * destruct (Hh (Z.of_N (lenN (b :: bs)))) as (h' & co & w' & E & G1 & G2 & G3). exists w'. split; [exact G2|]. split; [exact G3|]. left. exists [co; CoSend fin op (Some (b :: bs)) h' SfPrepare].
        split; [repeat (apply Forall_cons || apply Forall_nil); [exact G1|exact I]|]. intros react K. cbn [step step_send]. rewrite E. reflexivity.
      * destruct (Hh 0%Z) as (h' & co & w' & E & G1 & G2 & G3). exists w'. split; [exact G2|]. split; [exact G3|]. left. exists [co; CoSend fin op None h' SfFinish].
        split; [repeat (apply Forall_cons || apply Forall_nil); [exact G1|exact I]|]. intros react K. cbn [step step_send]. rewrite E. reflexivity.
    + exists w. split; [exact Hw|]. split; [reflexivity|]. cbn [step step_send]. destruct (h_hasMask h); [destruct (2 ^ 31 <=? _)|].
      * right. eexists. reflexivity.
      * left. eexists [_]. split; [|reflexivity]. repeat (apply Forall_cons || apply Forall_nil). exact I.
      * left. eexists [_]. split; [|reflexivity]. repeat (apply Forall_cons || apply Forall_nil). exact I.
    + destruct (Hwrite d) as (r & w' & E & G2 & G3 & e & [-> | ->]); exists w'; (split; [exact G2|]); (split; [exact G3|]); left; cbn [step step_send]; rewrite E.
      * exists []. split; [constructor|reflexivity].
      * eexists [_]. split; [|reflexivity]. repeat (apply Forall_cons || apply Forall_nil). exact I.
    + exists w. split; [exact Hw|]. split; [reflexivity|]. left. exists []. split; [constructor|reflexivity].
  - destruct p as [d| |d| |d]; cbn [step step_writeFrame].
    + destruct (Hwrite d) as (r & w' & E & G2 & G3 & e & [-> | ->]); exists w'; (split; [exact G2|]); (split; [exact G3|]); left; rewrite E;
        (eexists [_]; split; [|reflexivity]; repeat (apply Forall_cons || apply Forall_nil); exact I).
    + exists w. split; [exact Hw|]. split; [reflexivity|]. left. destruct (_ =? 2); [|destruct (_ =? 3)]; (eexists [_]; split; [|reflexivity]; repeat (apply Forall_cons || apply Forall_nil); exact I).
    + destruct (Hwrite d) as (r & w' & E & G2 & G3 & e & [-> | ->]); exists w'; (split; [exact G2|]); (split; [exact G3|]); left; rewrite E;
        (eexists [_]; split; [|reflexivity]; repeat (apply Forall_cons || apply Forall_nil); exact I).
    + exists w. split; [exact Hw|]. split; [reflexivity|]. left. destruct (h_hasMask h); [eexists [_]; split; [|reflexivity]; repeat (apply Forall_cons || apply Forall_nil); exact I|].
      exists []. split; [constructor|reflexivity].
    + destruct (Hwrite d) as (r & w' & E & G2 & G3 & e & [-> | ->]); exists w'; (split; [exact G2|]); (split; [exact G3|]); left; rewrite E.
      * exists []. split; [constructor|reflexivity].
      * eexists [_]. split; [|reflexivity]. repeat (apply Forall_cons || apply Forall_nil). exact I.
Qed.

(** A listening coroutine: the listeners matter only when one is called. *)
Definition heard_by (w : world) (F : react_t -> status * conf) : Prop := exists st hdr' short' K' w', Forall hearer K' /\ w_wr w' = w_wr w /\
    ((w_log w' = w_log w /\ forall react, F react = (st, Conf hdr' short' K' w')) \/
     (exists l ev freed, w_log w' = w_log w ++ [(l, ev)] /\ forall react, F react = (ARun, Conf hdr' short' (CoUser (react l (w_log w')) freed :: K') w'))).
Lemma hb_plain w st h s K' w' : Forall hearer K' -> w_wr w' = w_wr w -> w_log w' = w_log w -> heard_by w (fun _ => (st, Conf h s K' w')).
Proof. intros H1 H2 H3. exists st, h, s, K', w'. auto. Qed.
Lemma hb_fail w e h s K' w' : Forall hearer K' -> w_wr w' = w_wr w -> w_log w' = w_log w -> heard_by w (fun _ => fail e (Conf h s K' w')).
Proof. intros H1 H2 H3. exists (AFail e), h, s, [], w'. split; [constructor|]. split; [exact H2|]. left. split; [exact H3|]. intros _. now apply fail_hearers. Qed.
Lemma hb_call w li ev freed h s K' : Forall hearer K' ->
  heard_by w (fun react => let (co, w') := call_listener react li ev freed w in (ARun, Conf h s (co :: K') w')).
Proof. intros H1. exists ARun, h, s, K', (set_log w (w_log w ++ [(li, ev)])). split; [exact H1|]. split; [reflexivity|]. right. exists li, ev, freed. split; reflexivity. Qed.
Lemma step_hearer co hdr short K w : Forall hearer (co :: K) -> heard_by w (fun react => step react (Conf hdr short (co :: K) w)).
Proof.
  intros H. inversion H as [|? ? Hco HK]; subst.
  assert (forall n got, exists r w', readExactAsyncInline n got w = (r, w') /\ w_wr w' = w_wr w /\ w_log w' = w_log w) as Hex.
  { intros n got. unfold readExactAsyncInline. destruct (n <=? lenN got); [eauto|]. destruct (read_raw _ _ _) as [[[d|[]|] s'] k']; do 2 eexists; (split; [reflexivity|]); cbn; auto. }
  assert (forall n, exists r w', readSomeAsyncInline n w = (r, w') /\ w_wr w' = w_wr w /\ w_log w' = w_log w) as Hsome.
  { intros n. unfold readSomeAsyncInline. destruct (n <=? 0)%Z; [eauto|]. destruct (read_raw _ _ _) as [[[d|[]|] s'] k']; do 2 eexists; (split; [reflexivity|]); cbn; auto. }
  assert (forall c, hearer c -> Forall hearer (c :: K)) as HK1 by (intros; constructor; assumption).
  assert (forall c1 c2, hearer c1 -> hearer c2 -> Forall hearer (c1 :: c2 :: K)) as HK2 by (intros; constructor; auto).
  destruct co as [|p|l p|l us al pr p| | | |]; cbn in Hco; try contradiction; cbn [step].
  - destruct (h_opcode hdr =? OPCODE_CLOSE); apply hb_plain; auto; try (constructor; [exact I|]; apply HK2; exact I).
  - destruct p as [got|bb|t got|t got|got]; cbn [step_readFrame].
    + destruct (Hex 2 got) as (r & w' & -> & G1 & G2). destruct r; try (apply hb_fail; assumption); apply hb_plain; auto; apply HK1; exact I.
    + destruct (unpackHeaderBits (be_dec bb) hdr) as [h n]. destruct (n <? 126); [|destruct (n =? 126); [|destruct (n =? 127)]].
      1-3: apply hb_plain; auto; apply HK1; exact I. apply hb_fail; auto.
    + destruct (Hex (if t =? 2 then 2 else 8) got) as (r & w' & -> & G1 & G2). destruct r; try (apply hb_fail; assumption); apply hb_plain; auto; apply HK1; exact I.
    + cbv zeta. set (h := if t =? 2 then _ else _). destruct (h_hasMask h); apply hb_plain; auto; apply HK1; exact I.
    + destruct (Hex 4 got) as (r & w' & -> & G1 & G2). destruct r; try (apply hb_fail; assumption); apply hb_plain; auto; apply HK1; exact I.
  - assert (forall us next short w1, w_wr w1 = w_wr w -> w_log w1 = w_log w ->
      heard_by w (fun _ => match readPayloadAsync hdr us w1 with inl e => fail e (Conf hdr short K w1) | inr co => (ARun, Conf hdr short (co :: CoHandle l next :: K) w1) end)) as Hp.
    { intros us next sh w1 G1 G2. destruct (readPayloadAsync hdr us w1) as [e|co] eqn:E; [apply hb_fail; auto|].
      unfold readPayloadAsync in E. destruct (_ && _)%bool; [discriminate|]. destruct (_ <? 0)%Z; [discriminate|]. injection E as <-. apply hb_plain; auto. }
    assert (forall ev, heard_by w (fun react => match l with Some li => let (co, w') := call_listener react li ev false w in (ARun, Conf hdr short (co :: CoHandle l HfFinish :: K) w') | None => (ARun, Conf hdr short K w) end)) as Hcall.
    { intros ev. destruct l as [li|]; [apply hb_call; apply HK1; exact I|apply hb_plain; auto]. }
    destruct p; cbn [step_handle]; try apply Hcall; [|apply hb_plain; auto].
    assert (forall w1 ok, checkForContinuationA hdr w = (ok, w1) -> w_wr w1 = w_wr w /\ w_log w1 = w_log w) as Hck.
    { intros w1 ok E. unfold checkForContinuationA in E. destruct (_ || _)%bool; injection E as <- <-; auto. }
    destruct (checkForContinuationA hdr w) as [ok w1]. destruct (Hck w1 ok eq_refl) as [G1 G2].
    destruct (h_opcode hdr) as [|[[[[q|q|]|[q|q|]|]|[[q|q|]|[q|q|]|]|]|[[[q|q|]|[q|q|]|]|[[q|q|]|[q|q|]|]|]|]];
      first [apply hb_fail; solve [auto] | apply Hp; reflexivity | destruct ok; [apply Hp; assumption|apply hb_fail; assumption]
            | destruct (_ <? 0)%Z; [apply hb_fail; solve [auto]|apply Hp; reflexivity]].
  - destruct p as [|n|d|]; cbn [step_payload].
    + destruct (pr <? h_len hdr)%Z; [apply hb_plain; auto; apply HK1; exact I|]. destruct (_ && _)%bool; [|apply hb_plain; auto].
      destruct l; [apply hb_call; apply HK1; exact I|apply hb_plain; auto].
    + destruct (Hsome n) as (r & w' & -> & G1 & G2). destruct r; try (apply hb_fail; assumption); try (apply hb_plain; auto; apply HK1; exact I).
      destruct (_ <? _)%Z; apply hb_plain; auto; apply HK1; exact I.
    + destruct d as [|b bs]; [apply hb_fail; auto|]. cbv zeta. destruct us; [apply hb_plain; auto; apply HK1; exact I|].
      destruct l; [apply hb_call; apply HK1; exact I|apply hb_plain; auto; apply HK1; exact I].
    + apply hb_plain; auto.
Qed.

(** * The object as a function of the history *)
Section Obj.
Context {S : Type}.
Variables (obj : object S) (s0 : S) (w0 : world).
Notation base := (length (w_log w0)).
Notation react := (history_of obj s0 base).
Lemma history_call new l ev : react l (w_log w0 ++ new ++ [(l, ev)]) = fst (told (obj l ev) (memory_after obj s0 new)).
Proof.
  unfold history_of. rewrite skipn_app, Nat.sub_diag, skipn_all. cbn [app skipn]. rewrite rev_app_distr. cbn [List.rev app]. now rewrite rev_involutive.
Qed.
Lemma memory_snoc s new l ev : memory_after obj s (new ++ [(l, ev)]) = snd (told (obj l ev) (memory_after obj s new)).
Proof. revert s. induction new as [|[l' e] r IH]; intros s; [reflexivity|]. cbn [app memory_after]. apply IH. Qed.
Lemma settle_told (c : code S) : forall s, match settle c s with
  | (s', TFinish) => told c s = ([], s')
  | (s', TThrow) => told c s = ([CThrow], s')
  | (s', TDo a k) => told c s = told (Do a k) s'
  end.
Proof. induction c as [| |k IH|s1 k IH|a k IH]; intros s; cbn [settle told]; try reflexivity; apply IH. Qed.
Lemma settle_every t P (c : code S) : forall s s' a k, every t P c -> settle c s = (s', TDo a k) -> P a /\ forall r, every t P (k r).
Proof.
  induction c as [| |k IH|s1 k IH|a k IH]; intros s s' a0 k0 He E; cbn [settle every] in *; try discriminate; [eapply IH; [apply He|exact E]|eapply IH; eassumption|].
  injection E as _ <- <-. exact He.
Qed.

Hypothesis Hobj : every_call true SpecObject.calm obj.
Inductive same : oconf S -> conf -> Prop :=
| sm_idle h sh K w new : Forall hearer K -> healthy (w_wr w) -> w_log w = w_log w0 ++ new ->
    same (OConf (memory_after obj s0 new) None (Conf h sh K w)) (Conf h sh K w)
| sm_run s c freed h sh K w new : Forall hearer K -> healthy (w_wr w) -> w_log w = w_log w0 ++ new -> every true SpecObject.calm c ->
    snd (told c s) = memory_after obj s0 new ->
    same (OConf s (Some (Running c)) (Conf h sh (CoUser [] freed :: K) w)) (Conf h sh (CoUser (fst (told c s)) freed :: K) w)
| sm_ask s k P freed h sh K w new : Forall hearer K -> Forall sender P -> healthy (w_wr w) -> w_log w = w_log w0 ++ new -> (forall r, every true SpecObject.calm (k r)) ->
    snd (told (k Done) s) = memory_after obj s0 new ->
    same (OConf s (Some (Asked k)) (Conf h sh (P ++ CoCatch :: CoUser [] freed :: K) w)) (Conf h sh (P ++ CoCatch :: CoUser (fst (told (k Done) s)) freed :: K) w).
Definition same_s (sx : status * oconf S) (sc : status * conf) : Prop :=
  fst sx = fst sc /\ c_world (o_conf (snd sx)) = c_world (snd sc) /\ ((exists u, fst sc = AUb u) \/ same (snd sx) (snd sc) /\ (fst sc = ARun \/ o_now (snd sx) = None)).

Lemma same_step x c : same x c -> same_s (object_step obj x) (step react c).
Proof.
  intros H. destruct H as [h sh K w new HK Hw Hl|s c freed h sh K w new HK Hw Hl Hc Hm|s k P freed h sh K w new HK HP Hw Hl Hc Hm].
  - destruct K as [|co K].
    + unfold object_step. cbn [o_conf c_stack step]. split; [reflexivity|]. split; [reflexivity|]. right. split; [now constructor|now right].
    + destruct (step_hearer co h sh K w HK) as (st & h' & sh' & K' & w' & HK' & Hwr & [[Hlog Hst]|(l & ev & freed & Hlog & Hst)]).
      * assert (object_step obj (OConf (memory_after obj s0 new) None (Conf h sh (co :: K) w)) = (st, OConf (memory_after obj s0 new) None (Conf h' sh' K' w'))) as Eo.
        { inversion HK as [|? ? Hco _]; subst. unfold object_step. cbn [o_conf c_stack o_mem o_now].
          destruct co; cbn in Hco; try contradiction; rewrite Hst; cbn [c_stack c_world]; (destruct K' as [|[] K']; try reflexivity; inversion HK' as [|? ? Hx _]; destruct Hx). }
        rewrite Eo, Hst. split; [reflexivity|]. split; [reflexivity|]. right. split; [|now right]. constructor; [exact HK'|now rewrite Hwr|congruence].
      * assert (object_step obj (OConf (memory_after obj s0 new) None (Conf h sh (co :: K) w)) =
          (ARun, OConf (memory_after obj s0 new) (Some (Running (obj l ev))) (Conf h' sh' (CoUser [] freed :: K') w'))) as Eo.
        { inversion HK as [|? ? Hco _]; subst. unfold object_step. cbn [o_conf c_stack o_mem o_now].
          assert (Nat.ltb (length (w_log w)) (length (w_log w')) = true) as Hlt by (apply Nat.ltb_lt; rewrite Hlog, app_length; cbn; lia).
          destruct co; cbn in Hco; try contradiction; rewrite Hst; cbn [c_stack c_world]; rewrite Hlt, Hlog, rev_app_distr; reflexivity. }
        rewrite Eo, Hst. split; [reflexivity|]. split; [reflexivity|]. right. split; [|now left]. rewrite Hlog, Hl, <- app_assoc, history_call.
        apply (sm_run _ _ _ _ _ _ _ (new ++ [(l, ev)])); [exact HK'|now rewrite Hwr|now rewrite Hlog, Hl, app_assoc|apply Hobj|]. now rewrite memory_snoc.
  - unfold object_step, object_user. cbn [o_conf c_stack o_mem o_now told_now c_hdr c_short c_world step].
    pose proof (settle_told c s) as Ht. pose proof (settle_every true SpecObject.calm c s) as Hev. destruct (settle c s) as [s' [| |a k]].
    + rewrite Ht in *. cbn [fst snd step_user] in *. split; [reflexivity|]. split; [reflexivity|]. right. subst s'. split; [now constructor|now right].
    + rewrite Ht in *. cbn [fst snd step_user] in *. rewrite (fail_hearers _ _ _ _ _ HK). split; [reflexivity|]. split; [reflexivity|]. right. subst s'. split; [now constructor|now right].
    + destruct (Hev s' a k Hc eq_refl) as [Ha Hk]. rewrite Ht in *. cbn [told] in *. destruct (told (k Done) s') as [cs s2] eqn:Et. cbn [snd fst] in *.
      assert (forall w1, w_wr w1 = w_wr w -> w_log w1 = w_log w -> same (OConf s' (Some (Running (k Done))) (Conf h sh (CoUser [] freed :: K) w1)) (Conf h sh (CoUser cs freed :: K) w1)) as Hgo.
      { intros w1 G1 G2. replace cs with (fst (told (k Done) s')) by now rewrite Et. apply (sm_run _ _ _ _ _ _ _ new); auto; [now rewrite G1|now rewrite G2|now rewrite Et]. }
      destruct a; cbn in Ha; try contradiction; cbn [step_user].
      1-3: split; [reflexivity|]; split; [reflexivity|]; right; (split; [apply Hgo; reflexivity|now left]).
      * split; [reflexivity|]. split; [reflexivity|]. right. split; [|now left]. replace cs with (fst (told (k Done) s')) by now rewrite Et. cbn [app].
        apply (sm_ask s' k [start_send op] freed h sh K w new); auto; [|now rewrite Et].
        repeat (apply Forall_cons || apply Forall_nil). unfold start_send. destruct (send_args op) as [[fin opc] m]. exact I.
      * destruct freed; [split; [reflexivity|]; split; [reflexivity|]; left; eexists; reflexivity|]. split; [reflexivity|]. split; [reflexivity|]. right. split; [apply Hgo; reflexivity|now left].
  - destruct P as [|co P].
    + unfold object_step. cbn [app o_conf c_stack o_mem o_now c_hdr c_short c_world step]. split; [reflexivity|]. split; [reflexivity|]. right. split; [|now left].
      now apply (sm_run _ _ _ _ _ _ _ new).
    + inversion HP as [|? ? Hco HP']; subst. cbn [app].
      destruct (step_sender co h sh w Hco Hw) as (w' & G1 & G2 & [(Q & HQ & Hst)|[u Hst]]).
      * assert (object_step obj (OConf s (Some (Asked k)) (Conf h sh (co :: P ++ CoCatch :: CoUser [] freed :: K) w)) =
          (ARun, OConf s (Some (Asked k)) (Conf h sh (Q ++ P ++ CoCatch :: CoUser [] freed :: K) w'))) as Eo.
        { unfold object_step. cbn [o_conf c_stack o_mem o_now]. destruct co; cbn in Hco; try contradiction; rewrite Hst; cbn [c_stack c_world o_conf]; rewrite G2, Nat.ltb_irrefl;
            (destruct (Q ++ P ++ CoCatch :: CoUser [] freed :: K) as [|[] ?]; try reflexivity; destruct (List.rev (w_log w)) as [|[] ?]; reflexivity). }
        rewrite Eo, Hst. split; [reflexivity|]. split; [reflexivity|]. right. split; [|now left]. rewrite !app_assoc.
        apply (sm_ask s k (Q ++ P) freed h sh K w' new); auto; [now apply Forall_app|now rewrite G2].
      * assert (object_step obj (OConf s (Some (Asked k)) (Conf h sh (co :: P ++ CoCatch :: CoUser [] freed :: K) w)) =
          (AUb u, OConf s (Some (Asked k)) (Conf h sh [] w'))) as Eo.
        { unfold object_step. cbn [o_conf c_stack o_mem o_now]. destruct co; cbn in Hco; try contradiction; rewrite Hst; reflexivity. }
        rewrite Eo, Hst. split; [reflexivity|]. split; [reflexivity|]. left. eexists. reflexivity.
Qed.
Lemma same_run evs : forall sx sc, same_s sx sc -> same_s (object_run obj evs sx) (run react evs sc).
Proof.
  induction evs as [|[|a] r IH]; intros [st x] [st' c] H; [exact H| |]; cbn [object_run run]; apply IH; destruct H as (E & Hw & H); cbn [fst snd] in *.
  - unfold object_tick, tick. destruct H as [[u Hu]|H]; [rewrite Hu in *; rewrite E; split; [reflexivity|]; split; [exact Hw|]; left; exists u; reflexivity|].
    rewrite E. destruct st'; try (split; [reflexivity|]; split; [exact Hw|]; right; exact H); apply same_step; apply H.
  - split; [exact E|]. split; [unfold arrive; cbn; now rewrite Hw|]. destruct H as [Hu|[H Hn]]; [now left|right]. split; [|exact Hn].
    destruct H as [h sh K w new HK Hh Hl|s c freed h sh K w new HK Hh Hl Hc Hm|s k P freed h sh K w new HK HP Hh Hl Hc Hm]; cbn [o_mem o_now o_conf]; unfold arrive; cbn [c_hdr c_short c_stack c_world].
    + now constructor.
    + now apply (sm_run _ _ _ _ _ _ _ new).
    + now apply (sm_ask _ _ _ _ _ _ _ _ new).
Qed.
Lemma same_start : healthy (w_wr w0) -> same (object_start s0 w0) (start_listen w0).
Proof. intros H. apply (sm_idle _ _ _ _ []); [constructor; [exact I|constructor]|exact H|now rewrite app_nil_r]. Qed.
End Obj.
