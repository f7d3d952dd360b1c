(** Lemmas for C100: listener objects on the asynchronous socket, whatever becomes of what they send. *)
From Verif Require Import Bytes Frame World WebSocket AsyncWebSocket Object AsyncObject SpecAsync SpecSend SpecFrame SpecListen SpecObject
  ProofSend ProofQuit ProofObject ProofAsyncObject.
From Coq Require Import Lia PeanoNat.
Local Open Scope N_scope.
Local Arguments takeN : simpl never.
Local Arguments dropN : simpl never.
Local Arguments lenN : simpl never.
Local Arguments be_enc : simpl never.
Local Arguments be_dec : simpl never.
Local Arguments packHeaderBits : simpl never.

(** What a sending coroutine does does not depend on who started it. *)
Definition sent_by (w : world) (h : header) (s : bytes) (F : list cor -> status * conf) : Prop := exists w', w_log w' = w_log w /\
  ((exists st P, Forall sender P /\ forall K, F K = (st, Conf h s (P ++ K) w')) \/
   (exists u, forall K, F K = (AUb u, Conf h s [] w')) \/
   (exists e, forall K, F K = fail e (Conf h s K w'))).
Lemma sb_go w h s st P w' : Forall sender P -> w_log w' = w_log w -> sent_by w h s (fun K => (st, Conf h s (P ++ K) w')).
Proof. intros H1 H2. exists w'. split; [exact H2|]. left. exists st, P. auto. Qed.
Lemma sb_fail w h s e w' : w_log w' = w_log w -> sent_by w h s (fun K => fail e (Conf h s K w')).
Proof. intros H2. exists w'. split; [exact H2|]. right. right. exists e. auto. Qed.
Lemma sb_ub w h s u w' : w_log w' = w_log w -> sent_by w h s (fun K => (AUb u, Conf h s [] w')).
Proof. intros H2. exists w'. split; [exact H2|]. right. left. exists u. auto. Qed.
Lemma step_sender_any co hdr short w : sender co -> exists F, sent_by w hdr short F /\ forall react K, step react (Conf hdr short (co :: K) w) = F K.
Proof.
  intros Hs.
  assert (forall d, w_log (snd (writeExactAsyncInline d w)) = w_log w) as Hwrite.
  { intros d. unfold writeExactAsyncInline. destruct d as [|b bs]; [reflexivity|]. destruct (w_wr w) as [|[n|[]|] q]; reflexivity. }
  assert (forall c, sender c -> Forall sender [c]) as H1 by (intros; constructor; [assumption|constructor]).
  destruct co as [| | | |fin op m h p|h p| |]; cbn in Hs; try contradiction.
  - destruct p as [| |d|].
    + assert (forall n, exists h' co w', sendFrameHeaderAsync h fin op n w = (h', co, w') /\ sender co /\ w_log w' = w_log w) as Hh.
      { intros n. unfold sendFrameHeaderAsync. destruct (h_hasMask _); do 3 eexists; (split; [reflexivity|]); cbn; auto. }
      destruct m as [[|b bs]|].
      * destruct (Hh 0%Z) as (h' & co & w' & E & G1 & G3). eexists. split; [|intros react K; cbn [step step_send]; rewrite E; reflexivity].
        apply (sb_go w hdr short ARun [co; CoSend fin op (Some []) h' SfFinish] w'); [|exact G3]. constructor; [exact G1|]. apply H1. exact I.
      * destruct (Hh (Z.of_N (lenN (b :: bs)))) as (h' & co & w' & E & G1 & G3). eexists. split; [|intros react K; cbn [step step_send]; rewrite E; reflexivity].
        apply (sb_go w hdr short ARun [co; CoSend fin op (Some (b :: bs)) h' SfPrepare] w'); [|exact G3]. constructor; [exact G1|]. apply H1. exact I.
      * destruct (Hh 0%Z) as (h' & co & w' & E & G1 & G3). eexists. split; [|intros react K; cbn [step step_send]; rewrite E; reflexivity].
        apply (sb_go w hdr short ARun [co; CoSend fin op None h' SfFinish] w'); [|exact G3]. constructor; [exact G1|]. apply H1. exact I.
    + cbn [step step_send]. destruct (h_hasMask h); [destruct (2 ^ 31 <=? _)|].
      * eexists. split; [|reflexivity]. now apply sb_ub.
      * eexists. split; [|reflexivity]. apply (sb_go w hdr short ARun [_] w); [apply H1; exact I|reflexivity].
      * eexists. split; [|reflexivity]. apply (sb_go w hdr short ARun [_] w); [apply H1; exact I|reflexivity].
    + cbn [step step_send]. specialize (Hwrite d). destruct (writeExactAsyncInline d w) as [[e|e| |] w']; cbn [snd] in Hwrite; (eexists; split; [|reflexivity]).
      * now apply (sb_go w hdr short ARun [] w').
      * apply (sb_go w hdr short ARun [_] w'); [apply H1; exact I|exact Hwrite].
      * apply (sb_go w hdr short AWait [_] w'); [apply H1; exact I|exact Hwrite].
      * now apply sb_fail.
    + exists (fun K => (ARun, Conf hdr short ([] ++ K) w)). split; [|reflexivity]. now apply (sb_go w hdr short ARun [] w).
  - destruct p as [d| |d| |d]; cbn [step step_writeFrame].
    1,3: specialize (Hwrite d); destruct (writeExactAsyncInline d w) as [[e|e| |] w']; cbn [snd] in Hwrite; (eexists; split; [|reflexivity]);
      [apply (sb_go w hdr short ARun [_] w'); [apply H1; exact I|exact Hwrite]|apply (sb_go w hdr short ARun [_] w'); [apply H1; exact I|exact Hwrite]
      |apply (sb_go w hdr short AWait [_] w'); [apply H1; exact I|exact Hwrite]|now apply sb_fail].
    + destruct (_ =? 2); [|destruct (_ =? 3)]; (eexists; split; [|reflexivity]); (apply (sb_go w hdr short ARun [_] w); [apply H1; exact I|reflexivity]).
    + destruct (h_hasMask h); (eexists; split; [|reflexivity]); [apply (sb_go w hdr short ARun [_] w); [apply H1; exact I|reflexivity]|now apply (sb_go w hdr short ARun [] w)].
    + specialize (Hwrite d). destruct (writeExactAsyncInline d w) as [[e|e| |] w']; cbn [snd] in Hwrite; (eexists; split; [|reflexivity]).
      * now apply (sb_go w hdr short ARun [] w').
      * apply (sb_go w hdr short ARun [_] w'); [apply H1; exact I|exact Hwrite].
      * apply (sb_go w hdr short AWait [_] w'); [apply H1; exact I|exact Hwrite].
      * now apply sb_fail.
Qed.

Section Sim.
Context {S : Type}.
Variables (t : bool) (P : act -> Prop).
Hypothesis Pcalm : forall a, P a -> SpecObject.calm a.
Variable obj : object S.
Hypothesis Hobj : every_call t P obj.

Inductive shape : oconf S -> Prop :=
| sh_idle s d h sh K w : Forall hearer K -> shape (OConf s d (Conf h sh K w))
| sh_run s d freed h sh K w : Forall hearer K -> every t P (told_now d) -> shape (OConf s d (Conf h sh (CoUser [] freed :: K) w))
| sh_ask s k Q freed h sh K w : Forall hearer K -> Forall sender Q -> (forall r, every t P (k r)) ->
    shape (OConf s (Some (Asked k)) (Conf h sh (Q ++ CoCatch :: CoUser [] freed :: K) w)).
(** The commands [cs] are left to the listener's coroutine. *)
Definition put (cs : list cmd) (co : cor) : cor := match co with CoUser _ freed => CoUser cs freed | _ => co end.
Definition with_cmds (cs : list cmd) (c : conf) : conf := Conf (c_hdr c) (c_short c) (map (put cs) (c_stack c)) (c_world c).
Lemma put_hearers cs K : Forall hearer K -> map (put cs) K = K.
Proof. induction 1 as [|co K H _ IH]; [reflexivity|]. cbn [map]. rewrite IH. destruct co; cbn in H; try contradiction; reflexivity. Qed.
Lemma put_senders cs K : Forall sender K -> map (put cs) K = K.
Proof. induction 1 as [|co K H _ IH]; [reflexivity|]. cbn [map]. rewrite IH. destruct co; cbn in H; try contradiction; reflexivity. Qed.
Lemma unwind_senders Q K : Forall sender Q -> unwind (Q ++ K) = unwind K.
Proof. induction 1 as [|co Q H _ IH]; [reflexivity|]. destruct co; cbn in H; try contradiction; exact IH. Qed.

(** One step: given the commands of later calls ([tab]) and those left after the step ([cs']), the commands left before it. *)
Notation calls c := (length (w_log (c_world c))).
Definition one_step (x : oconf S) (st' : status) (x' : oconf S) : Prop :=
  shape x' /\ (calls (o_conf x) <= calls (o_conf x'))%nat /\
  forall cs', Forall (issued t P) cs' -> exists cs frag, Forall (issued t P) cs /\ Forall (issued t P) frag /\
    forall tab, (forall n, (calls (o_conf x) < n <= calls (o_conf x'))%nat -> tab n = frag) ->
    step (by_count tab) (with_cmds cs (o_conf x)) = (st', with_cmds cs' (o_conf x')).
Lemma shape_step x : shape x -> let (st', x') := object_step obj x in one_step x st' x'.
Proof.
  intros H. destruct H as [s d h sh K w HK|s d freed h sh K w HK Hev|s k Q freed h sh K w HK HQ Hev].
  - destruct K as [|co K].
    + unfold object_step. cbn [o_conf c_stack step o_mem o_now c_world]. split; [now constructor|]. split; [reflexivity|]. intros cs' Hc. exists [], []. do 2 (split; [constructor|]). reflexivity.
    + destruct (step_hearer co h sh K w HK) as (st & h' & sh' & K' & w' & HK' & _ & [[Hlog Hst]|(l & ev & freed & Hlog & Hst)]).
      * assert (object_step obj (OConf s d (Conf h sh (co :: K) w)) = (st, OConf s d (Conf h' sh' K' w'))) as Eo.
        { inversion HK as [|? ? Hco _]; subst. unfold object_step. cbn [o_conf c_stack o_mem o_now].
          destruct co; cbn in Hco; try contradiction; rewrite Hst; cbn [c_stack c_world]; (destruct K' as [|[] K']; try reflexivity; inversion HK' as [|? ? Hx _]; destruct Hx). }
        rewrite Eo. split; [now constructor|]. cbn [o_conf c_world]. rewrite Hlog. split; [reflexivity|]. intros cs' Hc. exists [], []. do 2 (split; [constructor|]). intros tab _.
        unfold with_cmds. cbn [c_hdr c_short c_stack c_world]. rewrite !put_hearers by assumption. apply Hst.
      * assert (object_step obj (OConf s d (Conf h sh (co :: K) w)) = (ARun, OConf s (Some (Running (obj l ev))) (Conf h' sh' (CoUser [] freed :: K') w'))) as Eo.
        { inversion HK as [|? ? Hco _]; subst. unfold object_step. cbn [o_conf c_stack o_mem o_now].
          assert (Nat.ltb (length (w_log w)) (length (w_log w')) = true) as Hlt by (apply Nat.ltb_lt; rewrite Hlog, app_length; cbn; lia).
          destruct co; cbn in Hco; try contradiction; rewrite Hst; cbn [c_stack c_world]; rewrite Hlt, Hlog, rev_app_distr; reflexivity. }
        rewrite Eo. split; [constructor; [exact HK'|apply Hobj]|]. cbn [o_conf c_world]. split; [rewrite Hlog, app_length; lia|]. intros cs' Hc. exists [], cs'. split; [constructor|]. split; [exact Hc|]. intros tab Ht.
        assert (with_cmds [] (Conf h sh (co :: K) w) = Conf h sh (co :: K) w) as -> by (unfold with_cmds; cbn [c_hdr c_short c_stack c_world]; now rewrite put_hearers).
        rewrite Hst. unfold with_cmds. cbn [c_hdr c_short c_stack c_world map put]. rewrite !put_hearers by assumption. unfold by_count. rewrite Ht; [reflexivity|]. rewrite Hlog, app_length. cbn. lia.
  - unfold object_step, object_user. cbn [o_conf c_stack o_mem o_now c_hdr c_short c_world].
    pose proof (settle_every t P (told_now d) s) as Hse.
    assert (forall s' , settle (told_now d) s = (s', TThrow) -> t = true) as Hthrow.
    { intros s' E. revert E Hev. clear. generalize (told_now d). intros c. revert s. induction c as [| |k IH|s1 k IH|a k IH]; intros s E He; cbn [settle every] in *; try discriminate; auto; eapply IH; eauto. }
    destruct (settle (told_now d) s) as [s' [| |a k]].
    + split; [now constructor|]. split; [reflexivity|]. intros cs' Hc. exists [], []. do 2 (split; [constructor|]). intros tab _.
      unfold with_cmds. cbn [o_conf c_hdr c_short c_stack c_world map put]. rewrite !put_hearers by assumption. reflexivity.
    + rewrite (fail_hearers _ _ _ _ _ HK). split; [constructor; constructor|]. split; [reflexivity|]. intros cs' Hc. exists [CThrow], [].
      split; [constructor; [left; split; [reflexivity|now apply (Hthrow s')]|constructor]|]. split; [constructor|]. intros tab _.
      unfold with_cmds. cbn [o_conf c_hdr c_short c_stack c_world map put]. rewrite !put_hearers by assumption. cbn [step step_user]. now rewrite (fail_hearers _ _ _ _ _ HK).
    + destruct (Hse s' a k Hev eq_refl) as [Ha Hk].
      assert (forall w1 c, cmd_of a c -> w_log w1 = w_log w -> (forall cs' react, step react (Conf h sh (CoUser (c :: cs') freed :: K) w) = (ARun, Conf h sh (CoUser cs' freed :: K) w1)) ->
        one_step (OConf s d (Conf h sh (CoUser [] freed :: K) w)) ARun (OConf s' (Some (Running (k Done))) (Conf h sh (CoUser [] freed :: K) w1))) as Hgo.
      { intros w1 c Hc Hl Hst. split; [constructor; [exact HK|apply Hk]|]. cbn [o_conf c_world]. rewrite Hl. split; [reflexivity|]. intros cs' Hcs. exists (c :: cs'), [].
        split; [constructor; [right; eauto|exact Hcs]|]. split; [constructor|]. intros tab _. unfold with_cmds. cbn [o_conf c_hdr c_short c_stack c_world map put]. rewrite !put_hearers by assumption. apply Hst. }
      destruct a as [|l|m b|op| | |]; try (destruct (Pcalm _ Ha)).
      * apply (Hgo w CStop); reflexivity.
      * apply (Hgo _ (CSetListener l)); reflexivity.
      * apply (Hgo _ (CSetConfig m b)); reflexivity.
      * split; [apply (sh_ask s' k [start_send op] freed h sh K w HK); [|exact Hk]|].
        { constructor; [|constructor]. unfold start_send. destruct (send_args op) as [[fin opc] m]. exact I. }
        split; [reflexivity|]. intros cs' Hcs. exists (CSend true op :: cs'), []. split; [constructor; [right; exists (ASend op); split; [exact Ha|eexists; reflexivity]|exact Hcs]|]. split; [constructor|]. intros tab _.
        unfold with_cmds. cbn [o_conf c_hdr c_short c_stack c_world map put]. rewrite !put_hearers by assumption. cbn [step step_user app].
        replace (put cs' (start_send op)) with (start_send op) by (unfold start_send; destruct (send_args op) as [[fin opc] m]; reflexivity). reflexivity.
      * destruct freed; [|apply (Hgo w CUseData); reflexivity].
        split; [constructor; constructor|]. split; [reflexivity|]. intros cs' Hcs. exists [CUseData], []. split; [constructor; [right; exists ALook; split; [exact Ha|reflexivity]|constructor]|]. split; [constructor|]. intros tab _. reflexivity.
  - destruct Q as [|co Q].
    + unfold object_step. cbn [app o_conf c_stack o_mem o_now c_hdr c_short c_world]. split; [apply sh_run; [exact HK|apply Hev]|]. split; [reflexivity|]. intros cs' Hcs. exists cs', []. split; [exact Hcs|]. split; [constructor|]. intros tab _.
      unfold with_cmds. cbn [o_conf c_hdr c_short c_stack c_world map put]. reflexivity.
    + inversion HQ as [|? ? Hco HQ']; subst. cbn [app].
      assert (forall cs, with_cmds cs (Conf h sh (co :: Q ++ CoCatch :: CoUser [] freed :: K) w) = Conf h sh (co :: Q ++ CoCatch :: CoUser cs freed :: K) w) as Hw.
      { intros cs. unfold with_cmds. cbn [c_hdr c_short c_stack c_world map]. rewrite map_app. cbn [map put]. rewrite (put_hearers cs K HK), (put_senders cs Q HQ'). destruct co; cbn in Hco; try contradiction; reflexivity. }
      destruct (step_sender_any co h sh w Hco) as (F & (w' & Hlog & HF) & Hst).
      assert (forall st c1, F (Q ++ CoCatch :: CoUser [] freed :: K) = (st, c1) -> c_world c1 = w' ->
        object_step obj (OConf s (Some (Asked k)) (Conf h sh (co :: Q ++ CoCatch :: CoUser [] freed :: K) w)) = (st, OConf s (Some (Asked k)) c1)) as Eo.
      { intros st c1 E1 Ew. unfold object_step. cbn [o_conf c_stack o_mem o_now]. destruct co; cbn in Hco; try contradiction; rewrite Hst, E1, Ew; cbn [c_world]; rewrite Hlog, Nat.ltb_irrefl;
          (destruct (c_stack c1) as [|[] ?]; try reflexivity; destruct (List.rev (w_log w)) as [|[] ?]; reflexivity). }
      destruct HF as [(st & Q' & HQ2 & HF)|[[u HF]|[e HF]]].
      * rewrite (Eo st _ (HF _) eq_refl). split; [rewrite app_assoc; apply sh_ask; auto; now apply Forall_app|]. cbn [o_conf c_world]. rewrite Hlog. split; [reflexivity|]. intros cs' Hcs. exists cs', []. split; [exact Hcs|]. split; [constructor|]. intros tab _.
        rewrite Hw, Hst, HF. unfold with_cmds. cbn [o_conf c_hdr c_short c_stack c_world]. rewrite !map_app. cbn [map put]. rewrite (put_hearers cs' K HK), (put_senders cs' Q HQ'), (put_senders cs' Q' HQ2). reflexivity.
      * rewrite (Eo (AUb u) _ (HF _) eq_refl). split; [constructor; constructor|]. cbn [o_conf c_world]. rewrite Hlog. split; [reflexivity|]. intros cs' Hcs. exists cs', []. split; [exact Hcs|]. split; [constructor|]. intros tab _.
        rewrite Hw, Hst, HF. reflexivity.
      * assert (forall cs, fail e (Conf h sh (Q ++ CoCatch :: CoUser cs freed :: K) w') = (ARun, Conf h sh (CoUser cs freed :: K) w')) as Hfail.
        { intros cs. unfold fail. cbn [c_stack c_hdr c_short c_world]. rewrite unwind_senders by assumption. reflexivity. }
        rewrite (Eo ARun (Conf h sh (CoUser [] freed :: K) w')) by (rewrite ?HF; auto). split; [apply sh_run; [exact HK|apply Hev]|]. cbn [o_conf c_world]. rewrite Hlog. split; [reflexivity|].
        intros cs' Hcs. exists cs', []. split; [exact Hcs|]. split; [constructor|]. intros tab _.
        rewrite Hw, Hst, HF, Hfail. unfold with_cmds. cbn [o_conf c_hdr c_short c_stack c_world map put]. rewrite !put_hearers by assumption. reflexivity.
Qed.

Lemma adaptive_run evs : forall st x, shape x -> exists cs frag, Forall (issued t P) cs /\ (forall n, Forall (issued t P) (frag n)) /\
  forall tab, (forall n, (calls (o_conf x) < n)%nat -> tab n = frag n) ->
  fst (run (by_count tab) evs (st, with_cmds cs (o_conf x))) = fst (object_run obj evs (st, x)) /\
  c_world (snd (run (by_count tab) evs (st, with_cmds cs (o_conf x)))) = c_world (o_conf (snd (object_run obj evs (st, x)))).
Proof.
  induction evs as [|[|a] r IH]; intros st x Hx.
  - exists [], (fun _ => []). split; [constructor|]. split; [constructor|]. intros tab _. split; reflexivity.
  - cbn [object_run run].
    assert (forall st', match st' with ARun | AWait => True | _ => False end -> object_tick obj (st', x) = object_step obj x /\ forall react c, tick react (st', c) = step react c) as Ht by (intros []; cbn; try contradiction; auto).
    destruct st.
    1,2: pose proof (shape_step x Hx) as H; cbn [object_tick]; destruct (object_step obj x) as [st' x']; destruct H as (S1 & S2 & S3);
      destruct (IH st' x' S1) as (cs' & frag & F1 & F2 & F3); destruct (S3 cs' F1) as (cs & fr & G1 & G2 & G3);
      exists cs, (fun n => if Nat.leb n (calls (o_conf x')) then fr else frag n); (split; [exact G1|]); (split; [intros n; destruct (Nat.leb n _); auto|]); intros tab Hta; cbn [tick];
      (rewrite G3; [apply F3; intros n Hn; rewrite Hta by lia; destruct (Nat.leb_spec n (calls (o_conf x'))); [lia|reflexivity]|]);
      intros n Hn; rewrite Hta by lia; destruct (Nat.leb_spec n (calls (o_conf x'))); [reflexivity|lia].
    all: cbn [object_tick tick]; now apply IH.
  - cbn [object_run run fst snd].
    assert (shape (OConf (o_mem x) (o_now x) (arrive a (o_conf x)))) as Hx' by (destruct Hx; unfold arrive; cbn [o_mem o_now o_conf c_hdr c_short c_stack c_world]; now constructor).
    destruct (IH st _ Hx') as (cs & frag & F1 & F2 & F3). exists cs, frag. split; [exact F1|]. split; [exact F2|]. intros tab Hta. apply F3. exact Hta.
Qed.
End Sim.
