(** Lemmas for C101, second part: the sending coroutines, the callbacks, the levels. *)
From Verif Require Import Bytes Frame World WebSocket AsyncWebSocket Object AsyncObject AsyncReentry SpecAsync SpecSend SpecFrame SpecListen SpecObject
  ProofFrame ProofStream ProofSend ProofListen ProofReading ProofQuit ProofObject ProofAsyncObject ProofReentry2 ProofAsyncReentry.
From Coq Require Import Lia PeanoNat ZifyBool ZifyN ZifyNat.
Local Open Scope N_scope.
Local Arguments takeN : simpl never.
Local Arguments dropN : simpl never.
Local Arguments lenN : simpl never.
Local Arguments be_enc : simpl never.
Local Arguments be_dec : simpl never.
Local Arguments packHeaderBits : simpl never.
Local Arguments unpackHeaderBits : simpl never.
Local Arguments xor_from : simpl never.

(** * Sending coroutines *)
Definition tiny (co : cor) : Prop :=
  match co with
  | CoSend _ _ m _ _ => lenN (match m with Some d => d | None => [] end) < 2 ^ 31
  | CoWrite _ _ => True
  | _ => False
  end.
Definition empty (d : bytes) : nat := match d with [] => 0 | _ => 1 end.
Definition work (co : cor) : nat :=
  match co with
  | CoSend _ _ _ _ SfAct => 20
  | CoSend _ _ _ _ SfPrepare => 5
  | CoSend _ _ _ _ (SfWrite d) => 3 + empty d
  | CoSend _ _ _ _ SfFinish => 1
  | CoWrite _ (WfAct d) => 10 + empty d
  | CoWrite _ WfOnBb => 8
  | CoWrite _ (WfWriteLen d) => 6 + empty d
  | CoWrite _ WfOnLen => 5
  | CoWrite _ (WfWriteMask d) => 3 + empty d
  | _ => 0
  end.
Definition works (P : list cor) : nat := list_sum (map work P).
Lemma works_app P Q : works (P ++ Q) = (works P + works Q)%nat.
Proof. unfold works. now rewrite map_app, list_sum_app. Qed.
(** What a step of a sending coroutine does. *)
Definition sends_on (co : cor) (hdr : header) (short : bytes) (w : world) : Prop := exists w', w_in w' = w_in w /\ w_sock w' = w_sock w /\ w_log w' = w_log w /\
  (healthy (w_wr w) -> healthy (w_wr w')) /\
  ((exists st Q, Forall tiny Q /\ (forall react K, AsyncWebSocket.step react (Conf hdr short (co :: K) w) = (st, Conf hdr short (Q ++ K) w')) /\
     ((st = ARun /\ (healthy (w_wr w) -> (length (w_wr w') + works Q < length (w_wr w) + work co)%nat)) \/ (st = AWait /\ ~ healthy (w_wr w)))) \/
   (exists e, (forall react K, AsyncWebSocket.step react (Conf hdr short (co :: K) w) = fail e (Conf hdr short K w')) /\ ~ healthy (w_wr w))).
Lemma step_tiny co hdr short w : tiny co -> sends_on co hdr short w.
Proof.
  intros Ht.
  assert (forall d, exists r w', writeExactAsyncInline d w = (r, w') /\ w_in w' = w_in w /\ w_sock w' = w_sock w /\ w_log w' = w_log w /\ (healthy (w_wr w) -> healthy (w_wr w')) /\
    match r with
    | INext _ => w' = w
    | IAgain e => healthy (w_wr w) -> (length (w_wr w') + empty e < length (w_wr w) + empty d)%nat
    | IWait | IFail => ~ healthy (w_wr w)
    end) as Hwrite.
  { intros d. unfold writeExactAsyncInline. destruct d as [|b bs]; [do 2 eexists; split; [reflexivity|]; auto 10|].
    destruct (w_wr w) as [|[n|e|] q] eqn:E.
    - do 2 eexists. split; [reflexivity|]. cbn. repeat (split; [reflexivity|]). split; [intros; constructor|]. intros. lia.
    - do 2 eexists. split; [reflexivity|]. cbn [w_in w_sock w_log w_wr set_wr]. repeat (split; [reflexivity|]). split; [intros H; now inversion H|]. intros _. cbn [length].
      unfold empty. destruct (dropN _ _); lia.
    - destruct e; do 2 eexists; (split; [reflexivity|]); cbn [w_in w_sock w_log w_wr set_wr]; repeat (split; [reflexivity|]).
      + split; [intros H; now inversion H|]. intros _. cbn [length]. lia.
      + split; [intros H; now inversion H|]. intros H. inversion H as [|? ? He _]. destruct He.
      + split; [intros H; now inversion H|]. intros H. inversion H as [|? ? He _]. destruct He.
    - do 2 eexists. split; [reflexivity|]. rewrite E. repeat (split; [reflexivity|]). split; [auto|]. intros H. inversion H as [|? ? He _]. destruct He. }
  assert (forall c, tiny c -> Forall tiny [c]) as H1 by (intros; constructor; [assumption|constructor]).
  assert (forall w', w_in w' = w_in w -> w_sock w' = w_sock w -> w_log w' = w_log w -> w_wr w' = w_wr w -> forall Q, Forall tiny Q ->
    (forall react K, AsyncWebSocket.step react (Conf hdr short (co :: K) w) = (ARun, Conf hdr short (Q ++ K) w')) -> (works Q < work co)%nat -> sends_on co hdr short w) as Hsimple.
  { intros w' E1 E2 E3 E4 Q HQ Hst Hlt. exists w'. do 3 (split; [assumption|]). split; [now rewrite E4|]. left. exists ARun, Q. split; [exact HQ|]. split; [exact Hst|]. left. split; [reflexivity|]. intros _. rewrite E4. lia. }
  assert (forall (d : bytes) (after : list cor) (again : bytes -> cor), Forall tiny after -> (forall e, tiny (again e)) ->
    (works after < work co - empty d)%nat -> (forall e, work (again e) + empty d <= work co + empty e)%nat -> again d = co ->
    (forall react K, AsyncWebSocket.step react (Conf hdr short (co :: K) w) =
      match writeExactAsyncInline d w with
      | (INext _, w') => (ARun, Conf hdr short (after ++ K) w')
      | (IAgain e, w') => (ARun, Conf hdr short ([again e] ++ K) w')
      | (IWait, w') => (AWait, Conf hdr short ([co] ++ K) w')
      | (IFail, w') => fail ExAsyncIO (Conf hdr short K w')
      end) -> sends_on co hdr short w) as Hw.
  { intros d after again Ha Hag Hlt Hle Hco Hst. destruct (Hwrite d) as (r & w' & E & E1 & E2 & E3 & E4 & Hr). rewrite E in Hst. exists w'. do 4 (split; [assumption|]).
    destruct r as [e|e| |].
    - subst w'. left. exists ARun, after. split; [exact Ha|]. split; [exact Hst|]. left. split; [reflexivity|]. intros _. lia.
    - left. exists ARun, [again e]. split; [now apply H1|]. split; [exact Hst|]. left. split; [reflexivity|]. intros Hh. specialize (Hr Hh). specialize (Hle e). unfold works. cbn [map list_sum fold_right]. lia.
    - left. exists AWait, [co]. split; [now apply H1|]. split; [exact Hst|]. right. auto.
    - right. exists ExAsyncIO. auto. }
  destruct co as [| | | |fin op m h p|h p| |]; try (now destruct Ht).
  - destruct p as [| |d|].
    + assert (forall n, exists h' co w', sendFrameHeaderAsync h fin op n w = (h', co, w') /\ (exists h2 d, co = CoWrite h2 (WfAct d)) /\ w_in w' = w_in w /\ w_sock w' = w_sock w /\ w_log w' = w_log w /\ w_wr w' = w_wr w) as Hh.
      { intros n. unfold sendFrameHeaderAsync. destruct (h_hasMask _); do 3 eexists; (split; [reflexivity|]); cbn; eauto 10. }
      assert (forall h2 d m2 h' p2, (work (CoSend fin op m2 h' p2) <= 5)%nat -> (works [CoWrite h2 (WfAct d); CoSend fin op m2 h' p2] < 20)%nat) as Hsm.
      { intros h2 d m2 h' p2 Hle. unfold works. cbn [map list_sum fold_right]. unfold work at 1. unfold empty. destruct d; lia. }
      destruct m as [[|b bs]|].
      * destruct (Hh 0%Z) as (h' & co & w' & E & (h2 & d & ->) & G1 & G2 & G3 & G4).
        apply (Hsimple w' G1 G2 G3 G4 [CoWrite h2 (WfAct d); CoSend fin op (Some []) h' SfFinish]); [constructor; [exact I|apply H1; exact Ht]| |apply Hsm; cbn; lia].
        intros react K. cbn [AsyncWebSocket.step step_send]. rewrite E. reflexivity.
      * destruct (Hh (Z.of_N (lenN (b :: bs)))) as (h' & co & w' & E & (h2 & d & ->) & G1 & G2 & G3 & G4).
        apply (Hsimple w' G1 G2 G3 G4 [CoWrite h2 (WfAct d); CoSend fin op (Some (b :: bs)) h' SfPrepare]); [constructor; [exact I|apply H1; exact Ht]| |apply Hsm; cbn; lia].
        intros react K. cbn [AsyncWebSocket.step step_send]. rewrite E. reflexivity.
      * destruct (Hh 0%Z) as (h' & co & w' & E & (h2 & d & ->) & G1 & G2 & G3 & G4).
        apply (Hsimple w' G1 G2 G3 G4 [CoWrite h2 (WfAct d); CoSend fin op None h' SfFinish]); [constructor; [exact I|apply H1; exact Ht]| |apply Hsm; cbn; lia].
        intros react K. cbn [AsyncWebSocket.step step_send]. rewrite E. reflexivity.
    + assert (forall d, (works [CoSend fin op m h (SfWrite d)] < 5)%nat) as Hs by (intros [|b d]; unfold works; cbn; lia).
      destruct (h_hasMask h) eqn:Em.
      * apply (Hsimple w eq_refl eq_refl eq_refl eq_refl [CoSend fin op m h (SfWrite (xor_from (h_mask h) 0 (match m with Some d => d | None => [] end)))]); [apply H1; exact Ht| |apply Hs].
        intros react K. cbn [AsyncWebSocket.step step_send]. rewrite Em. cbv zeta. match goal with |- context [if ?b then _ else _] => replace b with false by (symmetry; apply N.leb_gt; exact Ht) end. reflexivity.
      * apply (Hsimple w eq_refl eq_refl eq_refl eq_refl [CoSend fin op m h (SfWrite (match m with Some d => d | None => [] end))]); [apply H1; exact Ht| |apply Hs].
        intros react K. cbn [AsyncWebSocket.step step_send]. rewrite Em. reflexivity.
    + apply (Hw d [] (fun e => CoSend fin op m h (SfWrite e))); [constructor|intros; exact Ht|unfold works; cbn [map list_sum fold_right work]; lia|intros e; cbn [work]; lia|reflexivity|].
      intros react K. cbn [AsyncWebSocket.step step_send]. destruct (writeExactAsyncInline d w) as [[]]; reflexivity.
    + apply (Hsimple w eq_refl eq_refl eq_refl eq_refl []); [constructor|reflexivity|unfold works; cbn; lia].
  - destruct p as [d| |d| |d].
    + apply (Hw d [CoWrite h WfOnBb] (fun e => CoWrite h (WfAct e))); [apply H1; exact I|intros; exact I|unfold works; cbn [map list_sum fold_right work]; lia|intros e; cbn [work]; lia|reflexivity|].
      intros react K. cbn [AsyncWebSocket.step step_writeFrame]. destruct (writeExactAsyncInline d w) as [[]]; reflexivity.
    + assert (forall d, (works [CoWrite h (WfWriteLen d)] < 8)%nat) as Hs by (intros [|b d]; unfold works; cbn; lia).
      destruct (snd (packHeaderBits h) =? 2) eqn:E2; [|destruct (snd (packHeaderBits h) =? 3) eqn:E3].
      * apply (Hsimple w eq_refl eq_refl eq_refl eq_refl [CoWrite h (WfWriteLen (be_enc 2 (i64_to_u16 (h_len h))))]); [apply H1; exact I| |apply Hs].
        intros react K. cbn [AsyncWebSocket.step step_writeFrame]. cbv zeta. rewrite E2. reflexivity.
      * apply (Hsimple w eq_refl eq_refl eq_refl eq_refl [CoWrite h (WfWriteLen (be_enc 4 (i64_to_u32 (Z.shiftr (h_len h) 32)) ++ be_enc 4 (i64_to_u32 (Z.land (h_len h) 4294967295))))]); [apply H1; exact I| |apply Hs].
        intros react K. cbn [AsyncWebSocket.step step_writeFrame]. cbv zeta. rewrite E2, E3. reflexivity.
      * apply (Hsimple w eq_refl eq_refl eq_refl eq_refl [CoWrite h WfOnLen]); [apply H1; exact I| |unfold works; cbn; lia].
        intros react K. cbn [AsyncWebSocket.step step_writeFrame]. cbv zeta. rewrite E2, E3. reflexivity.
    + apply (Hw d [CoWrite h WfOnLen] (fun e => CoWrite h (WfWriteLen e))); [apply H1; exact I|intros; exact I|unfold works; cbn [map list_sum fold_right work]; lia|intros e; cbn [work]; lia|reflexivity|].
      intros react K. cbn [AsyncWebSocket.step step_writeFrame]. destruct (writeExactAsyncInline d w) as [[]]; reflexivity.
    + destruct (h_hasMask h) eqn:Em.
      * apply (Hsimple w eq_refl eq_refl eq_refl eq_refl [CoWrite h (WfWriteMask (mask_bytes (h_mask h)))]); [apply H1; exact I| |unfold works; cbn; lia].
        intros react K. cbn [AsyncWebSocket.step step_writeFrame]. rewrite Em. reflexivity.
      * apply (Hsimple w eq_refl eq_refl eq_refl eq_refl []); [constructor| |unfold works; cbn; lia]. intros react K. cbn [AsyncWebSocket.step step_writeFrame]. rewrite Em. reflexivity.
    + apply (Hw d [] (fun e => CoWrite h (WfWriteMask e))); [constructor|intros; exact I|unfold works; cbn [map list_sum fold_right work]; lia|intros e; cbn [work]; lia|reflexivity|].
      intros react K. cbn [AsyncWebSocket.step step_writeFrame]. destruct (writeExactAsyncInline d w) as [[]]; reflexivity.
Qed.

(** * Everything together *)
Lemma unwind_tiny P K : Forall tiny P -> unwind (P ++ K) = unwind K.
Proof. induction 1 as [|co P H _ IH]; [reflexivity|]. destruct co; try (now destruct H); exact IH. Qed.
Lemma settle_throw {S} t P (c : code S) : forall s s', every t P c -> settle c s = (s', TThrow) -> t = true.
Proof.
  induction c as [| |k IH|s1 k IH|a k IH]; intros s s' He E; cbn [settle every] in *; try discriminate; [exact He|eapply IH; [apply He|exact E]|eapply IH; eassumption].
Qed.
Lemma start_tiny op : lenN (req_payload op) < 2 ^ 31 -> tiny (start_send op).
Proof. intros H. unfold start_send. destruct op as [fin opc [m|]|code m| |[m|]|[m|]|[m|]|[m|]]; exact H. Qed.
Section Obj.
Context {S : Type}.
Variables (l : nat) (nc loose : bool).
Hypothesis Hnl : nc = true -> loose = false.
Variable obj : object S.
Hypothesis Hobj : async_boundaries loose obj.
Variables (log0 : list (nat * event)) (all : list (lform * frame)).
Notation total := (frames_shown all).
Notation at_ := (at_ l nc all).
Notation boundary := (boundary l).
Notation okw := (okw l).

Lemma boundary_hearers K : boundary K -> Forall hearer K.
Proof. intros H. destruct H; repeat (apply Forall_cons || apply Forall_nil); exact I. Qed.
Lemma at_hearers A T h sh K k : at_ A T h sh K k -> Forall hearer K.
Proof. intros H. destruct H; [now apply boundary_hearers| | | | | | | | | |]; repeat (apply Forall_cons || apply Forall_nil); exact I. Qed.
Lemma at_inv A T h sh K k : at_ A T h sh K k -> boundary K -> exists fs, A = wires fs /\ T = frames_shown fs /\ valid nc all k fs /\ (nc = true -> h_opcode h <> 8).
Proof.
  intros H Hb. destruct H; [exists fs; auto| | | | | | | | | |]; try (now inversion Hb).
  exfalso. destruct H1 as [[E|[E|[E|[E|[E|[E|[]]]]]]] _]; rewrite <- E in *; try discriminate H2; inversion Hb.
Qed.
(** What a callback's coroutine may still do. *)
Definition okc (c : code S) (K : list cor) : Prop := (boundary K /\ K <> [] /\ every loose sends_or_listens c) \/ every false only_sends c.
Inductive cur (A : bytes) (T : list obs) : oconf S -> Prop :=
| cur_hear s h sh K w : at_ A T h sh K (w_sock w) -> cur A T (OConf s None (Conf h sh K w))
| cur_run s d freed h sh K w : at_ A T h sh K (w_sock w) -> okc (told_now (Some d)) K -> cur A T (OConf s (Some d) (Conf h sh (CoUser [] freed :: K) w))
| cur_ask s k P freed h sh K w : at_ A T h sh K (w_sock w) -> Forall tiny P -> (forall r, okc (k r) K) ->
    cur A T (OConf s (Some (Asked k)) (Conf h sh (P ++ CoCatch :: CoUser [] freed :: K) w)).
Definition level_ok (v : level S) : Prop := exists freed K, v_stack v = CoUser [] freed :: K /\ boundary K /\ K <> [] /\ (nc = true -> h_opcode (v_hdr v) <> 8) /\
  forall r, every loose sends_or_listens (v_code v r).
Definition inv (fut : bytes) (x : rconf S) : Prop := exists A T new, okw fut A (r_world x) /\ w_log (r_world x) = log0 ++ new /\ Forall (fun e => fst e = l) new /\
  transcript new ++ T = total /\ cur A T (r_now x) /\ Forall level_ok (r_outer x).

Lemma every_mono (P Q : act -> Prop) (c : code S) t : (forall a, P a -> Q a) -> every false P c -> every t Q c.
Proof. intros H. induction c; cbn; auto; [discriminate|intros [H1 H2]; auto]. Qed.
(** An ended nested listening. *)
Definition ended (st : status) : Prop := st = ADone \/ exists e, st = AFail e.
Lemma back_inv fut outer st s d h sh w A T new : ended st -> Forall level_ok outer -> okw fut A w -> w_log w = log0 ++ new -> Forall (fun e => fst e = l) new ->
  transcript new ++ T = total -> (exists fs, A = wires fs /\ T = frames_shown fs /\ valid nc all (w_sock w) fs) -> d = None -> (outer = [] -> nc = false) ->
  let r := back outer (st, OConf s d (Conf h sh [] w)) in
  inv fut (snd r) /\ r_world (snd r) = w /\ ((fst r = ARun /\ outer <> []) \/ (fst r = st /\ outer = [] /\ r_outer (snd r) = [] /\ c_stack (o_conf (r_now (snd r))) = [])).
Proof.
  intros He Ho Hw Hl Hn Ht (fs & HA & HT & Hv) -> Hnc. destruct outer as [|[h' sh' K' k'] outer].
  - assert (back (@nil (level S)) (st, OConf s None (Conf h sh [] w)) = (st, RConf [] (OConf s None (Conf h sh [] w)))) as -> by (destruct st; reflexivity).
    cbn [fst snd r_now r_outer o_conf c_world c_stack]. split; [|auto 10]. exists A, T, new. cbn [r_now o_conf c_world r_outer]. do 4 (split; [assumption|]). split; [|constructor].
    constructor. rewrite HT. apply at_boundary; auto; [constructor|]. rewrite (Hnc eq_refl). discriminate.
  - inversion Ho as [|? ? Hlv Ho']; subst. destruct Hlv as (freed & K & E1 & E2 & E3 & E4 & E5). cbn [v_stack v_hdr v_code] in *. subst K'.
    assert (exists r, back (Level h' sh' (CoUser [] freed :: K) k' :: outer) (st, OConf s None (Conf h sh [] w)) =
      (ARun, RConf outer (OConf s (Some (Running (k' r))) (Conf h' sh' (CoUser [] freed :: K) w)))) as (r & ->) by (destruct He as [-> |[e ->]]; [exists Done|exists Raised]; reflexivity).
    cbn [fst snd r_now r_outer o_conf c_world c_stack]. split; [|split; [reflexivity|left; split; [reflexivity|discriminate]]].
    eexists _, _, new. cbn [r_now o_conf c_world r_outer]. do 4 (split; [eassumption|]). split; [|exact Ho'].
    constructor; [|left; cbn [told_now]; auto]. apply at_boundary; auto. intros ->. congruence.
Qed.
Lemma back_run outer st (y : oconf S) : st = ARun \/ st = AWait -> back outer (st, y) = (st, RConf outer y).
Proof. intros [-> | ->]; destruct outer as [|[]]; reflexivity. Qed.

(** One step. *)
Definition result (fut : bytes) (w0 : world) (sx : status * rconf S) : Prop := inv fut (snd sx) /\ (healthy (w_wr w0) -> healthy (w_wr (r_world (snd sx)))) /\
  match fst sx with
  | ARun => True
  | AWait => ~ healthy (w_wr w0) \/ (w_in (r_world (snd sx)) = [] /\ (fut = [] -> exists new, w_log (r_world (snd sx)) = log0 ++ new /\ Forall (fun e => fst e = l) new /\ transcript new = total))
  | AUb _ => False
  | _ => r_outer (snd sx) = [] /\ c_stack (o_conf (r_now (snd sx))) = [] /\ nc = false
  end.
Lemma inv_step fut x : inv fut x -> result fut (r_world x) (reentry_step obj x).
Proof.
  destruct x as [outer y]. intros (A & T & new & Hw & Hl & Hn & Ht & Hc & Ho). cbn [r_now r_outer] in *.
  destruct Hc as [s h sh K w Hat|s d freed h sh K w Hat Hok|s k P freed h sh K w Hat HP Hok]; cbn [o_conf c_world] in *.
  - (* the listening coroutines *)
    pose proof (at_hearers _ _ _ _ _ _ Hat) as HK.
    assert (reentry_step obj (RConf outer (OConf s None (Conf h sh K w))) = back outer (object_step obj (OConf s None (Conf h sh K w)))) as ->.
    { unfold reentry_step. cbn [r_now o_conf c_stack r_outer]. destruct K as [|[] K]; try reflexivity. }
    destruct (at_step l nc all fut A T h sh K w Hat Hw) as [(st & h' & sh' & K' & w' & A' & Est & Hw' & Hat' & Elog & Ewr & Hst)|(ev & freed & h' & sh' & K' & w' & A' & T' & Est & Hw' & Hat' & Elog & Ewr & ET & Hless & Hev)].
    + assert (object_step obj (OConf s None (Conf h sh K w)) = (st, OConf s None (Conf h' sh' K' w'))) as ->.
      { pose proof (at_hearers _ _ _ _ _ _ Hat') as HK'. unfold object_step. cbn [o_conf c_stack o_mem o_now]. rewrite Est. cbn [c_stack c_world].
        destruct K' as [|[] K']; try (destruct K as [|[] K]; try reflexivity; inversion HK as [|? ? Hx _]; destruct Hx). inversion HK' as [|? ? Hx _]. destruct Hx. }
      destruct Hst as [[-> _]|[(-> & Hi1 & Hi2 & HT)|(-> & -> & ->)]].
      * rewrite back_run by now left. split; [|split; [cbn; now rewrite Ewr|exact I]]. exists A', T, new. cbn [snd r_now o_conf c_world r_outer]. split; [exact Hw'|]. split; [congruence|]. split; [exact Hn|]. split; [exact Ht|]. split; [now constructor|exact Ho].
      * rewrite back_run by now right. split; [|split; [cbn; now rewrite Ewr|]].
        -- exists A', T, new. cbn [snd r_now o_conf c_world r_outer]. split; [exact Hw'|]. split; [congruence|]. split; [exact Hn|]. split; [exact Ht|]. split; [now constructor|exact Ho].
        -- cbn [fst snd r_now o_conf c_world]. right. split; [exact Hi2|]. intros ->. exists new. split; [congruence|]. split; [exact Hn|]. destruct Hw' as [E _]. rewrite Hi2 in E. rewrite HT, app_nil_r in Ht by exact E. exact Ht.
      * destruct (at_inv _ _ _ _ _ _ Hat' (bd_nil l)) as (fs & E1 & E2 & E3 & E4).
        assert (nc = false) as Hnc by (inversion Hat'; auto).
        destruct (back_inv fut outer ADone s None h' sh' w' A' T new) as (B1 & B2 & B3); auto; [now left|congruence|exists fs; auto|].
        split; [exact B1|]. split; [rewrite B2; cbn; now rewrite Ewr|]. destruct B3 as [[-> _]|(-> & _ & B4 & B5)]; [exact I|auto].
    + assert (object_step obj (OConf s None (Conf h sh K w)) = (ARun, OConf s (Some (Running (obj l ev))) (Conf h' sh' (CoUser [] freed :: K') w'))) as ->.
      { unfold object_step. cbn [o_conf c_stack o_mem o_now]. rewrite Est. cbn [c_stack c_world].
        assert (Nat.ltb (length (w_log w)) (length (w_log w')) = true) as Hlt by (apply Nat.ltb_lt; rewrite Elog, app_length; cbn; lia).
        destruct K as [|co K]; [specialize (Est (fun _ _ => [])); cbn in Est; discriminate Est|].
        destruct co; try (inversion HK as [|? ? Hx _]; destruct Hx); rewrite Hlt, Elog, rev_app_distr; reflexivity. }
      rewrite back_run by now left. split; [|split; [cbn; now rewrite Ewr|exact I]].
      exists A', T', (new ++ [(l, ev)]). cbn [snd r_now o_conf c_world r_outer]. split; [exact Hw'|]. split; [now rewrite Elog, Hl, app_assoc|]. split; [apply Forall_app; split; [exact Hn|constructor; [reflexivity|constructor]]|].
      split; [rewrite transcript_app, <- app_assoc, <- Ht, ET; unfold transcript at 2; cbn [flat_map snd]; now rewrite app_nil_r|]. split; [|exact Ho].
      constructor; [exact Hat'|]. cbn [told_now]. specialize (Hobj l ev). destruct ev; [right; exact Hobj| | | |]; (left; destruct Hev; auto).
  - (* a callback's coroutine *)
    pose proof (at_hearers _ _ _ _ _ _ Hat) as HK.
    unfold reentry_step. cbn [r_now o_conf c_stack r_outer o_now o_mem]. destruct (settle (told_now (Some d)) s) as [s' t] eqn:Es.
    assert (forall t0 (P : act -> Prop) a k, every t0 P (told_now (Some d)) -> t = TDo a k -> P a /\ forall r, every t0 P (k r)) as Hev.
    { intros t0 P a k He ->. eapply settle_every; eassumption. }
    destruct t as [| |a k].
    + unfold object_step, object_user. cbn [o_conf c_stack o_mem o_now c_hdr c_short c_world]. rewrite Es. rewrite back_run by now left. split; [|split; [auto|exact I]].
      exists A, T, new. cbn [snd r_now o_conf c_world r_outer]. do 4 (split; [assumption|]). split; [now constructor|exact Ho].
    + assert (loose = true /\ boundary K) as [Hlo Hb].
      { assert (forall t0 P, every t0 P (told_now (Some d)) -> t0 = true) as Hth by (intros t0 P He; now apply (settle_throw t0 P (told_now (Some d)) s s')).
        destruct Hok as [(B1 & B2 & B3)|B3]; [split; [now apply Hth in B3|exact B1]|apply Hth in B3; discriminate]. }
      unfold object_step, object_user. cbn [o_conf c_stack o_mem o_now c_hdr c_short c_world]. rewrite Es, (fail_hearers _ _ _ _ _ HK).
      assert (nc = false) as Hnc by (destruct nc; [rewrite Hnl in Hlo by reflexivity; discriminate|reflexivity]).
      destruct (at_inv _ _ _ _ _ _ Hat Hb) as (fs & E1 & E2 & E3 & E4).
      destruct (back_inv fut outer (AFail ExListener) s' None h sh w A T new) as (B1 & B2 & B3); auto; [right; eexists; reflexivity|exists fs; auto|].
      split; [exact B1|]. split; [rewrite B2; auto|]. destruct B3 as [[-> _]|(-> & _ & B4 & B5)]; [exact I|auto].
    + assert (sends_or_listens a) as Ha. { destruct Hok as [(_ & _ & B)|B]; [now apply (Hev _ _ _ _ B eq_refl)|]. destruct (Hev _ _ _ _ B eq_refl) as [Ha _]. destruct a; try contradiction; exact Ha. }
      assert (forall r, okc (k r) K) as Hk. { intros r. destruct Hok as [(B1 & B2 & B)|B]; [left|right]; [split; [exact B1|split; [exact B2|]]|]; now apply (Hev _ _ _ _ B eq_refl). }
      destruct a; try contradiction.
      * unfold object_step, object_user. cbn [o_conf c_stack o_mem o_now c_hdr c_short c_world]. rewrite Es. rewrite back_run by now left. split; [|split; [auto|exact I]].
        exists A, T, new. cbn [snd r_now o_conf c_world r_outer]. do 4 (split; [assumption|]). split; [|exact Ho].
        apply (cur_ask A T s' k [start_send op]); [exact Hat| |exact Hk]. constructor; [|constructor]. now apply start_tiny.
      * (* listenAsync *) assert (boundary K /\ K <> [] /\ forall r, every loose sends_or_listens (k r)) as (Hb & Hne & Hkr).
        { destruct Hok as [(B1 & B2 & B)|B]; [split; [exact B1|split; [exact B2|]]; now apply (Hev _ _ _ _ B eq_refl)|]. destruct (Hev _ _ _ _ B eq_refl) as [[] _]. }
        destruct (at_inv _ _ _ _ _ _ Hat Hb) as (fs & E1 & E2 & E3 & E4).
        cbn [c_hdr c_short c_world]. split; [|split; [auto|exact I]]. exists A, T, new. cbn [snd r_now o_conf c_world r_outer start_listen]. do 4 (split; [assumption|]). split.
        -- constructor. rewrite E2. apply at_boundary; auto; [constructor|discriminate|discriminate].
        -- constructor; [|exact Ho]. exists freed, K. cbn [v_stack v_hdr v_code]. auto.
  - (* a sending coroutine *)
    destruct P as [|co P].
    + unfold reentry_step. cbn [app r_now o_conf c_stack r_outer]. unfold object_step. cbn [o_conf c_stack o_mem o_now c_hdr c_short c_world]. rewrite back_run by now left. split; [|split; [auto|exact I]].
      exists A, T, new. cbn [snd r_now o_conf c_world r_outer]. do 4 (split; [assumption|]). split; [|exact Ho]. constructor; [exact Hat|apply Hok].
    + inversion HP as [|? ? Hco HP']; subst. cbn [app].
      assert (reentry_step obj (RConf outer (OConf s (Some (Asked k)) (Conf h sh (co :: P ++ CoCatch :: CoUser [] freed :: K) w))) =
        back outer (object_step obj (OConf s (Some (Asked k)) (Conf h sh (co :: P ++ CoCatch :: CoUser [] freed :: K) w)))) as ->.
      { unfold reentry_step. cbn [r_now o_conf c_stack r_outer]. destruct co; try (now destruct Hco); reflexivity. }
      destruct (step_tiny co h sh w Hco) as (w' & G1 & G2 & G3 & G4 & [(st & Q & HQ & Hst & Hst2)|(e & Hst & Hun)]).
      * assert (object_step obj (OConf s (Some (Asked k)) (Conf h sh (co :: P ++ CoCatch :: CoUser [] freed :: K) w)) =
          (st, OConf s (Some (Asked k)) (Conf h sh ((Q ++ P) ++ CoCatch :: CoUser [] freed :: K) w'))) as ->.
        { unfold object_step. cbn [o_conf c_stack o_mem o_now]. destruct co; try (now destruct Hco); rewrite Hst, app_assoc; cbn [c_stack c_world o_conf]; rewrite G3, Nat.ltb_irrefl;
            (destruct ((Q ++ P) ++ CoCatch :: CoUser [] freed :: K) as [|[] ?]; try reflexivity; destruct (List.rev (w_log w)) as [|[] ?]; reflexivity). }
        rewrite back_run by (destruct Hst2 as [[-> _]|[-> _]]; auto). split; [|split; [exact G4|]].
        -- exists A, T, new. cbn [snd r_now o_conf c_world r_outer]. split; [unfold ProofAsyncReentry.okw; rewrite G1, G2; exact Hw|]. split; [now rewrite G3|]. split; [exact Hn|]. split; [exact Ht|]. split; [|exact Ho].
           apply cur_ask; [now rewrite G2|now apply Forall_app|exact Hok].
        -- cbn [fst]. destruct Hst2 as [[-> _]|[-> Hun]]; [exact I|now left].
      * assert (object_step obj (OConf s (Some (Asked k)) (Conf h sh (co :: P ++ CoCatch :: CoUser [] freed :: K) w)) =
          (ARun, OConf s (Some (Asked k)) (Conf h sh (CoUser [] freed :: K) w'))) as ->.
        { assert (fail e (Conf h sh (P ++ CoCatch :: CoUser [] freed :: K) w') = (ARun, Conf h sh (CoUser [] freed :: K) w')) as Hf.
          { unfold fail. cbn [c_stack c_hdr c_short c_world]. rewrite unwind_tiny by assumption. reflexivity. }
          unfold object_step. cbn [o_conf c_stack o_mem o_now]. destruct co; try (now destruct Hco); rewrite Hst, Hf; cbn [c_stack c_world o_conf]; rewrite G3, Nat.ltb_irrefl;
            destruct (List.rev (w_log w)) as [|[] ?]; reflexivity. }
        rewrite back_run by now left. split; [|split; [exact G4|exact I]].
        exists A, T, new. cbn [snd r_now o_conf c_world r_outer]. split; [unfold ProofAsyncReentry.okw; rewrite G1, G2; exact Hw|]. split; [now rewrite G3|]. split; [exact Hn|]. split; [exact Ht|]. split; [|exact Ho].
        constructor; [now rewrite G2|apply Hok].
Qed.

Lemma bytes_more a b : bytes_of (a ++ b) = bytes_of a ++ bytes_of b.
Proof. induction a as [|[d ds|e|e] r IH]; cbn [app bytes_of]; [reflexivity| |exact IH|exact IH]. now rewrite IH, app_assoc. Qed.
Lemma inv_arrive fut a x : clean a -> inv (bytes_of a ++ fut) x -> inv fut (reentry_arrive a x).
Proof.
  intros Ha (A & T & new & Hw & Hl & Hn & Ht & Hc & Ho). exists A, T, new. unfold reentry_arrive, arrive. cbn [r_now r_outer o_conf c_world].
  split; [|split; [exact Hl|]; split; [exact Hn|]; split; [exact Ht|]; split; [|exact Ho]].
  - destruct Hw as (E & H1 & H2). split; [cbn [w_in set_in]; rewrite bytes_more, <- app_assoc; exact E|]. split; [apply Forall_app; now split|exact H2].
  - destruct Hc; cbn [o_mem o_now o_conf c_hdr c_short c_stack c_world]; now constructor.
Qed.
Definition final (st : status) (x : rconf S) : Prop :=
  match st with
  | ARun | AWait => True
  | AUb _ => False
  | _ => r_outer x = [] /\ c_stack (o_conf (r_now x)) = [] /\ nc = false
  end.
Lemma inv_run evs : forall fut st x, clean (arrivals evs) -> inv (bytes_of (arrivals evs) ++ fut) x -> final st x ->
  inv fut (snd (reentry_run obj evs (st, x))) /\ final (fst (reentry_run obj evs (st, x))) (snd (reentry_run obj evs (st, x))) /\
  (healthy (w_wr (r_world x)) -> healthy (w_wr (r_world (snd (reentry_run obj evs (st, x)))))).
Proof.
  induction evs as [|[|a] r IH]; intros fut st x Hc Hi Hf.
  - cbn in *. auto.
  - cbn [reentry_run arrivals] in *. unfold reentry_tick.
    assert (forall st, match st with ARun | AWait => False | _ => True end -> final st x -> inv fut (snd (reentry_run obj r (st, x))) /\ final (fst (reentry_run obj r (st, x))) (snd (reentry_run obj r (st, x))) /\
      (healthy (w_wr (r_world x)) -> healthy (w_wr (r_world (snd (reentry_run obj r (st, x))))))) as Hstop by (intros; now apply IH).
    destruct st; try (now apply Hstop); destruct (inv_step _ x Hi) as (H1 & H2 & H3); destruct (reentry_step obj x) as [st' x']; cbn [fst snd] in *;
      (destruct (IH fut st' x' Hc H1) as (G1 & G2 & G3); [destruct st'; auto|]); auto.
  - cbn [reentry_run arrivals fst snd] in *. apply Forall_app in Hc as [Hc1 Hc2]. rewrite bytes_more, <- app_assoc in Hi.
    destruct (IH fut st (reentry_arrive a x) Hc2) as (G1 & G2 & G3); [now apply inv_arrive|destruct st; exact Hf|]. auto.
Qed.
Lemma inv_start fut s w : log0 = w_log w -> clean (w_in w) -> (0 < s_buf (w_sock w))%Z -> last_ok (w_sock w) -> s_listener (w_sock w) = Some l ->
  bytes_of (w_in w) ++ fut = wires all -> readable (open_of (w_sock w)) all = true -> (nc = true -> no_close all) -> inv fut (reentry_start s w).
Proof.
  intros El H1 H2 H3 H4 H5 H6 H7. exists (wires all), total, []. cbn [reentry_start r_now object_start o_conf start_listen c_world r_outer].
  split; [split; [now symmetry|]; split; [exact H1|now split]|]. split; [now rewrite app_nil_r|]. split; [constructor|]. split; [reflexivity|]. split; [|constructor].
  constructor. apply at_boundary; auto; [constructor| |discriminate|discriminate]. split; [exact H6|]. split; [exact H7|]. now exists [].
Qed.

Lemma reentry_run_app a : forall b sx, reentry_run obj (a ++ b) sx = reentry_run obj b (reentry_run obj a sx).
Proof. induction a as [|[|s] r IH]; intros b sx; cbn [app reentry_run]; auto. Qed.

(** * However deep the callbacks listen, they come to an end *)
Hypothesis Hncf : nc = false.
Inductive ends : rconf S -> Prop :=
| en_stop x st y : reentry_step obj x = (st, y) -> st <> ARun -> ends x
| en_run x y : reentry_step obj x = (ARun, y) -> ends y -> ends x.
Definition goes (sx : status * rconf S) : Prop := fst sx = ARun -> ends (snd sx).
Lemma goes_ends x : goes (reentry_step obj x) -> ends x.
Proof. intros H. destruct (reentry_step obj x) as [st y] eqn:E. destruct st; try (eapply en_stop; [exact E|discriminate]). eapply en_run; [exact E|]. now apply H. Qed.
Definition resumes (outer : list (level S)) (sz : nat) : Prop := forall st s h sh w fut fs, ended st -> okw fut (wires fs) w -> valid nc all (w_sock w) fs -> healthy (w_wr w) ->
  (script_size (w_in w) <= sz)%nat -> goes (back outer (st, OConf s None (Conf h sh [] w))).
Lemma resumes_le outer a b : (a <= b)%nat -> resumes outer b -> resumes outer a.
Proof. intros Hle H st s h sh w fut fs H1 H2 H3 H4 H5. eapply H; eauto. lia. Qed.
Definition lower (w : world) (K : list cor) (sz rk : nat) : Prop := (script_size (w_in w) < sz \/ (script_size (w_in w) = sz /\ rank K < rk))%nat.
Definition below (sz rk : nat) : Prop := forall outer s A T h sh K w fut, at_ A T h sh K (w_sock w) -> okw fut A w -> healthy (w_wr w) -> resumes outer (script_size (w_in w)) ->
  lower w K sz rk -> ends (RConf outer (OConf s None (Conf h sh K w))).

Lemma asked_ends : forall n outer s k P freed h sh K w, Forall tiny P -> healthy (w_wr w) -> (length (w_wr w) + works P <= n)%nat ->
  (forall w', w_in w' = w_in w -> w_sock w' = w_sock w -> healthy (w_wr w') -> ends (RConf outer (OConf s (Some (Running (k Done))) (Conf h sh (CoUser [] freed :: K) w')))) ->
  ends (RConf outer (OConf s (Some (Asked k)) (Conf h sh (P ++ CoCatch :: CoUser [] freed :: K) w))).
Proof.
  induction n as [n IH] using (well_founded_induction lt_wf). intros outer s k P freed h sh K w HP Hh Hn Hk.
  destruct P as [|co P].
  - eapply en_run; [|apply (Hk w); auto]. unfold reentry_step. cbn [app r_now o_conf c_stack r_outer]. unfold object_step. cbn [o_conf c_stack o_mem o_now c_hdr c_short c_world]. now rewrite back_run by now left.
  - inversion HP as [|? ? Hco HP']; subst. cbn [app].
    destruct (step_tiny co h sh w Hco) as (w' & G1 & G2 & G3 & G4 & [(st & Q & HQ & Hst & Hst2)|(e & Hst & Hun)]); [|contradiction].
    destruct Hst2 as [[-> Hlt]|[_ Hun]]; [|contradiction]. specialize (Hlt Hh).
    eapply en_run with (y := RConf outer (OConf s (Some (Asked k)) (Conf h sh ((Q ++ P) ++ CoCatch :: CoUser [] freed :: K) w'))).
    + unfold reentry_step. cbn [r_now o_conf c_stack r_outer].
      assert (object_step obj (OConf s (Some (Asked k)) (Conf h sh (co :: P ++ CoCatch :: CoUser [] freed :: K) w)) =
          (ARun, OConf s (Some (Asked k)) (Conf h sh ((Q ++ P) ++ CoCatch :: CoUser [] freed :: K) w'))) as Eo.
      { unfold object_step. cbn [o_conf c_stack o_mem o_now]. destruct co; try (now destruct Hco); rewrite Hst, app_assoc; cbn [c_stack c_world o_conf]; rewrite G3, Nat.ltb_irrefl;
          (destruct ((Q ++ P) ++ CoCatch :: CoUser [] freed :: K) as [|[] ?]; try reflexivity; destruct (List.rev (w_log w)) as [|[] ?]; reflexivity). }
      rewrite Eo, back_run by now left. destruct co; try (now destruct Hco); reflexivity.
    + change (co :: P) with ([co] ++ P) in Hn. rewrite works_app in Hn. unfold works at 1 in Hn. cbn [map list_sum fold_right] in Hn.
      apply (IH (length (w_wr w') + works (Q ++ P))%nat); [rewrite works_app; lia|now apply Forall_app|now apply G4|lia|]. intros w2 E1 E2 E3. apply Hk; congruence.
Qed.
Lemma same_settle outer s1 s2 d1 d2 freed h sh K w : settle (told_now (Some d1)) s1 = settle (told_now (Some d2)) s2 ->
  reentry_step obj (RConf outer (OConf s1 (Some d1) (Conf h sh (CoUser [] freed :: K) w))) = reentry_step obj (RConf outer (OConf s2 (Some d2) (Conf h sh (CoUser [] freed :: K) w))).
Proof.
  intros E. unfold reentry_step. cbn [r_now o_conf c_stack r_outer o_now o_mem c_hdr c_short c_world]. unfold object_step, object_user. cbn [o_conf c_stack o_mem o_now c_hdr c_short c_world]. now rewrite E.
Qed.
Lemma ends_same x y : reentry_step obj x = reentry_step obj y -> ends y -> ends x.
Proof. intros E H. destruct H as [y st z H Hs|y z H H2]; [eapply en_stop; [|exact Hs]|eapply en_run; [|exact H2]]; rewrite E; exact H. Qed.
Lemma code_ends sz rk : below sz rk -> forall c outer s d A T freed h sh K w fut, at_ A T h sh K (w_sock w) -> okw fut A w -> healthy (w_wr w) -> resumes outer (script_size (w_in w)) ->
  lower w K sz rk -> told_now (Some d) = c -> okc c K -> ends (RConf outer (OConf s (Some d) (Conf h sh (CoUser [] freed :: K) w))).
Proof.
  intros Hb c. induction c as [| |k IH|s1 k IH|a k IH]; intros outer s d A T freed h sh K w fut Hat Hw Hh Hre Hlo Hd Hok.
  - eapply en_run; [|eapply (Hb outer s); eassumption].
    unfold reentry_step. cbn [r_now o_conf c_stack r_outer o_now o_mem]. rewrite Hd. cbn [settle]. unfold object_step, object_user. cbn [o_conf c_stack o_mem o_now c_hdr c_short c_world]. rewrite Hd. cbn [settle]. now rewrite back_run by now left.
  - destruct Hok as [(Hbd & _ & _)|H]; [|discriminate H]. destruct (at_inv _ _ _ _ _ _ Hat Hbd) as (fs & E1 & E2 & E3 & E4).
    apply goes_ends. unfold reentry_step. cbn [r_now o_conf c_stack r_outer o_now o_mem]. rewrite Hd. cbn [settle]. unfold object_step, object_user. cbn [o_conf c_stack o_mem o_now c_hdr c_short c_world]. rewrite Hd. cbn [settle].
    rewrite (fail_hearers _ _ _ _ _ (boundary_hearers _ Hbd)). eapply Hre with (fs := fs); [right; eexists; reflexivity|rewrite <- E1; exact Hw|exact E3|exact Hh|apply Nat.le_refl].
  - eapply ends_same; [apply (same_settle outer s s d (Running (k s))); rewrite Hd; reflexivity|].
    eapply IH; try eassumption; [reflexivity|]. destruct Hok as [(B1 & B2 & B)|B]; [left|right]; [split; [exact B1|split; [exact B2|]]|]; apply B.
  - eapply ends_same; [apply (same_settle outer s s1 d (Running k)); rewrite Hd; reflexivity|].
    eapply IH; try eassumption; reflexivity.
  - destruct a; try (exfalso; destruct Hok as [(_ & _ & [H _])|[H _]]; exact H).
    + eapply en_run with (y := RConf outer (OConf s (Some (Asked k)) (Conf h sh ([start_send op] ++ CoCatch :: CoUser [] freed :: K) w))).
      * unfold reentry_step. cbn [r_now o_conf c_stack r_outer o_now o_mem]. rewrite Hd. cbn [settle]. unfold object_step, object_user. cbn [o_conf c_stack o_mem o_now c_hdr c_short c_world]. rewrite Hd. cbn [settle]. now rewrite back_run by now left.
      * assert (lenN (req_payload op) < 2 ^ 31) as Hop by (destruct Hok as [(_ & _ & [H _])|[H _]]; exact H).
        eapply asked_ends; [constructor; [now apply start_tiny|constructor]|exact Hh|apply Nat.le_refl|]. intros w' E1 E2 E3.
        eapply (IH Done) with (A := A) (fut := fut); [rewrite E2; exact Hat|unfold ProofAsyncReentry.okw; rewrite E1, E2; exact Hw|exact E3|now rewrite E1|unfold lower; rewrite E1; exact Hlo|reflexivity|].
        destruct Hok as [(B1 & B2 & B)|B]; [left|right]; [split; [exact B1|split; [exact B2|]]|]; apply B.
    + assert (boundary K /\ K <> [] /\ forall r, every loose sends_or_listens (k r)) as (Hbd & Hne & Hkr) by (destruct Hok as [(B1 & B2 & [_ B])|[[] _]]; auto).
      destruct (at_inv _ _ _ _ _ _ Hat Hbd) as (fs & E1 & E2 & E3 & E4).
      eapply en_run with (y := RConf (Level h sh (CoUser [] freed :: K) k :: outer) (OConf s None (start_listen w))).
      * unfold reentry_step. cbn [r_now o_conf c_stack r_outer o_now o_mem c_hdr c_short c_world]. rewrite Hd. reflexivity.
      * unfold start_listen. eapply Hb with (A := A) (fut := fut); [|exact Hw|exact Hh| |].
        -- apply at_boundary with (fs := fs); auto; solve [constructor | discriminate].
        -- intros st s2 h2 sh2 w2 fut2 fs2 He Hw2 Hv2 Hh2 Hs2 _.
           assert (exists r, back (Level h sh (CoUser [] freed :: K) k :: outer) (st, OConf s2 None (Conf h2 sh2 [] w2)) =
             (ARun, RConf outer (OConf s2 (Some (Running (k r))) (Conf h sh (CoUser [] freed :: K) w2)))) as (r & ->) by (destruct He as [-> |[e ->]]; [exists Done|exists Raised]; reflexivity).
           cbn [snd]. eapply (IH r) with (A := wires fs2); [apply at_boundary with (fs := fs2); auto; intros; congruence|exact Hw2|exact Hh2|eapply resumes_le; eassumption| |reflexivity|left; auto].
           unfold lower in *. lia.
        -- unfold lower in *. destruct Hlo as [Hlo|[Hlo Hr]]; [now left|right]. split; [exact Hlo|]. destruct Hbd; cbn [rank] in *; [congruence| | |]; lia.
Qed.
Lemma hear_ends sz rk : below sz rk.
Proof.
  revert rk. induction sz as [sz IHs] using (well_founded_induction lt_wf). induction rk as [rk IHr] using (well_founded_induction lt_wf).
  intros outer s A T h sh K w fut Hat Hw Hh Hre Hlt. unfold lower in Hlt.
  destruct (Nat.lt_ge_cases (script_size (w_in w)) sz) as [Hs|Hs]; [eapply (IHs _ Hs (Datatypes.S (rank K))); try eassumption; right; auto|].
  destruct Hlt as [Hlt|[Hsz HrK]]; [lia|].
  assert (below sz (rank K)) as Hb by (apply IHr; exact HrK).
  assert (forall w' K', less w' K' w K -> lower w' K' sz (rank K)) as Hls.
  { intros w' K' [H|[H1 H2]]; unfold lower; [left; lia|right; rewrite H1; auto]. }
  assert (forall w' K', less w' K' w K -> resumes outer (script_size (w_in w'))) as Hres.
  { intros w' K' [H|[H1 H2]]; (eapply resumes_le; [|exact Hre]); [lia|now rewrite H1]. }
  pose proof (at_hearers _ _ _ _ _ _ Hat) as HK.
  assert (reentry_step obj (RConf outer (OConf s None (Conf h sh K w))) = back outer (object_step obj (OConf s None (Conf h sh K w)))) as Er.
  { unfold reentry_step. cbn [r_now o_conf c_stack r_outer]. destruct K as [|[] K]; reflexivity. }
  destruct (at_step l nc all fut A T h sh K w Hat Hw) as [(st & h' & sh' & K' & w' & A' & Est & Hw' & Hat' & Elog & Ewr & Hst)|(ev & freed & h' & sh' & K' & w' & A' & T' & Est & Hw' & Hat' & Elog & Ewr & ET & Hless & Hev)].
  - assert (object_step obj (OConf s None (Conf h sh K w)) = (st, OConf s None (Conf h' sh' K' w'))) as Eo.
    { pose proof (at_hearers _ _ _ _ _ _ Hat') as HK'. unfold object_step. cbn [o_conf c_stack o_mem o_now]. rewrite Est. cbn [c_stack c_world].
      destruct K' as [|[] K']; try (destruct K as [|[] K]; try reflexivity; inversion HK as [|? ? Hx _]; destruct Hx). inversion HK' as [|? ? Hx _]. destruct Hx. }
    rewrite Eo in Er. destruct Hst as [[-> Hless]|[(-> & _)|(-> & -> & ->)]].
    + rewrite back_run in Er by now left. eapply en_run; [exact Er|]. eapply Hb; [exact Hat'|exact Hw'|now rewrite Ewr|now apply (Hres _ _ Hless)|now apply Hls].
    + rewrite back_run in Er by now right. eapply en_stop; [exact Er|discriminate].
    + specialize (Est (fun _ _ => [])). cbn in Est. assert (w' = w) as -> by congruence.
      destruct (at_inv _ _ _ _ _ _ Hat' (bd_nil l)) as (fs & E1 & E2 & E3 & E4). apply goes_ends. rewrite Er. eapply Hre with (fs := fs); [now left|rewrite <- E1; exact Hw'|exact E3|exact Hh|apply Nat.le_refl].
  - assert (object_step obj (OConf s None (Conf h sh K w)) = (ARun, OConf s (Some (Running (obj l ev))) (Conf h' sh' (CoUser [] freed :: K') w'))) as Eo.
    { unfold object_step. cbn [o_conf c_stack o_mem o_now]. rewrite Est. cbn [c_stack c_world].
      assert (Nat.ltb (length (w_log w)) (length (w_log w')) = true) as Hlt by (apply Nat.ltb_lt; rewrite Elog, app_length; cbn; lia).
      destruct K as [|co K]; [specialize (Est (fun _ _ => [])); cbn in Est; discriminate Est|].
      destruct co; try (inversion HK as [|? ? Hx _]; destruct Hx); rewrite Hlt, Elog, rev_app_distr; reflexivity. }
    rewrite Eo, back_run in Er by now left. eapply en_run; [exact Er|].
    assert (okc (obj l ev) K') as Hok by (specialize (Hobj l ev); destruct ev; [right; exact Hobj| | | |]; (left; destruct Hev; auto)).
    eapply (code_ends sz (rank K)); [exact Hb|exact Hat'|exact Hw'|now rewrite Ewr|now apply (Hres _ _ Hless)|now apply Hls|reflexivity|exact Hok].
Qed.
Lemma levels_resume sz : forall outer, Forall level_ok outer -> resumes outer sz.
Proof.
  induction 1 as [|[h0 sh0 K0 k] outer Hlv Ho IH]; intros st s h sh w fut fs He Hw Hv Hh Hsz.
  - unfold goes. assert (back (@nil (level S)) (st, OConf s None (Conf h sh [] w)) = (st, RConf [] (OConf s None (Conf h sh [] w)))) as -> by (destruct st; reflexivity).
    cbn [fst]. intros ->. destruct He as [He|[e He]]; discriminate He.
  - destruct Hlv as (freed & K & E1 & E2 & E3 & E4 & E5). cbn [v_stack v_hdr v_code] in *. subst K0.
    assert (exists r, back (Level h0 sh0 (CoUser [] freed :: K) k :: outer) (st, OConf s None (Conf h sh [] w)) =
      (ARun, RConf outer (OConf s (Some (Running (k r))) (Conf h0 sh0 (CoUser [] freed :: K) w)))) as (r & ->) by (destruct He as [-> |[e ->]]; [exists Done|exists Raised]; reflexivity).
    intros _. cbn [snd]. eapply (code_ends (script_size (w_in w)) (Datatypes.S (rank K))) with (A := wires fs); [apply hear_ends|apply at_boundary with (fs := fs); auto; intros; congruence|exact Hw|exact Hh|eapply resumes_le; eassumption| |reflexivity|left; cbn; auto].
    right. auto.
Qed.
Lemma inv_ends fut x : inv fut x -> healthy (w_wr (r_world x)) -> ends x.
Proof.
  destruct x as [outer y]. intros (A & T & new & Hw & Hl & Hn & Ht & Hc & Ho) Hh. cbn [r_now r_outer] in *.
  destruct Hc as [s h sh K w Hat|s d freed h sh K w Hat Hok|s k P freed h sh K w Hat HP Hok]; cbn [o_conf c_world] in *.
  - eapply (hear_ends _ (Datatypes.S (rank K))); try eassumption; [now apply levels_resume|]. right. auto.
  - eapply (code_ends (script_size (w_in w)) (Datatypes.S (rank K))); [apply hear_ends|exact Hat|exact Hw|exact Hh|now apply levels_resume|right; auto|reflexivity|exact Hok].
  - eapply asked_ends; [exact HP|exact Hh|apply Nat.le_refl|]. intros w' E1 E2 E3.
    eapply (code_ends (script_size (w_in w')) (Datatypes.S (rank K))) with (A := A) (fut := fut); [apply hear_ends|rewrite E2; exact Hat|unfold ProofAsyncReentry.okw; rewrite E1, E2; exact Hw|exact E3|now apply levels_resume|right; auto|reflexivity|apply Hok].
Qed.
Lemma ends_ticks x : ends x -> forall st, st = ARun \/ st = AWait -> exists n, fst (reentry_run obj (ticks n ++ [Tick]) (st, x)) <> ARun.
Proof.
  induction 1 as [x st' y E Hs|x y E H IH]; intros st Hst.
  - exists O. cbn [ticks app reentry_run]. destruct Hst as [-> | ->]; cbn [reentry_tick]; rewrite E; exact Hs.
  - destruct (IH ARun (or_introl eq_refl)) as [n Hn]. exists (Datatypes.S n). cbn [ticks app reentry_run]. destruct Hst as [-> | ->]; cbn [reentry_tick]; rewrite E; exact Hn.
Qed.
End Obj.
