(** C98: listeners with fields and control flow. *)
From Verif Require Import Bytes Frame World WebSocket Object SpecFrame SpecSend SpecListen SpecApi SpecAsync SpecReply SpecAccept SpecInterop SpecObject
  ProofQuit ProofObject PropListen PropListen2 PropReply PropInterop PropSafe.
From Coq Require Import Lia PeanoNat ZifyBool ZifyN.
Local Open Scope N_scope.
Local Arguments lenN : simpl never.

(** Whatever the listener objects remember and however they decide, as long as they do not listen themselves: the run is the run of listeners
    whose commands depend on the history of calls only, and which issue no other commands. So every theorem about all such listeners holds for objects. *)
Theorem C98_listen : forall S t (P : act -> Prop) (obj : object S) s w o s' w', (forall a, P a -> calm a) -> every_call t P obj ->
  listen_object obj (s, w) = (o, (s', w')) ->
  exists react, listen react w = (o, w') /\ forall l log, Forall (issued t P) (react l log).
Proof.
  intros S t P obj s w o s' w' Hc Ho E. unfold listen_object, depth_of in E. cbn [snd] in E.
  destruct (sim_listen t P Hc obj Ho _ _ _ _ _ _ E) as (_ & frag & F & H). exists (by_count frag). split; [apply H; auto|]. intros l log. apply F.
Qed.
Print Assumptions C98_listen.
Theorem C98_iterate : forall S t (P : act -> Prop) (obj : object S) h s w o s' w', (forall a, P a -> calm a) -> every_call t P obj ->
  iterate_object obj h (s, w) = (o, (s', w')) ->
  exists react, iterateFrame react h w = (o, w') /\ forall l log, Forall (issued t P) (react l log).
Proof.
  intros S t P obj h s w o s' w' Hc Ho E. unfold iterate_object, depth_of in E. cbn [snd] in E.
  destruct (sim_iterate t P Hc obj Ho _ _ _ _ _ _ _ E) as (_ & frag & F & H). exists (by_count frag). split; [apply H; auto|]. intros l log. apply F.
Qed.
Print Assumptions C98_iterate.

(** * Consequences *)
Lemma sends_only_good (react : react_t) : (forall l log, Forall (issued false sends_only) (react l log)) -> polite_react react /\ never_stops react.
Proof.
  intros H. split; intros l log; specialize (H l log).
  - eapply Forall_impl; [|exact H]. intros c [[_ [=]]|(a & Pa & Ca)]. destruct a; cbn in Pa, Ca; try contradiction; subst; cbn; auto. destruct Ca as [? ->]. exact Pa.
  - induction H as [|c cs [[_ [=]]|(a & Pa & Ca)] _ IH]; [reflexivity|]. cbn [existsb]. rewrite IH. destruct a; cbn in Pa, Ca; try contradiction; subst; auto. destruct Ca as [? ->]. reflexivity.
Qed.
(** Round trip (C04) to any object that only sends. *)
Theorem C98_round_trip : forall S (obj : object S) ops ws os ws' s wr or s' wr' l,
  every_call false sends_only obj ->
  healthy (w_wr ws) -> Forall plain_send ops -> Forall (fits (s_mask (w_sock ws))) ops -> send_all ops ws = (os, ws') ->
  clean (w_in wr) -> healthy (w_wr wr) -> (0 < s_buf (w_sock wr))%Z -> last_ok (w_sock wr) -> open_of (w_sock wr) = false -> s_listener (w_sock wr) = Some l ->
  w_out ws' = w_out ws ++ bytes_of (w_in wr) -> listen_object obj (s, wr) = (or, (s', wr')) ->
  os = Ret tt /\ or = Wait /\ w_in wr' = [] /\
  exists new, w_log wr' = w_log wr ++ new /\ Forall (fun e => fst e = l) new /\ transcript new = flat_map received ops.
Proof.
  intros S obj ops ws os ws' s wr or s' wr' l Ho Hh Hp Hf Es A1 A2 A3 A4 A5 A6 Hw E.
  destruct (C98_listen S false sends_only obj s wr or s' wr') as (react & EL & Hr); [intros [] H; exact H || exact Logic.I|exact Ho|exact E|].
  destruct (sends_only_good react Hr) as [G1 G2].
  exact (C04_round_trip ops ws os ws' react wr or wr' l Hh Hp Hf Es (conj A1 (conj A2 (conj G1 (conj G2 (conj A3 A4))))) A5 A6 Hw EL).
Qed.
Print Assumptions C98_round_trip.
(** The call of onClose is the last one (C12), whatever the objects send, catch, remember and throw, and whatever fails. *)
Theorem C98_close_is_last_call : forall S (obj : object S) s w o s' w',
  every_call true leaves_setup obj -> stop_only (w_in w) -> last_ok (w_sock w) ->
  listen_object obj (s, w) = (o, (s', w')) ->
  exists new, w_log w' = w_log w ++ new /\ forall n1 l c m n2, new = n1 ++ (l, EvClose c m) :: n2 -> n2 = [].
Proof.
  intros S obj s w o s' w' Ho Hs Hl E.
  destruct (C98_listen S true leaves_setup obj s w o s' w') as (react & EL & Hr); [intros [] H; exact H || exact Logic.I|exact Ho|exact E|].
  apply (C12_close_is_last_call react w o w' Hs); [|exact Hl|exact EL].
  intros l log. eapply Forall_impl; [|exact (Hr l log)]. intros c [[-> _]|(a & Pa & Ca)]; [exact Logic.I|].
  destruct a; cbn in Pa, Ca; try contradiction; subst; cbn; auto. destruct Ca as [? ->]. exact Logic.I.
Qed.
Print Assumptions C98_close_is_last_call.
(** Objects that send complete messages are never refused by a strict peer (C97), whatever arrives and whatever they do otherwise. *)
Definition tidy_act (m : bool) (a : act) : Prop :=
  match a with ASend op => tidy op /\ fits m op | ASetConfig m' _ => m' = m | AListen | AIterate => False | _ => True end.
Theorem C98_never_refused : forall S (obj : object S) s w o s' w' b,
  every_call true (tidy_act (s_mask (w_sock w))) obj -> script_ok (mask_ext (s_mask (w_sock w))) any_err (w_in w) -> healthy (w_wr w) ->
  listen_object obj (s, w) = (o, (s', w')) -> w_out w' = w_out w ++ b ->
  forall unread, snd (rfc_stream_reading (s_mask (w_sock w)) b) <> Rejected unread.
Proof.
  intros S obj s w o s' w' b Ho Hs Hh E Hb unread Hu. set (m := s_mask (w_sock w)) in *.
  destruct (C98_listen S true (tidy_act m) obj s w o s' w') as (react & EL & Hr); [intros [] H; exact H || exact Logic.I|exact Ho|exact E|].
  destruct (C97_replies_never_refused react w o w' b) as (new & _ & _ & H); [| |exact Hs|exact Hh|exact EL|exact Hb|].
  - intros l log. specialize (Hr l log). induction Hr as [|c cs [[-> _]|(a & Pa & Ca)] _ IH]; [constructor|constructor|].
    destruct a; cbn in Pa, Ca; try contradiction; subst; cbn [sends_of]; auto. destruct Ca as [? ->]. constructor; [apply Pa|exact IH].
  - intros l log. eapply Forall_impl; [|exact (Hr l log)]. intros c [[-> _]|(a & Pa & Ca)]; [exact Logic.I|].
    destruct a; cbn in Pa, Ca; try contradiction; subst; cbn; auto. destruct Ca as [? ->]. apply Pa.
  - fold m in H. rewrite Hu in H. destruct (existsb _ _); [destruct H as [? [=]]|discriminate].
Qed.
Print Assumptions C98_never_refused.

(** * Fields that are functions of the history *)
Section Field.
Context {S : Type}.
Variables (obj : object S) (react : react_t) (mem : list (nat * event) -> S).
Definition same {A} (o1 o2 : outcome A) : Prop := o1 = o2 \/ exists e1 e2, o1 = Throw e1 /\ o2 = Throw e2.
(** The code of each callback, run on the field as the history says, does the commands of [react] and updates the field as the history says. *)
Hypothesis one : forall again l ev log w o s' w', w_log w = log ++ [(l, ev)] -> exec_code S again (obj l ev) (mem log, w) = (o, (s', w')) ->
  exists o2, exec_cmds (react l (log ++ [(l, ev)])) w = (o2, w') /\ same o o2 /\ (o = Ret tt -> s' = mem (log ++ [(l, ev)])).
Definition tracks {A} (m1 : MS S A) (m2 : M A) : Prop := forall w o s' w', m1 (mem (w_log w), w) = (o, (s', w')) ->
  exists o2, m2 w = (o2, w') /\ same o o2 /\ (forall a, o = Ret a -> s' = mem (w_log w')).
Lemma tracks_bind {A B} (m1 : MS S A) m2 (f1 : A -> MS S B) f2 : tracks m1 m2 -> (forall a, tracks (f1 a) (f2 a)) -> tracks (bindS m1 f1) (bind m2 f2).
Proof.
  intros H1 H2 w o s' w' E. unfold bindS in E. destruct (m1 (mem (w_log w), w)) as [o1 [s1 w1]] eqn:E1.
  destruct (H1 _ _ _ _ E1) as (o2 & E2 & Hs & Hm). unfold bind. rewrite E2.
  destruct o1 as [a|e| |u|]; destruct Hs as [<-|(e1 & e2 & [=] & ->)];
  try (injection E as <- <- <-; eexists; split; [reflexivity|]; split; [(left; reflexivity) || (right; eauto)|discriminate]).
  rewrite (Hm a eq_refl) in E. exact (H2 a _ _ _ _ E).
Qed.
Lemma tracks_lift {A} (m : M A) : quiet m -> tracks (lift m) m.
Proof.
  intros Hq w o s' w' E. unfold lift in E. cbn [fst snd] in E. specialize (Hq w). destruct (m w) as [o1 w1] eqn:E1. cbn [snd] in Hq.
  injection E as <- <- <-. exists o1. split; [reflexivity|]. split; [now left|]. now rewrite Hq.
Qed.
Lemma tracks_if {A} (b : bool) (m1 n1 : MS S A) m2 n2 : tracks m1 m2 -> tracks n1 n2 -> tracks (if b then m1 else n1) (if b then m2 else n2).
Proof. destruct b; auto. Qed.
Lemma tracks_call d ev : tracks (call_object S obj (Datatypes.S d) ev) (notify react ev).
Proof.
  intros w o s' w' E. cbn [call_object fst snd] in E. unfold notify. destruct (s_listener (w_sock w)) as [l|].
  - destruct (one _ l ev (w_log w) (set_log w (w_log w ++ [(l, ev)])) o s' w' eq_refl E) as (o2 & E2 & Hs & Hm). exists o2. split; [exact E2|]. split; [exact Hs|].
    intros [] Ho. rewrite (Hm Ho). f_equal. pose proof (quiet_cmds (react l (w_log w ++ [(l, ev)])) (set_log w (w_log w ++ [(l, ev)]))) as Hq. rewrite E2 in Hq. symmetry. exact Hq.
  - injection E as <- <- <-. exists (Ret tt). split; [reflexivity|]. split; [now left|]. auto.
Qed.
#[local] Hint Resolve quiet_ret quiet_throw quiet_undef quiet_get quiet_sock quiet_readSimple quiet_header quiet_check quiet_oof : quietdb.
Lemma tracks_payload d fuel : forall h short alloc progress,
  tracks (payloadS S (call_object S obj (Datatypes.S d)) fuel h short alloc progress) (readPayload_loop react fuel h short alloc progress).
Proof.
  induction fuel as [|fuel IH]; intros h short alloc progress; cbn [payloadS readPayload_loop]; [apply tracks_lift; auto with quietdb|].
  apply tracks_if; [|apply tracks_lift; auto with quietdb].
  apply tracks_bind; [apply tracks_lift; auto with quietdb|]. intros w0. cbv zeta. apply tracks_bind; [apply tracks_lift; auto with quietdb|].
  intros [data|[]]; try (apply tracks_lift; auto with quietdb); [|apply IH].
  apply tracks_if; [apply tracks_lift; auto with quietdb|]. destruct short as [sh|]; [apply IH|].
  apply tracks_bind; [apply tracks_call|]. intros _. apply IH.
Qed.
Lemma tracks_readPayload d h short : tracks (readPayloadS S (call_object S obj (Datatypes.S d)) h short) (readPayload react h short).
Proof.
  unfold readPayloadS, readPayload. apply tracks_if; [apply tracks_lift; auto with quietdb|].
  apply tracks_bind; [apply tracks_lift; auto with quietdb|]. intros w0. cbv zeta. apply tracks_if; [apply tracks_lift; auto with quietdb|].
  apply tracks_bind; [apply tracks_payload|]. intros sh. apply tracks_bind; [|intros _; apply tracks_lift; auto with quietdb].
  destruct short; [apply tracks_lift; auto with quietdb|]. apply tracks_if; [apply tracks_call|apply tracks_lift; auto with quietdb].
Qed.
Lemma tracks_handle d h : tracks (handleFrameS S (call_object S obj (Datatypes.S d)) h) (handleFrame react h).
Proof.
  assert (tracks (bindS (readPayloadS S (call_object S obj (Datatypes.S d)) h None) (fun _ => lift (ret tt))) (bind (readPayload react h None) (fun _ => ret tt))) as H1.
  { apply tracks_bind; [apply tracks_readPayload|intros; apply tracks_lift; auto with quietdb]. }
  assert (forall f, tracks (bindS (readPayloadS S (call_object S obj (Datatypes.S d)) h (Some [])) (fun p => call_object S obj (Datatypes.S d) (f p)))
    (bind (readPayload react h (Some [])) (fun p => notify react (f p)))) as H2.
  { intros f. apply tracks_bind; [apply tracks_readPayload|intros; apply tracks_call]. }
  assert (tracks (bindS (lift (checkForContinuation h)) (fun ok : bool => if ok then bindS (readPayloadS S (call_object S obj (Datatypes.S d)) h None) (fun _ => lift (ret tt)) else lift (throw ExContinuationExpected)))
    (bind (checkForContinuation h) (fun ok : bool => if ok then bind (readPayload react h None) (fun _ => ret tt) else throw ExContinuationExpected))) as H3.
  { apply tracks_bind; [apply tracks_lift; auto with quietdb|]. intros []; [exact H1|apply tracks_lift; auto with quietdb]. }
  unfold handleFrameS, handleFrame.
  destruct (h_opcode h) as [|[[[[p|p|]|[p|p|]|]|[[p|p|]|[p|p|]|]|]|[[[p|p|]|[p|p|]|]|[[p|p|]|[p|p|]|]|]|]];
    first [apply tracks_lift; solve [auto with quietdb] | exact H3 | exact (H2 (fun p => EvPing (str p))) | exact (H2 (fun p => EvPong (str p)))
          | exact (H2 (fun p => EvClose (close_code (str p)) (close_reason (str p))))
          | apply tracks_bind; [apply tracks_lift; auto with quietdb|]; intros w0; destruct (_ <? 0)%Z; [apply tracks_lift; auto with quietdb|exact H1]].
Qed.
Lemma tracks_loop d fuel : forall h, tracks (loopS S (call_object S obj (Datatypes.S d)) fuel h) (listen_loop react fuel h).
Proof.
  induction fuel as [|fuel IH]; intros h; cbn [loopS listen_loop]; [apply tracks_lift; auto with quietdb|].
  apply tracks_bind; [apply tracks_lift; auto with quietdb|]. intros h'. apply tracks_bind; [apply tracks_handle|]. intros _.
  apply tracks_bind; [apply tracks_lift; auto with quietdb|]. intros w0. apply tracks_if; [apply IH|apply tracks_lift; auto with quietdb].
Qed.
(** listen() with such objects is listen() with the history function. *)
Lemma field_listen w o s' w' : listen_object obj (mem (w_log w), w) = (o, (s', w')) -> listen react w = (o, w').
Proof.
  unfold listen_object, listenS, listen, bindS, bind, lift, modify_sock, get, depth_of. cbn [fst snd]. unfold tryS, try_.
  set (w1 := set_sock w (set_listening (w_sock w) true)). change (w_log w) with (w_log w1).
  destruct (loopS S _ _ _ _) as [o1 [s1 w2]] eqn:E1. apply tracks_loop in E1. destruct E1 as (o2 & -> & Hs & _).
  destruct Hs as [<-|(e1 & e2 & -> & ->)]; [destruct o1; intros [= <- <- <-]; reflexivity|intros [= <- <- <-]; reflexivity].
Qed.
End Field.

(** A listener with a buffer (SpecObject.v) is the echo server of C50: with a peer that sends messages of at most [lim] bytes and pings, each is
    answered. *)
Lemma or_throw_cmd again op s w o s' w' : exec_code bytes again (or_throw op) (s, w) = (o, (s', w')) ->
  exists o2, exec_cmds [CSend false op] w = (o2, w') /\ same o o2 /\ s' = s.
Proof.
  unfold or_throw. cbn [exec_code perform exec_cmds exec_cmd]. unfold lift. cbn [fst snd]. intros E.
  destruct (send_reporting op w) as [o1 w1] eqn:E1.
  assert (send op w = (match o1 with Ret _ => Ret tt | Throw e => Throw e | Wait => Wait | Ub u => Ub u | OutOfFuel => OutOfFuel end, w1)) as Es.
  { destruct op; cbn [send_reporting] in E1; unfold bind in E1; try (destruct (send _ w) as [[[]|e| |u|] w2]; injection E1 as <- <-; reflexivity).
    cbn [send]. unfold bind. rewrite E1. destruct o1; reflexivity. }
  unfold bind. rewrite Es. destruct o1 as [[]|e| |u|]; injection E as <- <- <-; eexists; (split; [reflexivity|]); (split; [|reflexivity]); try (now left). right. eauto.
Qed.
Theorem C98_echo : forall lim w o s' w', w_log w = [] -> listen_object (echo_object lim) ([], w) = (o, (s', w')) -> listen (SpecReply.echo lim) w = (o, w').
Proof.
  intros lim w o s' w' Hl E. assert (collect (w_log w) = []) as Hc by (rewrite Hl; reflexivity).
  revert E. rewrite <- Hc. apply field_listen. clear. intros again l ev log w o s' w' Hlog E.
  unfold SpecReply.echo. rewrite last_last, removelast_last. cbn [snd].
  assert (collect (log ++ [(l, ev)]) = match ev with EvMsg _ d => collect log ++ d | EvEnd _ => [] | _ => collect log end) as ->
    by (unfold collect; rewrite fold_left_app; destruct ev; reflexivity).
  assert (forall s x y (f : unit) , exec_code bytes again Finish (s, x) = (y, (s', w')) -> exec_cmds [] x = (y, w') /\ s' = s) as Hfin
    by (intros s x y _ H; cbn in H; injection H as <- <- <-; split; reflexivity).
  destruct ev as [op d|op|p|p|c p]; cbn [echo_object exec_code fst snd] in E.
  - injection E as <- <- <-. exists (Ret tt). split; [reflexivity|]. split; [now left|auto].
  - assert (forall c cs, exec_code bytes again c ([], w) = (o, (s', w')) ->
      ((c = Finish /\ cs = []) \/ exists q, c = or_throw q /\ cs = [CSend false q]) ->
      exists o2, exec_cmds cs w = (o2, w') /\ same o o2 /\ (o = Ret tt -> s' = [])) as Hx.
    { intros c cs Ec [[-> ->]|(q & -> & ->)].
      - cbn in Ec. injection Ec as <- <- <-. exists (Ret tt). split; [reflexivity|]. split; [now left|auto].
      - apply or_throw_cmd in Ec. destruct Ec as (o2 & A & B & ->). eauto. }
    refine (Hx _ _ E _). destruct op as [|[[]|[]|]]; try (left; split; reflexivity);
      (destruct (lenN (collect log) <=? lim); [right; eexists; split; reflexivity|left; split; reflexivity]).
  - destruct (lenN p <=? 125); [apply or_throw_cmd in E; destruct E as (o2 & A & B & ->); eauto|].
    cbn in E. injection E as <- <- <-. exists (Ret tt). split; [reflexivity|]. split; [now left|auto].
  - injection E as <- <- <-. exists (Ret tt). split; [reflexivity|]. split; [now left|auto].
  - destruct (lenN p <=? 123); [apply or_throw_cmd in E; destruct E as (o2 & A & B & ->); eauto|].
    cbn in E. injection E as <- <- <-. exists (Ret tt). split; [reflexivity|]. split; [now left|auto].
Qed.
Print Assumptions C98_echo.

(** Conversely every history function is an object. *)
Theorem C98_histories : forall react w o s' w', listen_object (object_of react) (w_log w, w) = (o, (s', w')) -> listen react w = (o, w').
Proof.
  intros react w o s' w' E. revert E. apply (field_listen (object_of react) react (fun log => log)). clear.
  intros again l ev log w o s' w' Hlog E. unfold object_of in E. cbn [exec_code fst snd] in E.
  assert (forall cs s w, exec_code _ again (code_of cs) (s, w) = (o, (s', w')) ->
    exists o2, exec_cmds cs w = (o2, w') /\ same o o2 /\ s' = s) as H.
  { clear. induction cs as [|c cs IH]; intros s w E; cbn [code_of] in E.
    - injection E as <- <- <-. exists (Ret tt). split; [reflexivity|]. split; [now left|reflexivity].
    - assert (forall op, send op w = (match fst (send_reporting op w) with Ret _ => Ret tt | Throw e => Throw e | Wait => Wait | Ub u => Ub u | OutOfFuel => OutOfFuel end, snd (send_reporting op w))) as Es.
      { intros op. destruct op as [fin opc m|code m| |m|m|m|m]; cbn [send_reporting]; unfold bind; try (destruct (send _ w) as [[[]|e| |u|] w2]; reflexivity).
        cbn [send]. unfold bind. destruct (sendOneFrame _ _ _ w) as [[]]; reflexivity. }
      destruct c as [|x|m b|[] op| | |fin opc m]; cbn [exec_code perform] in E; unfold lift in E; cbn [fst snd] in E.
      + cbn [exec_cmds exec_cmd]. unfold bind. cbn. exact (IH _ _ E).
      + cbn [exec_cmds exec_cmd]. unfold bind. cbn. exact (IH _ _ E).
      + cbn [exec_cmds exec_cmd]. unfold bind. cbn. exact (IH _ _ E).
      + cbn [exec_cmds exec_cmd]. unfold bind, try_. rewrite Es. destruct (send_reporting op w) as [[[]|e| |u|] w1]; cbn [fst snd];
          try exact (IH _ _ E); injection E as <- <- <-; eexists; (split; [reflexivity|]); split; (now left) || reflexivity.
      + cbn [exec_cmds exec_cmd]. unfold bind. rewrite Es. destruct (send_reporting op w) as [[[]|e| |u|] w1]; cbn [fst snd];
          try exact (IH _ _ E); injection E as <- <- <-; eexists; (split; [reflexivity|]); split; try (now left); try reflexivity. right. eauto.
      + cbn [exec_cmds exec_cmd]. unfold bind. cbn. exact (IH _ _ E).
      + injection E as <- <- <-. cbn. eexists. split; [reflexivity|]. split; [now left|reflexivity].
      + cbn [exec_cmds exec_cmd send_reporting] in *. unfold demand, bind. destruct (sendOneFrame fin opc m w) as [[[]|e| |u|] w1];
          try exact (IH _ _ E); injection E as <- <- <-; eexists; (split; [reflexivity|]); split; try (now left); try reflexivity. right. eauto. }
  destruct (H _ _ _ E) as (o2 & E2 & Hs & ->). eauto.
Qed.
Print Assumptions C98_histories.

(** Three pings on a connection that takes nothing: the object catches two failures, then stops listening; the third ping is not read. *)
Example C98_nonvacuous :
  let w := World [RData x89 [x00]; RData x89 [x00]; RData x89 [x00]] [WAccept 1; WIo IoBroken; WIo IoBroken] [] (fun _ => x00) 0 []
    (Sock false 16 (Some 3%nat) (-1) false) in
  every_call true (tidy_act false) counting /\ every_call true leaves_setup counting /\
  exists w', listen_object counting (0%nat, w) = (Ret tt, (2%nat, w')) /\ w_log w' = [(3%nat, EvPing []); (3%nat, EvPing [])] /\ w_in w' = [RData x89 [x00]].
Proof.
  cbv zeta. assert (forall P : act -> Prop, (forall p, lenN p <= 125 -> P (ASend (SoPong (Some p)))) -> P AStop -> every_call true P counting) as H.
  { intros P H1 H2 l ev. destruct ev as [op d|op|p|p|c p]; cbn; auto. destruct (N.ltb_spec 125 (lenN p)); cbn; auto.
    split; [auto|]. intros []; cbn; auto. intros []; cbn; auto. }
  split; [|split].
  - apply H; [|exact Logic.I]. intros p Hp. cbn. split; [exact Hp|]. split; [|discriminate]. unfold req_payload. cbn. lia.
  - apply H; [|exact Logic.I]. intros; exact Logic.I.
  - eexists. split; [vm_compute; reflexivity|]. split; reflexivity.
Qed.

