(** Lemmas for C100: listener objects on the blocking socket as a function of the history, if writes make progress. *)
From Verif Require Import Bytes Frame World WebSocket Object SpecAsync SpecSend SpecFrame SpecListen SpecObject AsyncWebSocket AsyncObject
  ProofSend ProofHeader ProofListen ProofCodec ProofQuit ProofObject ProofAsyncObject.
From Coq Require Import Lia PeanoNat.
Local Open Scope N_scope.

Lemma send_succeeds op w : lenN (req_payload op) < 2 ^ 31 -> healthy (w_wr w) ->
  exists w', send_reporting op w = (Ret true, w') /\ exec_cmd (CSend true op) w = (Ret tt, w') /\ healthy (w_wr w') /\ w_log w' = w_log w.
Proof.
  intros Hop Hw. destruct (send op w) as [o w'] eqn:E.
  assert (exec_cmds [CSend false op] w = (o, w')) as Es by (cbn [exec_cmds exec_cmd]; unfold bind; rewrite E; destruct o as [[]| | | |]; reflexivity).
  assert (Forall polite_cmd [CSend false op]) as Hp by (constructor; [exact Hop|constructor]).
  destruct (exec_cmds_polite _ _ _ _ Hp Hw Es) as [-> _].
  pose proof (keeps_exec_cmds [CSend false op]) as K. destruct (K ltac:(constructor; [exact I|constructor]) _ _ _ Es) as [(_ & K2) _].
  destruct K2 as (K2 & _ & _ & K5 & _). exists w'. split; [|split; [cbn [exec_cmd]; unfold try_; now rewrite E|split; [now apply K5|exact K2]]].
  destruct op; cbn [send_reporting]; try (unfold bind; rewrite E; reflexivity).
  cbn [send] in E. unfold bind in E. destruct (sendOneFrame fin opcode m w) as [o2 w2] eqn:E2. 
  destruct (sendOneFrame_true fin opcode m w o2 w2) as [-> _]; try assumption; [change (lenN (msg_of m) < 2 ^ 31) in Hop; eapply N.lt_trans; [exact Hop|reflexivity]|intros _; exact Hop|].
  injection E as <-. reflexivity.
Qed.

Section Obj.
Context {S : Type}.
Variables (obj : object S) (s0 : S) (w0 : world).
Hypothesis Hobj : every_call true prudent obj.
Notation react := (history_of obj s0 (length (w_log w0))).
Definition up_to_date (s : S) (w : world) : Prop := healthy (w_wr w) /\ exists new, w_log w = w_log w0 ++ new /\ s = memory_after obj s0 new.
Definition fsim {A} (m1 : MS S A) (m2 : M A) : Prop := forall s w o s' w', up_to_date s w -> m1 (s, w) = (o, (s', w')) ->
  m2 w = (o, w') /\ match o with Ub _ | OutOfFuel => True | _ => up_to_date s' w' end.
Definition reader {A} (m : M A) : Prop := forall w, w_log (snd (m w)) = w_log w /\ w_wr (snd (m w)) = w_wr w.
Lemma fsim_bind {A B} (m1 : MS S A) m2 (f1 : A -> MS S B) f2 : fsim m1 m2 -> (forall a, fsim (f1 a) (f2 a)) -> fsim (bindS m1 f1) (bind m2 f2).
Proof.
  intros Hm Hf s w o s' w' J E. unfold bindS in E. destruct (m1 (s, w)) as [o1 [s1 w1]] eqn:E1. destruct (Hm _ _ _ _ _ J E1) as [H1 J1]. unfold bind. rewrite H1.
  destruct o1 as [a|e| |u|]; [exact (Hf a _ _ _ _ _ J1 E)| | | |]; injection E as <- <- <-; auto.
Qed.
Lemma fsim_lift {A} (m : M A) : reader m -> fsim (lift m) m.
Proof.
  intros Hq s w o s' w' J E. unfold lift in E. cbn [fst snd] in E. destruct (Hq w) as [Q1 Q2]. destruct (m w) as [o1 w1]. cbn [snd] in *. injection E as <- <- <-.
  split; [reflexivity|]. assert (up_to_date s w1) by (destruct J as (J1 & new & J2 & J3); split; [now rewrite Q2|exists new; split; [congruence|exact J3]]). now destruct o1.
Qed.
Lemma fsim_try (m1 : MS S unit) m2 : fsim m1 m2 -> fsim (tryS S m1) (try_ m2).
Proof.
  intros Hm s w o s' w' J E. unfold tryS in E. destruct (m1 (s, w)) as [o1 [s1 w1]] eqn:E1. destruct (Hm _ _ _ _ _ J E1) as [H1 J1]. unfold try_. rewrite H1.
  destruct o1; injection E as <- <- <-; auto.
Qed.
Lemma fsim_if {A} (b : bool) (m1 n1 : MS S A) m2 n2 : fsim m1 m2 -> fsim n1 n2 -> fsim (if b then m1 else n1) (if b then m2 else n2).
Proof. destruct b; auto. Qed.

Lemma code_told again c : forall s w o s' w', every true prudent c -> healthy (w_wr w) -> exec_code S again c (s, w) = (o, (s', w')) ->
  exec_cmds (fst (told c s)) w = (o, w') /\ s' = snd (told c s) /\ healthy (w_wr w') /\ w_log w' = w_log w /\ (o = Ret tt \/ o = Throw ExListener).
Proof.
  induction c as [| |k IH|s1 k IH|a k IH]; intros s w o s' w' He Hw E; cbn [every] in He; cbn [exec_code] in E; cbn [told].
  - injection E as <- <- <-. cbn. split; [reflexivity|]. split; [reflexivity|]. split; [exact Hw|]. split; [reflexivity|]. now left.
  - injection E as <- <- <-. cbn. split; [reflexivity|]. split; [reflexivity|]. split; [exact Hw|]. split; [reflexivity|]. now right.
  - cbn [fst] in E. eapply IH; eauto.
  - cbn [snd] in E. eapply IH; eauto.
  - destruct He as [Ha Hk].
    assert (forall w1 c, perform S again a (s, w) = (Ret true, (s, w1)) -> exec_cmd c w = (Ret tt, w1) -> healthy (w_wr w1) -> w_log w1 = w_log w ->
      exec_cmds (c :: fst (told (k Done) s)) w = (o, w') /\ s' = snd (told (k Done) s) /\ healthy (w_wr w') /\ w_log w' = w_log w /\ (o = Ret tt \/ o = Throw ExListener)) as Hgo.
    { intros w1 c Ep Ec H1 H2. rewrite Ep in E. destruct (IH Done _ _ _ _ _ (Hk Done) H1 E) as (X1 & X2 & X3 & X4 & X5). cbn [exec_cmds]. unfold bind. rewrite Ec.
      split; [exact X1|]. split; [exact X2|]. split; [exact X3|]. split; [congruence|exact X5]. }
    destruct (told (k Done) s) as [cs s2] eqn:Et. cbn [fst snd] in *.
    destruct a as [|l|m b|op| | |]; cbn in Ha; try contradiction; cbn [fst snd].
    + eapply Hgo; [reflexivity|reflexivity|exact Hw|reflexivity].
    + eapply Hgo; [reflexivity|reflexivity|exact Hw|reflexivity].
    + eapply Hgo; [reflexivity|reflexivity|exact Hw|reflexivity].
    + destruct (send_succeeds op w Ha Hw) as (w1 & G1 & G2 & G3 & G4). eapply (Hgo w1); [|exact G2|exact G3|exact G4]. cbn [perform]. unfold lift. cbn [fst snd]. now rewrite G1.
    + eapply Hgo; [reflexivity|reflexivity|exact Hw|reflexivity].
Qed.
Lemma fsim_call d ev : fsim (call_object S obj (Datatypes.S d) ev) (notify react ev).
Proof.
  intros s w o s' w' (J1 & new & J2 & J3) E. cbn [call_object fst snd] in E. unfold notify. destruct (s_listener (w_sock w)) as [l|] eqn:El.
  - cbv zeta in E |- *. apply code_told in E; [|apply Hobj|exact J1]. destruct E as (X1 & X2 & X3 & X4 & X5).
    change (w_log (set_log w (w_log w ++ [(l, ev)]))) with (w_log w ++ [(l, ev)]) in *. split.
    + rewrite J2, <- app_assoc, history_call, <- J3, app_assoc, <- J2. exact X1.
    + assert (up_to_date s' w') as J. { split; [exact X3|]. exists (new ++ [(l, ev)]). rewrite X4, J2, app_assoc. split; [reflexivity|]. now rewrite memory_snoc, <- J3. }
      destruct X5 as [-> | ->]; exact J.
  - injection E as <- <- <-. split; [reflexivity|]. split; [exact J1|eauto].
Qed.

Lemma reader_ret {A} (a : A) : reader (ret a). Proof. now intros w. Qed.
Lemma reader_throw {A} e : reader (@throw A e). Proof. now intros w. Qed.
Lemma reader_undef {A} u : reader (@undef A u). Proof. now intros w. Qed.
Lemma reader_oof {A} : reader (@out_of_fuel A). Proof. now intros w. Qed.
Lemma reader_get : reader get. Proof. now intros w. Qed.
Lemma reader_sock f : reader (modify_sock f). Proof. now intros w. Qed.
Lemma reader_readSimple n : reader (readSimple n).
Proof. intros w. unfold readSimple. destruct (n <? 0)%Z; [auto|]. destruct (n =? 0)%Z; [auto|]. destruct (read_raw _ _ _) as [[[d|e|] s'] k']; auto. Qed.
Lemma reader_header h : reader (readFrameHeader h).
Proof. intros w. destruct (readFrameHeader h w) as [o w'] eqn:E. apply readFrameHeader_spec in E. destruct E as [(R1 & _ & _ & _ & R5 & _) _]. auto. Qed.
Lemma reader_check h : reader (checkForContinuation h).
Proof. intros w. unfold checkForContinuation, bind, get, modify_sock, ret. destruct (_ || _)%bool; auto. Qed.
#[local] Hint Resolve reader_ret reader_throw reader_undef reader_oof reader_get reader_sock reader_readSimple reader_header reader_check : readers.
Ltac lifted := apply fsim_lift; auto with readers.

Lemma fsim_payload d fuel : forall h short alloc progress,
  fsim (payloadS S (call_object S obj (Datatypes.S d)) fuel h short alloc progress) (readPayload_loop react fuel h short alloc progress).
Proof.
  induction fuel as [|fuel IH]; intros h short alloc progress; cbn [payloadS readPayload_loop]; [lifted|].
  apply fsim_if; [|lifted]. apply fsim_bind; [lifted|]. intros w1. cbv zeta. apply fsim_bind; [lifted|].
  intros [data|[]]; try lifted; [|apply IH]. apply fsim_if; [lifted|]. destruct short as [sh|]; [apply IH|]. apply fsim_bind; [apply fsim_call|]. intros _. apply IH.
Qed.
Lemma fsim_readPayload d h short : fsim (readPayloadS S (call_object S obj (Datatypes.S d)) h short) (readPayload react h short).
Proof.
  unfold readPayloadS, readPayload. apply fsim_if; [lifted|]. apply fsim_bind; [lifted|]. intros w1. cbv zeta. apply fsim_if; [lifted|].
  apply fsim_bind; [apply fsim_payload|]. intros sh. apply fsim_bind; [|intros _; lifted]. destruct short; [lifted|]. apply fsim_if; [apply fsim_call|lifted].
Qed.
Lemma fsim_handle d h : fsim (handleFrameS S (call_object S obj (Datatypes.S d)) h) (handleFrame react h).
Proof.
  assert (fsim (bindS (readPayloadS S (call_object S obj (Datatypes.S d)) h None) (fun _ => lift (ret tt))) (bind (readPayload react h None) (fun _ => ret tt))) as H1.
  { apply fsim_bind; [apply fsim_readPayload|intros; lifted]. }
  assert (forall f, fsim (bindS (readPayloadS S (call_object S obj (Datatypes.S d)) h (Some [])) (fun p => call_object S obj (Datatypes.S d) (f p)))
    (bind (readPayload react h (Some [])) (fun p => notify react (f p)))) as H2.
  { intros f. apply fsim_bind; [apply fsim_readPayload|intros; apply fsim_call]. }
  assert (fsim (bindS (lift (checkForContinuation h)) (fun ok : bool => if ok then bindS (readPayloadS S (call_object S obj (Datatypes.S d)) h None) (fun _ => lift (ret tt)) else lift (throw ExContinuationExpected)))
    (bind (checkForContinuation h) (fun ok : bool => if ok then bind (readPayload react h None) (fun _ => ret tt) else throw ExContinuationExpected))) as H3.
  { apply fsim_bind; [lifted|]. intros []; [exact H1|lifted]. }
  unfold handleFrameS, handleFrame.
  destruct (h_opcode h) as [|[[[[p|p|]|[p|p|]|]|[[p|p|]|[p|p|]|]|]|[[[p|p|]|[p|p|]|]|[[p|p|]|[p|p|]|]|]|]];
    first [apply fsim_lift; solve [auto with readers] | exact H3 | exact (H2 (fun p => EvPing (str p))) | exact (H2 (fun p => EvPong (str p)))
          | exact (H2 (fun p => EvClose (close_code (str p)) (close_reason (str p))))
          | apply fsim_bind; [lifted|]; intros w1; destruct (_ <? 0)%Z; [lifted|exact H1]].
Qed.
Lemma fsim_loop d fuel : forall h, fsim (loopS S (call_object S obj (Datatypes.S d)) fuel h) (listen_loop react fuel h).
Proof.
  induction fuel as [|fuel IH]; intros h; cbn [loopS listen_loop]; [lifted|].
  apply fsim_bind; [lifted|]. intros h'. apply fsim_bind; [apply fsim_handle|]. intros _. apply fsim_bind; [lifted|]. intros w1. apply fsim_if; [apply IH|lifted].
Qed.
Lemma fsim_listen_try d : fsim (bindS (lift (modify_sock (fun s => set_listening s true))) (fun _ => bindS (lift get) (fun w =>
    loopS S (call_object S obj (Datatypes.S d)) (Datatypes.S (script_size (w_in w))) header_init))) (listen_try react).
Proof. unfold listen_try. apply fsim_bind; [lifted|]. intros _. apply fsim_bind; [lifted|]. intros w1. apply fsim_loop. Qed.
Lemma fsim_listen d : fsim (listenS S (call_object S obj (Datatypes.S d))) (listen react).
Proof.
  unfold listenS. change (listen react) with (bind (modify_sock (fun s => set_listening s true)) (fun _ => bind get (fun w => try_ (listen_loop react (Datatypes.S (script_size (w_in w))) header_init)))).
  apply fsim_bind; [lifted|]. intros _. apply fsim_bind; [lifted|]. intros w1. apply fsim_try, fsim_loop.
Qed.
End Obj.
