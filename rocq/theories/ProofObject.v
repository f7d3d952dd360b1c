(** Lemmas for C98: runs with listener objects are runs with lists of commands. *)
From Verif Require Import Bytes Frame World WebSocket Object SpecAsync SpecSend SpecListen SpecObject ProofQuit.
From Coq Require Import Lia PeanoNat.
Local Open Scope N_scope.

Section Sim.
Context {S : Type}.
Variables (t : bool) (P : act -> Prop).
Hypothesis Pcalm : forall a, P a -> calm a.

(** [n] counts the calls made. *)
Definition by_count (tab : nat -> list cmd) : react_t := fun _ log => tab (length log).
Definition calls (w : world) : nat := length (w_log w).
Definition sim {A} (m1 : MS S A) (m2 : react_t -> M A) : Prop := forall s w o s' w', m1 (s, w) = (o, (s', w')) ->
  (calls w <= calls w')%nat /\
  exists frag, (forall n, Forall (issued t P) (frag n)) /\
    forall tab, (forall n, (calls w < n <= calls w')%nat -> tab n = frag n) -> m2 (by_count tab) w = (o, w').

Lemma sim_bind {A B} (m1 : MS S A) m2 (f1 : A -> MS S B) f2 : sim m1 m2 -> (forall a, sim (f1 a) (fun r => f2 r a)) ->
  sim (bindS m1 f1) (fun r => bind (m2 r) (f2 r)).
Proof.
  intros Hm Hf s w o s' w' E. unfold bindS in E. destruct (m1 (s, w)) as [o1 [s1 w1]] eqn:E1.
  destruct (Hm _ _ _ _ _ E1) as (L1 & g1 & G1 & H1).
  assert (forall a, o1 = Ret a -> (calls w <= calls w')%nat /\ exists frag, (forall n, Forall (issued t P) (frag n)) /\
    forall tab, (forall n, (calls w < n <= calls w')%nat -> tab n = frag n) -> bind (m2 (by_count tab)) (f2 (by_count tab)) w = (o, w')) as Hr.
  { intros a ->. destruct (Hf a _ _ _ _ _ E) as (L2 & g2 & G2 & H2). split; [lia|].
    exists (fun n => if Nat.leb n (calls w1) then g1 n else g2 n). split; [intros n; destruct (Nat.leb n _); auto|].
    intros tab Ht. unfold bind. rewrite H1.
    - apply H2. intros n Hn. rewrite Ht by lia. destruct (Nat.leb_spec n (calls w1)); [lia|reflexivity].
    - intros n Hn. rewrite Ht by lia. destruct (Nat.leb_spec n (calls w1)); [reflexivity|lia]. }
  destruct o1 as [a|e| |u|]; [exact (Hr a eq_refl)| | | |]; injection E as <- <- <-; (split; [exact L1|]); exists g1; (split; [exact G1|]);
    intros tab Ht; unfold bind; rewrite (H1 tab Ht); reflexivity.
Qed.
Lemma sim_lift {A} (m : M A) : quiet m -> sim (lift m) (fun _ => m).
Proof.
  intros Hq s w o s' w' E. unfold lift in E. cbn [fst snd] in E. specialize (Hq w). destruct (m w) as [o1 w1] eqn:E1. cbn [snd] in Hq.
  injection E as <- <- <-. unfold calls. rewrite Hq. split; [lia|]. exists (fun _ => []). split; [constructor|]. reflexivity.
Qed.
Lemma sim_try (m1 : MS S unit) m2 : sim m1 m2 -> sim (tryS S m1) (fun r => try_ (m2 r)).
Proof.
  intros Hm s w o s' w' E. unfold tryS in E. destruct (m1 (s, w)) as [o1 [s1 w1]] eqn:E1. destruct (Hm _ _ _ _ _ E1) as (L1 & g1 & G1 & H1).
  assert (w' = w1 /\ o = match o1 with Throw _ => Ret tt | _ => o1 end) as [-> ->] by (destruct o1; injection E as <- <- <-; auto).
  split; [exact L1|]. exists g1. split; [exact G1|]. intros tab Ht. unfold try_. rewrite (H1 tab Ht). now destruct o1.
Qed.
Lemma sim_if {A} (b : bool) (m1 n1 : MS S A) m2 n2 : sim m1 m2 -> sim n1 n2 -> sim (if b then m1 else n1) (fun r => if b then m2 r else n2 r).
Proof. destruct b; auto. Qed.

(** The code of one callback. *)
Lemma code_cmds again c : forall s w o s' w', every t P c -> exec_code S again c (s, w) = (o, (s', w')) ->
  exists cs, Forall (issued t P) cs /\ exec_cmds cs w = (o, w').
Proof.
  induction c as [| |k IH|s0 k IH|a k IH]; intros s w o s' w' He E; cbn [every] in He; cbn [exec_code] in E.
  - injection E as <- <- <-. exists []. split; [constructor|reflexivity].
  - injection E as <- <- <-. exists [CThrow]. split; [constructor; [left; auto|constructor]|reflexivity].
  - cbn [fst] in E. exact (IH s _ _ _ _ _ (He s) E).
  - cbn [snd] in E. exact (IH _ _ _ _ _ He E).
  - destruct He as [Ha Hk].
    assert (forall m : M bool, perform S again a = lift m ->
      (forall o1 w1, m w = (o1, w1) -> exists c, cmd_of a c /\
         exec_cmd c w = (match o1 with Ret _ | Throw _ => Ret tt | Wait => Wait | Ub u => Ub u | OutOfFuel => OutOfFuel end, w1)) ->
      exists cs, Forall (issued t P) cs /\ exec_cmds cs w = (o, w')) as Hstep.
    { intros m Hp Hm. rewrite Hp in E. unfold lift in E. cbn [fst snd] in E. destruct (m w) as [o1 w1] eqn:E1.
      destruct (Hm o1 w1 eq_refl) as (c & Hc & Ec).
      assert (issued t P c) as Hi by (right; exists a; auto).
      assert (forall r, exec_code S again (k r) (s, w1) = (o, (s', w')) -> exec_cmd c w = (Ret tt, w1) ->
        exists cs, Forall (issued t P) cs /\ exec_cmds cs w = (o, w')) as Hgo.
      { intros r Er Ec'. destruct (IH r _ _ _ _ _ (Hk r) Er) as (cs & F & X). exists (c :: cs). split; [constructor; assumption|].
        cbn [exec_cmds]. unfold bind. rewrite Ec'. exact X. }
      destruct o1 as [[]|e| |u|]; [exact (Hgo Done E Ec)|exact (Hgo Failed E Ec)|exact (Hgo Raised E Ec)| | |];
        injection E as <- <- <-; exists [c]; (split; [constructor; [exact Hi|constructor]|]); cbn [exec_cmds]; unfold bind; rewrite Ec; reflexivity. }
    destruct a as [|l|m b|op| | |]; try (destruct (Pcalm _ Ha)).
    + eapply Hstep; [reflexivity|]. intros o1 w1 [= <- <-]. exists CStop. split; reflexivity.
    + eapply Hstep; [reflexivity|]. intros o1 w1 [= <- <-]. eexists. split; reflexivity.
    + eapply Hstep; [reflexivity|]. intros o1 w1 [= <- <-]. eexists. split; reflexivity.
    + eapply Hstep; [reflexivity|]. intros o1 w1 E1.
      assert (send op w = (match o1 with Ret _ => Ret tt | Throw e => Throw e | Wait => Wait | Ub u => Ub u | OutOfFuel => OutOfFuel end, w1)) as Es.
      { destruct op; cbn [send_reporting] in E1; unfold bind in E1; try (destruct (send _ w) as [[[]|e| |u|] w2]; injection E1 as <- <-; reflexivity).
        cbn [send]. unfold bind. rewrite E1. destruct o1; reflexivity. }
      destruct o1 as [b|e| |u|].
      * exists (CSend false op). split; [eexists; reflexivity|exact Es].
      * exists (CSend true op). split; [eexists; reflexivity|]. cbn [exec_cmd]. unfold try_. now rewrite Es.
      * exists (CSend false op). split; [eexists; reflexivity|exact Es].
      * exists (CSend false op). split; [eexists; reflexivity|exact Es].
      * exists (CSend false op). split; [eexists; reflexivity|exact Es].
    + eapply Hstep; [reflexivity|]. intros o1 w1 [= <- <-]. eexists. split; reflexivity.
Qed.

Variable obj : object S.
Hypothesis Hobj : every_call t P obj.
Lemma sim_call d ev : sim (call_object S obj (Datatypes.S d) ev) (fun r => notify r ev).
Proof.
  intros s w o s' w' E. cbn [call_object fst snd] in E. unfold notify. destruct (s_listener (w_sock w)) as [l|] eqn:El.
  - set (w1 := set_log w (w_log w ++ [(l, ev)])) in *.
    destruct (code_cmds _ _ _ _ _ _ _ (Hobj l ev) E) as (cs & F & X).
    pose proof (quiet_cmds cs w1) as Hq. rewrite X in Hq. cbn [snd] in Hq.
    assert (w_log w1 = w_log w ++ [(l, ev)]) as Hl by reflexivity.
    unfold calls. rewrite Hq, Hl, app_length. cbn [length]. split; [lia|]. exists (fun _ => cs). split; [intros; exact F|].
    intros tab Ht. unfold by_count at 1. change (w_log (set_log w (w_log w ++ [(l, ev)]))) with (w_log w ++ [(l, ev)]).
    rewrite Ht; [exact X|]. rewrite app_length. cbn [length]. lia.
  - injection E as <- <- <-. split; [lia|]. exists (fun _ => []). split; [constructor|reflexivity].
Qed.

#[local] Hint Resolve quiet_ret quiet_throw quiet_undef quiet_get quiet_sock quiet_readSimple quiet_header quiet_check : quietdb.
Lemma quiet_oof {A} : quiet (@out_of_fuel A). Proof. now intros w. Qed.
#[local] Hint Resolve quiet_oof : quietdb.
Lemma sim_payload d fuel : forall h short alloc progress,
  sim (payloadS S (call_object S obj (Datatypes.S d)) fuel h short alloc progress) (fun r => readPayload_loop r fuel h short alloc progress).
Proof.
  induction fuel as [|fuel IH]; intros h short alloc progress; cbn [payloadS readPayload_loop]; [apply sim_lift; auto with quietdb|].
  apply sim_if; [|apply sim_lift; auto with quietdb].
  apply sim_bind; [apply sim_lift; auto with quietdb|]. intros w0. cbv zeta. apply sim_bind; [apply sim_lift; auto with quietdb|].
  intros [data|[]]; try (apply sim_lift; auto with quietdb); [|apply IH].
  apply sim_if; [apply sim_lift; auto with quietdb|]. destruct short as [sh|]; [apply IH|].
  apply sim_bind; [apply sim_call|]. intros _. apply IH.
Qed.
Lemma sim_readPayload d h short : sim (readPayloadS S (call_object S obj (Datatypes.S d)) h short) (fun r => readPayload r h short).
Proof.
  unfold readPayloadS, readPayload. apply sim_if; [apply sim_lift; auto with quietdb|].
  apply sim_bind; [apply sim_lift; auto with quietdb|]. intros w0. cbv zeta. apply sim_if; [apply sim_lift; auto with quietdb|].
  apply sim_bind; [apply sim_payload|]. intros sh. apply sim_bind; [|intros _; apply sim_lift; auto with quietdb].
  destruct short; [apply sim_lift; auto with quietdb|]. apply sim_if; [apply sim_call|apply sim_lift; auto with quietdb].
Qed.
Lemma sim_handle d h : sim (handleFrameS S (call_object S obj (Datatypes.S d)) h) (fun r => handleFrame r h).
Proof.
  assert (sim (bindS (readPayloadS S (call_object S obj (Datatypes.S d)) h None) (fun _ => lift (ret tt))) (fun r => bind (readPayload r h None) (fun _ => ret tt))) as H1.
  { apply sim_bind; [apply sim_readPayload|intros; apply sim_lift; auto with quietdb]. }
  assert (forall f, sim (bindS (readPayloadS S (call_object S obj (Datatypes.S d)) h (Some [])) (fun p => call_object S obj (Datatypes.S d) (f p)))
    (fun r => bind (readPayload r h (Some [])) (fun p => notify r (f p)))) as H2.
  { intros f. apply sim_bind; [apply sim_readPayload|intros; apply sim_call]. }
  assert (sim (bindS (lift (checkForContinuation h)) (fun ok : bool => if ok then bindS (readPayloadS S (call_object S obj (Datatypes.S d)) h None) (fun _ => lift (ret tt)) else lift (throw ExContinuationExpected)))
    (fun r => bind (checkForContinuation h) (fun ok : bool => if ok then bind (readPayload r h None) (fun _ => ret tt) else throw ExContinuationExpected))) as H3.
  { apply sim_bind; [apply sim_lift; auto with quietdb|]. intros []; [exact H1|apply sim_lift; auto with quietdb]. }
  unfold handleFrameS, handleFrame.
  destruct (h_opcode h) as [|[[[[p|p|]|[p|p|]|]|[[p|p|]|[p|p|]|]|]|[[[p|p|]|[p|p|]|]|[[p|p|]|[p|p|]|]|]|]];
    first [apply sim_lift; solve [auto with quietdb] | exact H3 | exact (H2 (fun p => EvPing (str p))) | exact (H2 (fun p => EvPong (str p)))
          | exact (H2 (fun p => EvClose (close_code (str p)) (close_reason (str p))))
          | apply sim_bind; [apply sim_lift; auto with quietdb|]; intros w0; destruct (_ <? 0)%Z; [apply sim_lift; auto with quietdb|exact H1]].
Qed.
Lemma sim_loop d fuel : forall h, sim (loopS S (call_object S obj (Datatypes.S d)) fuel h) (fun r => listen_loop r fuel h).
Proof.
  induction fuel as [|fuel IH]; intros h; cbn [loopS listen_loop]; [apply sim_lift; auto with quietdb|].
  apply sim_bind; [apply sim_lift; auto with quietdb|]. intros h'. apply sim_bind; [apply sim_handle|]. intros _.
  apply sim_bind; [apply sim_lift; auto with quietdb|]. intros w0. apply sim_if; [apply IH|apply sim_lift; auto with quietdb].
Qed.
Lemma sim_listen d : sim (listenS S (call_object S obj (Datatypes.S d))) listen.
Proof.
  unfold listenS. change listen with (fun r => bind (modify_sock (fun s => set_listening s true)) (fun _ => bind get (fun w => try_ (listen_loop r (Datatypes.S (script_size (w_in w))) header_init)))).
  apply sim_bind; [apply sim_lift; auto with quietdb|]. intros _. apply sim_bind; [apply sim_lift; auto with quietdb|]. intros w0.
  apply sim_try, sim_loop.
Qed.
Lemma sim_iterate d h : sim (iterateFrameS S (call_object S obj (Datatypes.S d)) h) (fun r => iterateFrame r h).
Proof.
  unfold iterateFrameS, iterateFrame. apply sim_bind; [apply sim_lift; auto with quietdb|]. intros h'.
  apply sim_bind; [apply sim_handle|intros; apply sim_lift; auto with quietdb].
Qed.
End Sim.
