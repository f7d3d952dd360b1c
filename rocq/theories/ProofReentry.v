(** Lemmas for C99: callbacks that listen. *)
From Verif Require Import Bytes Frame World WebSocket Object SpecAsync SpecSend SpecFrame SpecListen SpecObject
  ProofFrame ProofStream ProofSend ProofHeader ProofListen ProofInv.
From Coq Require Import Lia PeanoNat ZifyBool ZifyNat ZifyN.
Local Open Scope N_scope.
Local Arguments takeN : simpl never.
Local Arguments dropN : simpl never.
Local Arguments lenN : simpl never.
Local Arguments be_enc : simpl never.
Local Arguments be_dec : simpl never.

(** * The input only shrinks, and neither fuel nor depth runs out *)
Definition size (w : world) : nat := script_size (w_in w).
Definition fin0 {A} (m : M A) : Prop := forall w o w', m w = (o, w') -> (size w' <= size w)%nat /\ o <> OutOfFuel.

Lemma unread_size d s : (script_size (unread d s) <= match d with [] => 0 | _ => 1 + length d end + script_size s)%nat.
Proof. destruct d; cbn; lia. Qed.
Lemma readExact_raw_size n s k r s' k' : readExact_raw n s k = (r, s', k') -> (script_size s' <= script_size s)%nat.
Proof.
  revert n k r s' k'. induction s as [|e s IH]; intros n k r s' k' E; cbn [readExact_raw] in E; destruct (n =? 0);
    try (injection E as <- <- <-; lia).
  destruct e as [b bs|[]|x]; cbn [script_size].
  - destruct (n <=? lenN (b :: bs)).
    + injection E as <- <- <-. pose proof (unread_size (dropN n (b :: bs)) s) as H.
      assert (length (dropN n (b :: bs)) <= length (b :: bs))%nat as H2 by (pose proof (lenN_dropN n (b :: bs)); unfold lenN in *; lia).
      cbn [length] in H2. destruct (dropN n (b :: bs)); cbn [length] in *; lia.
    + destruct (readExact_raw _ s k) as [[r1 s1] k1] eqn:E1. apply IH in E1. destruct r1; injection E as <- <- <-; lia.
  - apply IH in E. lia.
  - injection E as <- <- <-. lia.
  - injection E as <- <- <-. lia.
  - apply IH in E. lia.
Qed.
Lemma fin0_exact n : fin0 (readExactSizeDataSimple n).
Proof.
  intros w o w' E. split; [|exact (readExact_fin _ _ _ _ E)]. unfold readExactSizeDataSimple in E.
  destruct (readExact_raw n (w_in w) (w_sock w)) as [[r s1] k1] eqn:E1. apply readExact_raw_size in E1. destruct r; injection E as <- <-; exact E1.
Qed.
Lemma fin0_same {A} (m : M A) : (forall w o w', m w = (o, w') -> w_in w' = w_in w /\ o <> OutOfFuel) -> fin0 m.
Proof. intros H w o w' E. destruct (H _ _ _ E) as [H1 H2]. unfold size. rewrite H1. split; [lia|exact H2]. Qed.
Lemma fin0_bind {A B} (m : M A) (f : A -> M B) : fin0 m -> (forall a, fin0 (f a)) -> fin0 (bind m f).
Proof.
  intros Hm Hf w o w' E. unfold bind in E. destruct (m w) as [o1 w1] eqn:E1. destruct (Hm _ _ _ E1) as [H1 H2].
  destruct o1; try (injection E as <- <-; split; [exact H1|congruence]). apply Hf in E. split; [lia|apply E].
Qed.
Lemma fin0_ret {A} (a : A) : fin0 (ret a).
Proof. apply fin0_same. intros w o w' [= <- <-]. split; [reflexivity|discriminate]. Qed.
Lemma fin0_throw {A} e : fin0 (@throw A e).
Proof. apply fin0_same. intros w o w' [= <- <-]. split; [reflexivity|discriminate]. Qed.
Lemma fin0_undef {A} u : fin0 (@undef A u).
Proof. apply fin0_same. intros w o w' [= <- <-]. split; [reflexivity|discriminate]. Qed.
Lemma fin0_get : fin0 get.
Proof. apply fin0_same. intros w o w' [= <- <-]. split; [reflexivity|discriminate]. Qed.
Lemma fin0_sock f : fin0 (modify_sock f).
Proof. apply fin0_same. intros w o w' [= <- <-]. split; [reflexivity|discriminate]. Qed.
Lemma fin0_check h : fin0 (checkForContinuation h).
Proof.
  apply fin0_same. unfold checkForContinuation, bind, get. intros w o w' E. destruct (_ || _)%bool; injection E as <- <-; (split; [reflexivity|discriminate]).
Qed.
Lemma fin0_header h : fin0 (readFrameHeader h).
Proof.
  unfold readFrameHeader. apply fin0_bind; [apply fin0_exact|]. intros bb. destruct (negb _); [apply fin0_throw|].
  destruct (unpackHeaderBits _ _) as [h1 n]. apply fin0_bind.
  - destruct (n <? 126); [apply fin0_ret|]. destruct (n =? 126).
    + apply fin0_bind; [apply fin0_exact|]. intros l2. destruct (negb _); [apply fin0_throw|apply fin0_ret].
    + destruct (n =? 127); [|apply fin0_ret]. apply fin0_bind; [apply fin0_exact|]. intros l3. destruct (negb _); [apply fin0_throw|apply fin0_ret].
  - intros h2. destruct (h_hasMask h2); [|apply fin0_ret]. apply fin0_bind; [apply fin0_exact|]. intros mk. destruct (negb _); [apply fin0_throw|apply fin0_ret].
Qed.
Lemma fin0_send op : fin0 (send_reporting op).
Proof.
  apply fin0_same. intros w o w' E.
  assert (exists o1, exec_cmds [CSend false op] w = (o1, w') /\ (o = OutOfFuel -> o1 = OutOfFuel)) as (o1 & E1 & Ho).
  { cbn [exec_cmds exec_cmd]. destruct op; cbn [send_reporting send] in *; unfold bind in *.
    1: destruct (sendOneFrame _ _ _ w) as [[] w1]; injection E as <- <-; eexists; split; try reflexivity; try (intros [=]); auto.
    all: match goal with H : context [match ?x with _ => _ end] |- _ => destruct x as [[] w1] end; injection E as <- <-; eexists; split; try reflexivity; try (intros [=]); auto. }
  apply exec_cmds_in in E1. destruct E1 as [H1 H2]. split; [exact H1|]. intros H. apply H2. auto.
Qed.

Section Fin.
Context {S : Type}.
Definition finS {A} (d : nat) (m : MS S A) : Prop := forall s w o s' w', (size w < d)%nat -> m (s, w) = (o, (s', w')) -> (size w' <= size w)%nat /\ o <> OutOfFuel.
Lemma finS_bind {A B} d (m : MS S A) (f : A -> MS S B) : finS d m -> (forall a, finS d (f a)) -> finS d (bindS m f).
Proof.
  intros Hm Hf s w o s' w' Hd E. unfold bindS in E. destruct (m (s, w)) as [o1 [s1 w1]] eqn:E1. destruct (Hm _ _ _ _ _ Hd E1) as [H1 H2].
  destruct o1; try (injection E as <- <- <-; split; [exact H1|congruence]). apply Hf in E; [|lia]. split; [lia|apply E].
Qed.
Lemma finS_lift {A} d (m : M A) : fin0 m -> finS d (lift m).
Proof.
  intros Hm s w o s' w' _ E. unfold lift in E. cbn [fst snd] in E. destruct (m w) as [o1 w1] eqn:E1. injection E as <- <- <-. exact (Hm _ _ _ E1).
Qed.
Lemma finS_if {A} d (b : bool) (m n : MS S A) : finS d m -> finS d n -> finS d (if b then m else n).
Proof. destruct b; auto. Qed.
Section Call.
Variables (d : nat) (call : event -> MS S unit).
Hypothesis Hcall : forall ev, finS d (call ev).
Lemma finS_payload fuel : forall h short alloc progress s w o s' w', (size w < d)%nat -> (size w < fuel)%nat ->
  payloadS S call fuel h short alloc progress (s, w) = (o, (s', w')) -> (size w' <= size w)%nat /\ o <> OutOfFuel.
Proof.
  induction fuel as [|fuel IH]; intros h short alloc progress s w o s' w' Hd Hf E; [lia|].
  cbn [payloadS] in E. destruct (progress <? h_len h)%Z.
  2:{ injection E as <- <- <-. split; [lia|discriminate]. }
  unfold bindS at 1, lift at 1, get in E. cbn [fst snd] in E. cbv zeta in E.
  set (desired := (if h_len h - progress <? s_buf (w_sock w) then h_len h - progress else s_buf (w_sock w))%Z) in E.
  unfold bindS at 1, lift at 1, readSimple in E. cbn [fst snd] in E.
  destruct (Z.ltb_spec desired 0); [injection E as <- <- <-; split; [lia|discriminate]|].
  destruct (Z.eqb_spec desired 0); [injection E as <- <- <-; split; [lia|discriminate]|].
  destruct (read_raw (Z.to_N desired) (w_in w) (w_sock w)) as [[r s1] k1] eqn:E1.
  assert (0 < Z.to_N desired) as HdN by lia.
  pose proof (read_raw_bytes _ _ _ _ _ _ HdN E1) as Hrb. unfold size in *.
  destruct r as [dd|e|].
  - destruct Hrb as (_ & _ & _ & Hsz).
    destruct (alloc <? Z.of_N (lenN dd))%Z; [injection E as <- <- <-; split; [cbn; lia|discriminate]|].
    destruct short as [sh|].
    + apply IH in E; [|cbn; lia|cbn; lia]. destruct E as [H1 H2]. split; [cbn in H1; lia|exact H2].
    + unfold bindS at 1 in E.
      destruct (call _ _) as [o2 [s2 w2]] eqn:E2. apply Hcall in E2; [|unfold size; cbn; lia]. destruct E2 as [H2 H3]. unfold size in H2. cbn in H2.
      destruct o2; try (injection E as <- <- <-; split; [lia|congruence]).
      apply IH in E; [|lia|lia]. destruct E as [H4 H5]. split; [lia|exact H5].
  - destruct Hrb as (_ & Hsz).
    destruct e; [|injection E as <- <- <-; split; [cbn; lia|discriminate]..].
    apply IH in E; [|cbn; lia|cbn; lia]. destruct E as [H1 H2]. split; [cbn in H1; lia|exact H2].
  - injection E as <- <- <-. destruct Hrb as [_ ->]. split; [cbn; lia|discriminate].
Qed.
Lemma finS_readPayload h short : finS d (readPayloadS S call h short).
Proof.
  unfold readPayloadS. apply finS_if; [apply finS_lift, fin0_throw|]. intros s w o s' w' Hd E.
  unfold bindS at 1, lift at 1, get in E. cbn [fst snd] in E. cbv zeta in E. destruct (_ <? 0)%Z; [injection E as <- <- <-; split; [lia|discriminate]|].
  unfold bindS at 1 in E. destruct (payloadS S call _ _ _ _ _ _) as [o1 [s1 w1]] eqn:E1. apply finS_payload in E1; [|exact Hd|unfold size; lia]. destruct E1 as [H1 H2].
  destruct o1 as [sh| | | |]; try (injection E as <- <- <-; split; [exact H1|congruence]).
  revert E. match goal with |- ?m _ = _ -> _ => assert (finS d m) as Hm end.
  { apply finS_bind; [|intros _; apply finS_lift, fin0_ret]. destruct short; [apply finS_lift, fin0_ret|]. apply finS_if; [apply Hcall|apply finS_lift, fin0_ret]. }
  intros E. apply Hm in E; [|lia]. split; [lia|apply E].
Qed.
Lemma finS_handle h : finS d (handleFrameS S call h).
Proof.
  assert (finS d (bindS (readPayloadS S call h None) (fun _ => lift (ret tt)))) as H1 by (apply finS_bind; [apply finS_readPayload|intros; apply finS_lift, fin0_ret]).
  assert (forall f, finS d (bindS (readPayloadS S call h (Some [])) (fun p => call (f p)))) as H2 by (intros f; apply finS_bind; [apply finS_readPayload|intros; apply Hcall]).
  assert (finS d (bindS (lift (checkForContinuation h)) (fun ok : bool => if ok then bindS (readPayloadS S call h None) (fun _ => lift (ret tt)) else lift (throw ExContinuationExpected)))) as H3.
  { apply finS_bind; [apply finS_lift, fin0_check|]. intros []; [exact H1|apply finS_lift, fin0_throw]. }
  unfold handleFrameS.
  destruct (h_opcode h) as [|[[[[p|p|]|[p|p|]|]|[[p|p|]|[p|p|]|]|]|[[[p|p|]|[p|p|]|]|[[p|p|]|[p|p|]|]|]|]];
    first [apply finS_lift; apply fin0_throw | exact H3 | exact (H2 (fun p => EvPing (str p))) | exact (H2 (fun p => EvPong (str p)))
          | exact (H2 (fun p => EvClose (close_code (str p)) (close_reason (str p))))
          | apply finS_bind; [apply finS_lift, fin0_get|]; intros w0; apply finS_if; [apply finS_lift, fin0_throw|exact H1]].
Qed.
Lemma finS_iterate h : finS (Datatypes.S d) (iterateFrameS S call h).
Proof.
  intros s w o s' w' Hd E. unfold iterateFrameS, bindS at 1, lift at 1 in E. cbn [fst snd] in E.
  destruct (readFrameHeader h w) as [o1 w1] eqn:E1. pose proof (fin0_header _ _ _ _ E1) as [G1 G2]. apply readFrameHeader_fin in E1. destruct E1 as (_ & H2 & _).
  destruct o1 as [h'| | | |]; try (injection E as <- <- <-; split; [exact G1|congruence]). specialize (H2 _ eq_refl). fold (size w1) (size w) in H2.
  assert (finS d (bindS (handleFrameS S call h') (fun _ => lift (ret h')))) as Hm by (apply finS_bind; [apply finS_handle|intros; apply finS_lift, fin0_ret]).
  apply Hm in E; [|lia]. split; [lia|apply E].
Qed.
Lemma finS_loop fuel : forall h s w o s' w', (size w < Datatypes.S d)%nat -> (size w < fuel)%nat ->
  loopS S call fuel h (s, w) = (o, (s', w')) -> (size w' <= size w)%nat /\ o <> OutOfFuel.
Proof.
  induction fuel as [|fuel IH]; intros h s w o s' w' Hd Hf E; [lia|]. cbn [loopS] in E. unfold bindS at 1, lift at 1 in E. cbn [fst snd] in E.
  destruct (readFrameHeader h w) as [o1 w1] eqn:E1. pose proof (fin0_header _ _ _ _ E1) as [G1 G2]. apply readFrameHeader_fin in E1. destruct E1 as (_ & H2 & _).
  destruct o1 as [h'| | | |]; try (injection E as <- <- <-; split; [exact G1|congruence]). specialize (H2 _ eq_refl). fold (size w1) (size w) in H2.
  unfold bindS at 1 in E. destruct (handleFrameS S call h' (s, w1)) as [o2 [s2 w2]] eqn:E2. apply finS_handle in E2; [|lia]. destruct E2 as [H3 H4].
  destruct o2; try (injection E as <- <- <-; split; [lia|congruence]).
  unfold bindS at 1, lift at 1, get in E. cbn [fst snd] in E. destruct (_ && _)%bool; [|injection E as <- <- <-; split; [lia|discriminate]].
  apply IH in E; [|lia|lia]. split; [lia|apply E].
Qed.
Lemma finS_listen : finS (Datatypes.S d) (listenS S call).
Proof.
  intros s w o s' w' Hd E. unfold listenS, bindS, lift, modify_sock, get in E. cbn [fst snd] in E. unfold tryS in E.
  destruct (loopS S call _ _ _) as [o1 [s1 w1]] eqn:E1. apply finS_loop in E1; [|exact Hd|unfold size; cbn; lia]. destruct E1 as [H1 H2]. unfold size in *. cbn in H1.
  destruct o1; injection E as <- <- <-; (split; [exact H1|congruence]).
Qed.
Lemma listenS_outcome s w o s' w' : (size w < Datatypes.S d)%nat -> listenS S call (s, w) = (o, (s', w')) -> o = Ret tt \/ o = Wait \/ exists u, o = Ub u.
Proof.
  intros Hd E. pose proof (finS_listen _ _ _ _ _ Hd E) as [_ H]. unfold listenS, bindS, lift, modify_sock, get in E. cbn [fst snd] in E. unfold tryS in E.
  destruct (loopS S call _ _ _) as [o1 [s1 w1]]. destruct o1 as [[]|e| |u|]; injection E as <- <- <-; eauto. congruence.
Qed.
Lemma finS_code c : finS (Datatypes.S d) (exec_code S call c).
Proof.
  induction c as [| |k IH|s0 k IH|a k IH]; intros s w o s' w' Hd E; cbn [exec_code] in E.
  - injection E as <- <- <-. split; [lia|discriminate].
  - injection E as <- <- <-. split; [lia|discriminate].
  - cbn [fst] in E. exact (IH s _ _ _ _ _ Hd E).
  - cbn [snd] in E. exact (IH _ _ _ _ _ Hd E).
  - assert (finS (Datatypes.S d) (perform S call a)) as Hp.
    { destruct a; cbn [perform].
      - apply finS_lift, fin0_bind; [apply fin0_sock|intros; apply fin0_ret].
      - apply finS_lift, fin0_bind; [apply fin0_sock|intros; apply fin0_ret].
      - apply finS_lift, fin0_bind; [apply fin0_sock|intros; apply fin0_ret].
      - apply finS_lift, fin0_send.
      - apply finS_lift, fin0_ret.
      - apply finS_bind; [apply finS_listen|intros; apply finS_lift, fin0_ret].
      - apply finS_bind; [apply finS_iterate|intros; apply finS_lift, fin0_ret]. }
    destruct (perform S call a (s, w)) as [o1 [s1 w1]] eqn:E1. apply Hp in E1; [|exact Hd]. destruct E1 as [H1 H2].
    destruct o1 as [[]|e| |u|]; try (injection E as <- <- <-; split; [exact H1|congruence]); apply IH in E; try lia; (split; [lia|apply E]).
Qed.
End Call.
Lemma finS_call obj d : forall ev, finS d (call_object S obj d ev).
Proof.
  induction d as [|d IH]; intros ev s w o s' w' Hd E; [lia|]. cbn [call_object fst snd] in E. destruct (s_listener (w_sock w)) as [l|].
  - apply (finS_code d _ IH) in E; exact E || exact Hd.
  - injection E as <- <- <-. split; [lia|discriminate].
Qed.
End Fin.
