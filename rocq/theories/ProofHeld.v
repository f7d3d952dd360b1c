(** What both sockets do up to the first write that fails: the run on a connection whose peer stops taking data at that
    moment instead is, on each socket, the beginning of the real run. *)
From Verif Require Import Bytes Frame World WebSocket AsyncWebSocket SpecFrame SpecSend SpecListen SpecAsync
  ProofFrame ProofStream ProofSend ProofCodec ProofInv ProofAsync ProofAsync2.
From Coq Require Import ZifyBool ZifyNat ZifyN.
Local Open Scope N_scope.
Local Open Scope m_scope.
Local Arguments takeN : simpl never.
Local Arguments dropN : simpl never.
Local Arguments lenN : simpl never.
Local Arguments be_enc : simpl never.
Local Arguments be_dec : simpl never.
Local Arguments packHeaderBits : simpl never.
Local Arguments until_failure : simpl never.

Notation held := until_failure.
Notation cut := before_failure.

(** The second ends where the first has got to, or later. *)
Definition more (a b : world) : Prop := prefix (w_log a) (w_log b) /\ prefix (w_out a) (w_out b).
Lemma more_refl w : more w w.
Proof. split; apply prefix_refl. Qed.
Lemma more_trans a b c : more a b -> more b c -> more a c.
Proof. intros (A1 & A2) (B1 & B2). split; eapply prefix_trans; eassumption. Qed.
Lemma more_same a b : w_log b = w_log a -> w_out b = w_out a -> more a b.
Proof. intros H1 H2. split; [rewrite H1|rewrite H2]; apply prefix_refl. Qed.
Lemma grows_more a b : grows a b -> more a b.
Proof. now intros (_ & H). Qed.

Lemma cut_never q : never_fails (cut q).
Proof.
  induction q as [|[n|[]|] q IH]; cbn [cut]; repeat (apply Forall_cons || apply Forall_nil); cbn; auto.
Qed.
Lemma cut_id q : never_fails q -> cut q = q.
Proof. induction 1 as [|[n|[]|] q He _ IH]; cbn [cut] in *; try reflexivity; cbn in He; try tauto; congruence. Qed.


(** What has become of the script of writes. *)
Definition passed (w w' : world) : Prop := exists u, w_wr w = u ++ w_wr w'.
Definition sound (w w' : world) : Prop := exists u, w_wr w = u ++ w_wr w' /\ never_fails u.
Notation failed := write_failed.
Lemma sound_same a b : w_wr b = w_wr a -> sound a b.
Proof. intros H. exists []. split; [now rewrite H|constructor]. Qed.
Lemma sound_refl w : sound w w.
Proof. now apply sound_same. Qed.
Lemma sound_trans a b c : sound a b -> sound b c -> sound a c.
Proof. intros (u & H1 & H2) (v & H3 & H4). exists (u ++ v). split; [now rewrite H1, H3, app_assoc|]. now apply Forall_app. Qed.
Lemma sound_failed a b c : sound a b -> failed b c -> failed a c.
Proof. intros (u & H1 & H2) (v & H3 & H4). exists (u ++ v). split; [now rewrite H1, H3, app_assoc|]. apply Exists_app. now right. Qed.
Lemma failed_passed a b c : failed a b -> passed b c -> failed a c.
Proof. intros (u & H1 & H2) (v & H3). exists (u ++ v). split; [now rewrite H1, H3, app_assoc|]. apply Exists_app. now left. Qed.
Lemma passed_trans a b c : passed a b -> passed b c -> passed a c.
Proof. intros (u & H1) (v & H3). exists (u ++ v). now rewrite H1, H3, app_assoc. Qed.
Lemma sound_passed a b : sound a b -> passed a b.
Proof. intros (u & H & _). now exists u. Qed.
Lemma failed_passed' a b : failed a b -> passed a b.
Proof. intros (u & H & _). now exists u. Qed.

(** * The blocking socket *)
Definition agree {A} (w : world) (o : outcome A) (w' : world) (oh : outcome A) (wh : world) : Prop :=
  (oh = o /\ wh = held w' /\ sound w w') \/ (oh = Wait /\ more wh w' /\ failed w w' /\ w_wr wh = [WBlock]).
Definition stall {A} (m : M A) : Prop := forall w o w' oh wh, m w = (o, w') -> m (held w) = (oh, wh) ->
  more w w' /\ agree w o w' oh wh.
Lemma agree_passed {A} w (o : outcome A) w' oh wh : agree w o w' oh wh -> passed w w'.
Proof. intros [(_ & _ & H)|(_ & _ & H & _)]; [now apply sound_passed|now apply failed_passed']. Qed.
Lemma agree_same {A} (o : outcome A) w w' : w_wr w' = w_wr w -> agree w o w' o (held w').
Proof. intros H. left. split; [reflexivity|]. split; [reflexivity|now apply sound_same]. Qed.
Ltac same E Eh := injection E as <- <-; injection Eh as <- <-; split; [first [apply more_refl|now apply more_same]|now apply agree_same].

Lemma stall_ret {A} (a : A) : stall (ret a).
Proof. intros w o w' oh wh E Eh. same E Eh. Qed.
Lemma stall_throw {A} e : stall (@throw A e).
Proof. intros w o w' oh wh E Eh. same E Eh. Qed.
Lemma stall_undef {A} u : stall (@undef A u).
Proof. intros w o w' oh wh E Eh. same E Eh. Qed.
Lemma stall_fuel {A} : stall (@out_of_fuel A).
Proof. intros w o w' oh wh E Eh. same E Eh. Qed.
Lemma stall_bind {A B} (m : M A) (f : A -> M B) : stall m -> (forall a, stall (f a)) -> stall (bind m f).
Proof.
  intros Hm Hf w o w' oh wh E Eh. unfold bind in *.
  destruct (m w) as [o1 w1] eqn:E1. destruct (m (held w)) as [o2 w2] eqn:E2.
  destruct (Hm _ _ _ _ _ E1 E2) as [Hg Hc].
  assert (more w1 w' /\ passed w1 w') as [Hg1 Hp1].
  { destruct o1 as [a|e| |u|]; try (injection E as <- <-; split; [apply more_refl|apply sound_passed, sound_refl]).
    destruct (f a (held w1)) as [o3 w3] eqn:E3. destruct (Hf a _ _ _ _ _ E E3) as [H1 H2]. split; [exact H1|exact (agree_passed _ _ _ _ _ H2)]. }
  split; [eapply more_trans; eassumption|]. destruct Hc as [(-> & -> & Hs)|(-> & Hw & Hfl & Hb)].
  - destruct o1 as [a|e| |u|]; try (injection E as <- <-; injection Eh as <- <-; left; split; [reflexivity|]; split; [reflexivity|exact Hs]).
    destruct (proj2 (Hf a _ _ _ _ _ E Eh)) as [(-> & -> & Hs2)|(-> & Hw & Hfl & Hb)].
    + left. split; [reflexivity|]. split; [reflexivity|]. eapply sound_trans; eassumption.
    + right. split; [reflexivity|]. split; [exact Hw|]. split; [|exact Hb]. eapply sound_failed; eassumption.
  - injection Eh as <- <-. right. split; [reflexivity|]. split; [eapply more_trans; eassumption|]. split; [|exact Hb].
    eapply failed_passed; eassumption.
Qed.
Lemma stall_get {A} (f : world -> M A) : (forall w0, stall (f w0)) -> (forall w0, f (held w0) = f w0) -> stall (bind get f).
Proof. intros Hf Hs w o w' oh wh E Eh. unfold bind, get in *. rewrite Hs in Eh. exact (Hf w _ _ _ _ _ E Eh). Qed.
Lemma stall_try m : stall m -> stall (try_ m).
Proof.
  intros Hm w o w' oh wh E Eh. unfold try_ in *. destruct (m w) as [o1 w1] eqn:E1. destruct (m (held w)) as [o2 w2] eqn:E2.
  destruct (Hm _ _ _ _ _ E1 E2) as [Hg Hc].
  assert (w' = w1) as -> by (destruct o1; congruence).
  split; [exact Hg|]. destruct Hc as [(-> & -> & Hs)|(-> & Hw)].
  - left. destruct o1; injection E as <-; injection Eh as <- <-; (split; [reflexivity|]); (split; [reflexivity|exact Hs]).
  - injection Eh as <- <-. right. now split.
Qed.
Lemma stall_sock f : stall (modify_sock f).
Proof. intros w o w' oh wh E Eh. same E Eh. Qed.
Lemma stall_rnd n : stall (randomBytes n).
Proof. intros w o w' oh wh E Eh. same E Eh. Qed.

Lemma cut_write q : forall d r a q', writeExact_raw d q = (r, a, q') ->
  (writeExact_raw d (cut q) = (r, a, cut q') /\ exists u, q = u ++ q' /\ never_fails u) \/
  exists a1, writeExact_raw d (cut q) = (WPending, a1, [WBlock]) /\ prefix a1 a /\ exists u, q = u ++ q' /\ Exists failure u.
Proof.
  induction q as [|e q IH]; intros d r a q' E; destruct d as [|b d].
  - cbn in E. injection E as <- <- <-. left. split; [reflexivity|]. exists []. split; [reflexivity|constructor].
  - cbn in E. injection E as <- <- <-. left. split; [reflexivity|]. exists []. split; [reflexivity|constructor].
  - cbn [writeExact_raw] in E. injection E as <- <- <-. left. split; [destruct (cut (e :: q)); reflexivity|]. exists []. split; [reflexivity|constructor].
  - cbn [writeExact_raw] in E. destruct e as [n|[]|].
    + destruct (writeExact_raw (dropN (N.pos n) (b :: d)) q) as [[r1 a1] q1] eqn:E1.
      injection E as <- <- <-. cbn [cut writeExact_raw].
      destruct (IH _ _ _ _ E1) as [(-> & u & -> & Hu)|(a2 & -> & Hp & u & -> & Hu)].
      * left. split; [reflexivity|]. exists (WAccept n :: u). split; [reflexivity|]. constructor; [|exact Hu]. cbn. tauto.
      * right. exists (takeN (N.pos n) (b :: d) ++ a2). split; [reflexivity|].
        split; [|exists (WAccept n :: u); split; [reflexivity|now apply Exists_cons_tl]].
        change (prefix (takeN (N.pos n) (b :: d) ++ a2) (takeN (N.pos n) (b :: d) ++ a1)). now apply prefix_app_l.
    + cbn [cut writeExact_raw]. destruct (IH _ _ _ _ E) as [(-> & u & -> & Hu)|(a2 & -> & Hp & u & -> & Hu)].
      * left. split; [reflexivity|]. exists (WIo IoRetry :: u). split; [reflexivity|]. constructor; [|exact Hu]. cbn. tauto.
      * right. exists a2. split; [reflexivity|]. split; [exact Hp|]. exists (WIo IoRetry :: u). split; [reflexivity|now apply Exists_cons_tl].
    + injection E as <- <- <-. right. exists []. split; [reflexivity|]. split; [apply prefix_nil|]. exists [WIo IoZero].
      split; [reflexivity|]. apply Exists_cons_hd. exact I.
    + injection E as <- <- <-. right. exists []. split; [reflexivity|]. split; [apply prefix_nil|]. exists [WIo IoBroken].
      split; [reflexivity|]. apply Exists_cons_hd. exact I.
    + injection E as <- <- <-. left. split; [reflexivity|]. exists []. split; [reflexivity|constructor].
Qed.
Lemma stall_write d : stall (writeExactSizeDataSimple d).
Proof.
  intros w o w' oh wh E Eh. unfold writeExactSizeDataSimple in *.
  unfold until_failure in Eh. cbn [w_wr w_out set_wr] in Eh.
  destruct (writeExact_raw d (w_wr w)) as [[r a] q] eqn:Ew.
  assert (w' = set_wr w (w_out w ++ a) q) as Hw' by (destruct r; congruence). subst w'.
  split; [split; [apply prefix_refl|apply prefix_app_r]|].
  destruct (cut_write _ _ _ _ _ Ew) as [[Ec Hu]|(a1 & Ec & Hp & Hu)]; rewrite Ec in Eh.
  - left. destruct r; injection E as <-; injection Eh as <- <-; (split; [reflexivity|]); (split; [reflexivity|exact Hu]).
  - right. injection Eh as <- <-. split; [reflexivity|]. split; [split; [apply prefix_refl|]; now apply prefix_app_l|].
    split; [exact Hu|reflexivity].
Qed.
(** Reading does not depend on the other direction. *)
Lemma stall_readSimple n : stall (readSimple n).
Proof.
  intros w o w' oh wh E Eh. unfold readSimple in *. unfold until_failure in Eh. cbn [w_in w_sock set_wr] in Eh.
  destruct (n <? 0)%Z; [same E Eh|]. destruct (n =? 0)%Z; [same E Eh|].
  destruct (read_raw (Z.to_N n) (w_in w) (w_sock w)) as [[r s1] k1]. destruct r; same E Eh.
Qed.
Lemma stall_readExact n : stall (readExactSizeDataSimple n).
Proof.
  intros w o w' oh wh E Eh. unfold readExactSizeDataSimple in *. unfold until_failure in Eh. cbn [w_in w_sock set_wr] in Eh.
  destruct (readExact_raw n (w_in w) (w_sock w)) as [[r s1] k1]. destruct r; same E Eh.
Qed.
Create HintDb stall.
Global Hint Resolve stall_ret stall_throw stall_undef stall_fuel stall_sock stall_rnd stall_write stall_readSimple stall_readExact stall_try : stall.
Ltac stall_tac :=
  repeat first
    [ match goal with
      | |- stall (bind get _) => fail 1
      | |- stall (bind _ _) => apply stall_bind; [|intros ?]
      | |- stall (if ?b then _ else _) => destruct b
      | |- stall (let (_, _) := ?p in _) => destruct p
      end
    | solve [auto with stall] ].
Lemma stall_writeFrameHeader h : stall (writeFrameHeader h).
Proof. unfold writeFrameHeader. stall_tac. Qed.
Global Hint Resolve stall_writeFrameHeader : stall.
Lemma stall_sendFrameHeader h fin op n : stall (sendFrameHeader h fin op n).
Proof. unfold sendFrameHeader. apply stall_get; [intros w0; cbv zeta; stall_tac|reflexivity]. Qed.
Global Hint Resolve stall_sendFrameHeader : stall.
Lemma stall_sendOneFrame fin op m : stall (sendOneFrame fin op m).
Proof. unfold sendOneFrame. destruct m as [[|b bs]|]; cbv zeta; stall_tac. Qed.
Global Hint Resolve stall_sendOneFrame : stall.
Lemma stall_send op : stall (send op).
Proof. destruct op; cbn [send]; unfold sendChecked, stopListening; stall_tac. Qed.
Global Hint Resolve stall_send : stall.
Lemma stall_cmds cs : stall (exec_cmds cs).
Proof.
  induction cs as [|c cs IH]; cbn [exec_cmds]; [apply stall_ret|]. apply stall_bind; [|intros _; exact IH].
  destruct c as [|l|m b|[] op| | |fin0 opc0 msg0]; cbn [exec_cmd]; unfold stopListening; auto with stall.
  unfold demand. stall_tac.
Qed.

Section Stall.
Variable react : react_t.
Lemma stall_notify ev : stall (notify react ev).
Proof.
  intros w o w' oh wh E Eh. unfold notify in *. unfold until_failure in Eh. cbn [w_sock w_log set_wr] in Eh.
  destruct (s_listener (w_sock w)) as [l|]; [|same E Eh].
  destruct (stall_cmds _ _ _ _ _ _ E Eh) as [H1 H2]. split; [|exact H2].
  eapply more_trans; [|exact H1]. split; [apply prefix_app_r|apply prefix_refl].
Qed.
Hint Resolve stall_notify : stall.
Lemma stall_header h : stall (readFrameHeader h).
Proof. unfold readFrameHeader. stall_tac. Qed.
Lemma stall_loop fuel : forall h short alloc progress, stall (readPayload_loop react fuel h short alloc progress).
Proof.
  induction fuel as [|fuel IH]; intros h short alloc progress; cbn [readPayload_loop]; [apply stall_fuel|].
  destruct (_ <? _)%Z; [|apply stall_ret]. apply stall_get; [|reflexivity]. intros w0. cbv zeta.
  apply stall_bind; [apply stall_readSimple|]. intros [d|[]]; [|apply IH|apply stall_throw|apply stall_throw].
  destruct (_ <? _)%Z; [apply stall_undef|]. destruct short; [apply IH|].
  apply stall_bind; [apply stall_notify|intros _; apply IH].
Qed.
Lemma stall_payload h short : stall (readPayload react h short).
Proof.
  unfold readPayload. destruct (_ && _)%bool; [apply stall_throw|].
  apply stall_get; [|reflexivity]. intros w0. cbv zeta. destruct (_ <? _)%Z; [apply stall_throw|].
  apply stall_bind; [apply stall_loop|]. intros s. apply stall_bind; [|intros _; apply stall_ret].
  destruct short; [apply stall_ret|]. destruct (h_fin h); [apply stall_notify|apply stall_ret].
Qed.
Hint Resolve stall_payload stall_header : stall.
Lemma stall_check h : stall (checkForContinuation h).
Proof. unfold checkForContinuation. apply stall_get; [intros w0; stall_tac|reflexivity]. Qed.
Hint Resolve stall_check : stall.
Lemma stall_handle h : stall (handleFrame react h).
Proof.
  unfold handleFrame.
  assert (stall (w <- get ;; if (s_last (w_sock w) <? 0)%Z then throw ExInvalidState else readPayload react h None ;;; ret tt)) as H0.
  { apply stall_get; [intros w0; stall_tac|reflexivity]. }
  destruct (h_opcode h) as [|[[[]|[]|]|[[]|[]|]|]]; try exact H0; stall_tac;
    repeat match goal with |- context [match ?p with _ => _ end] => destruct p end; stall_tac.
Qed.
Hint Resolve stall_handle : stall.
Lemma stall_listen_loop fuel : forall h, stall (listen_loop react fuel h).
Proof.
  induction fuel as [|fuel IH]; intros h; cbn [listen_loop]; [apply stall_fuel|].
  apply stall_bind; [apply stall_header|]. intros h'. apply stall_bind; [apply stall_handle|]. intros _.
  apply stall_get; [intros w0; destruct (_ && _)%bool; [apply IH|apply stall_ret]|reflexivity].
Qed.
Lemma stall_listen_try : stall (listen_try react).
Proof.
  unfold listen_try. apply stall_bind; [apply stall_sock|]. intros _. apply stall_get; [intros w0; apply stall_listen_loop|reflexivity].
Qed.
End Stall.

(** * The asynchronous socket *)
Definition hc (c : conf) : conf := Conf (c_hdr c) (c_short c) (c_stack c) (held (c_world c)).
Lemma readExactA_held n got w r w' : readExactAsyncInline n got w = (r, w') -> readExactAsyncInline n got (held w) = (r, held w').
Proof.
  unfold readExactAsyncInline. destruct (n <=? lenN got); intros E; [injection E as <- <-; reflexivity|].
  change (w_in (held w)) with (w_in w). change (w_sock (held w)) with (w_sock w).
  destruct (read_raw (n - lenN got) (w_in w) (w_sock w)) as [[r0 s'] k'].
  destruct r0 as [d|[]|]; injection E as <- <-; reflexivity.
Qed.
Lemma readSomeA_held n w r w' : readSomeAsyncInline n w = (r, w') -> readSomeAsyncInline n (held w) = (r, held w').
Proof.
  unfold readSomeAsyncInline. destruct (n <=? 0)%Z; intros E; [injection E as <- <-; reflexivity|].
  change (w_in (held w)) with (w_in w). change (w_sock (held w)) with (w_sock w).
  destruct (read_raw (Z.to_N n) (w_in w) (w_sock w)) as [[r0 s'] k'].
  destruct r0 as [d|[]|]; injection E as <- <-; reflexivity.
Qed.
(** The machine on a connection whose peer does not take data (any more). *)
Definition blocked_world (w : world) : world := set_wr w (w_out w) [WBlock].
Definition bc (c : conf) : conf := Conf (c_hdr c) (c_short c) (c_stack c) (blocked_world (c_world c)).
Lemma writeA_held d w r w' : writeExactAsyncInline d w = (r, w') ->
  (writeExactAsyncInline d (held w) = (r, held w') /\ sound w w') \/
  (writeExactAsyncInline d (held w) = (IAgain d, blocked_world w) /\ failed w w' /\
   forall t, writeExactAsyncInline d (blocked_world (arr t w)) = (IWait, blocked_world (arr t w))).
Proof.
  intros E. unfold writeExactAsyncInline, until_failure in *. cbn [w_wr w_out set_wr arr set_in blocked_world]. destruct d as [|b d].
  { injection E as <- <-. left. split; [reflexivity|apply sound_refl]. }
  destruct (w_wr w) as [|[n|[]|] q] eqn:Eq; cbn [cut] in *; injection E as <- <-.
  - left. split; [reflexivity|]. exists []. rewrite Eq. split; [reflexivity|constructor].
  - left. split; [reflexivity|]. exists [WAccept n]. rewrite Eq. split; [reflexivity|]. constructor; [cbn; tauto|constructor].
  - left. split; [reflexivity|]. exists [WIo IoRetry]. rewrite Eq. split; [reflexivity|]. constructor; [cbn; tauto|constructor].
  - right. split; [reflexivity|]. split; [|reflexivity]. exists [WIo IoZero]. rewrite Eq. split; [reflexivity|]. apply Exists_cons_hd. exact I.
  - right. split; [reflexivity|]. split; [|reflexivity]. exists [WIo IoBroken]. rewrite Eq. split; [reflexivity|]. apply Exists_cons_hd. exact I.
  - left. split; [cbn [set_wr w_wr w_out]; rewrite Eq; reflexivity|apply sound_refl].
Qed.
Lemma fail_held e h s K w st c : fail e (Conf h s K w) = (st, c) -> fail e (Conf h s K (held w)) = (st, hc c).
Proof. unfold fail. cbn [c_stack c_hdr c_short c_world]. destruct (unwind K); intros E; injection E as <- <-; reflexivity. Qed.
Ltac solve_held E := first [ injection E as <- <-; reflexivity | apply fail_held; exact E | congruence ].

Lemma readExactA_wr n got w r w' : readExactAsyncInline n got w = (r, w') -> w_wr w' = w_wr w.
Proof.
  unfold readExactAsyncInline. destruct (n <=? lenN got); intros E; [injection E as <- <-; reflexivity|].
  destruct (read_raw (n - lenN got) (w_in w) (w_sock w)) as [[[d|[]|] s'] k']; injection E as <- <-; reflexivity.
Qed.
Lemma readSomeA_wr n w r w' : readSomeAsyncInline n w = (r, w') -> w_wr w' = w_wr w.
Proof.
  unfold readSomeAsyncInline. destruct (n <=? 0)%Z; intros E; [injection E as <- <-; reflexivity|].
  destruct (read_raw (Z.to_N n) (w_in w) (w_sock w)) as [[[d|[]|] s'] k']; injection E as <- <-; reflexivity.
Qed.
Ltac fnr E := first
  [ injection E as <- <-; reflexivity
  | apply fail_grows in E; destruct E as [-> _]; reflexivity ].
Ltac fwr E Hg := first
  [ injection E as <- <-; cbn [c_world]; exact Hg
  | apply fail_grows in E; destruct E as [-> _]; exact Hg ].

Section Held.
Variable react : react_t.
Notation step := (step react).
Definition writing (c : conf) : bool :=
  match c_stack c with
  | CoSend _ _ _ _ (SfWrite _) :: _ => true
  | CoWrite _ (WfAct _) :: _ | CoWrite _ (WfWriteLen _) :: _ | CoWrite _ (WfWriteMask _) :: _ => true
  | _ => false
  end.
Lemma step_held_other c st c' : writing c = false -> step c = (st, c') -> step (hc c) = (st, hc c').
Proof.
  intros Hwr E. destruct c as [hdr short stk w].
  change (hc (Conf hdr short stk w)) with (Conf hdr short stk (held w)).
  unfold AsyncWebSocket.step in *. destruct stk as [|co K].
  { injection E as <- <-. reflexivity. }
  destruct co as [|p|l p|l us al pr p|fin op m h p|h p|cs fr|].
  - destruct (h_opcode hdr =? OPCODE_CLOSE); injection E as <- <-; reflexivity.
  - unfold step_readFrame in *. destruct p as [got|bb|ty got|ty d|got].
    + destruct (readExactAsyncInline 2 got w) as [r w1] eqn:Er.
      rewrite (readExactA_held _ _ _ _ _ Er). destruct r; solve_held E.
    + destruct (unpackHeaderBits (be_dec bb) hdr) as [h l1].
      destruct (l1 <? 126); [solve_held E|]. destruct (l1 =? 126); [solve_held E|]. destruct (l1 =? 127); solve_held E.
    + destruct (readExactAsyncInline (if ty =? 2 then 2 else 8) got w) as [r w1] eqn:Er.
      rewrite (readExactA_held _ _ _ _ _ Er). destruct r; solve_held E.
    + cbv zeta in *. destruct (h_hasMask _); solve_held E.
    + destruct (readExactAsyncInline 4 got w) as [r w1] eqn:Er.
      rewrite (readExactA_held _ _ _ _ _ Er). destruct r; solve_held E.
  - unfold step_handle in *. cbv zeta in *.
    assert (forall us nx sh w0 st c',
      match readPayloadAsync hdr us w0 with inl e => fail e (Conf hdr sh K w0) | inr co => (ARun, Conf hdr sh (co :: CoHandle l nx :: K) w0) end = (st, c') ->
      match readPayloadAsync hdr us (held w0) with inl e => fail e (Conf hdr sh K (held w0)) | inr co => (ARun, Conf hdr sh (co :: CoHandle l nx :: K) (held w0)) end = (st, hc c')) as Hp.
    { clear. intros us nx sh w0 st c' E. unfold readPayloadAsync in *. change (w_sock (held w0)) with (w_sock w0).
      destruct (us && _)%bool; [solve_held E|]. destruct (_ <? 0)%Z; solve_held E. }
    destruct p.
    + assert (forall st c', (let (ok, w') := checkForContinuationA hdr w in
          if (ok : bool) then match readPayloadAsync hdr false w' with inl e => fail e (Conf hdr short K w') | inr co => (ARun, Conf hdr short (co :: CoHandle l HfFinish :: K) w') end
          else fail ExContinuationExpected (Conf hdr short K w')) = (st, c') ->
        (let (ok, w') := checkForContinuationA hdr (held w) in
          if (ok : bool) then match readPayloadAsync hdr false w' with inl e => fail e (Conf hdr short K w') | inr co => (ARun, Conf hdr short (co :: CoHandle l HfFinish :: K) w') end
          else fail ExContinuationExpected (Conf hdr short K w')) = (st, hc c')) as Hc.
      { clear -Hp. intros st c' E. unfold checkForContinuationA in *. cbv zeta in *. change (s_last (w_sock (held w))) with (s_last (w_sock w)).
        destruct (_ || _)%bool; [solve_held E|].
        change (set_sock (held w)) with (fun k => held (set_sock w k)). cbv beta. apply Hp. exact E. }
      destruct (h_opcode hdr) as [|[[[[p|p|]|[p|p|]|]|[[p|p|]|[p|p|]|]|]|[[[p|p|]|[p|p|]|]|[[p|p|]|[p|p|]|]|]|]];
        try (solve_held E); try (apply Hp; exact E); try (apply Hc; exact E).
      change (s_last (w_sock (held w))) with (s_last (w_sock w)). destruct (_ <? 0)%Z; [solve_held E|apply Hp; exact E].
    + destruct l; injection E as <- <-; reflexivity.
    + destruct l; injection E as <- <-; reflexivity.
    + destruct l; injection E as <- <-; reflexivity.
    + injection E as <- <-; reflexivity.
  - unfold step_payload in *. cbv zeta in *. destruct p as [|n|got|].
    + destruct (pr <? h_len hdr)%Z; [injection E as <- <-; reflexivity|]. destruct (negb us && h_fin hdr)%bool; [|injection E as <- <-; reflexivity].
      destruct l; injection E as <- <-; reflexivity.
    + destruct (readSomeAsyncInline n w) as [r w1] eqn:Er.
      rewrite (readSomeA_held _ _ _ _ Er). destruct r; [destruct (al <? Z.of_N (lenN d))%Z| | |]; solve_held E.
    + destruct got; [solve_held E|]. destruct us; [injection E as <- <-; reflexivity|]. destruct l; injection E as <- <-; reflexivity.
    + injection E as <- <-; reflexivity.
  - unfold step_send in *. cbv zeta in *.
    assert (forall n, sendFrameHeaderAsync h fin op n (held w) =
       (fst (fst (sendFrameHeaderAsync h fin op n w)), snd (fst (sendFrameHeaderAsync h fin op n w)), held (snd (sendFrameHeaderAsync h fin op n w)))) as Hs.
    { intros n. unfold sendFrameHeaderAsync. cbv zeta. change (w_sock (held w)) with (w_sock w). cbn [h_hasMask]. destruct (s_mask (w_sock w)); reflexivity. }
    destruct p as [| |left|].
    + destruct m as [[|b bs]|]; rewrite Hs; destruct (sendFrameHeaderAsync h fin op _ w) as [[h' co] w1]; injection E as <- <-; reflexivity.
    + destruct (h_hasMask h); [|solve_held E]. destruct (_ <=? _); solve_held E.
    + discriminate Hwr.
    + injection E as <- <-; reflexivity.
  - unfold step_writeFrame in *. cbv zeta in *. destruct p as [left| |left| |left].
    + discriminate Hwr.
    + destruct (_ =? 2); [solve_held E|]. destruct (_ =? 3); solve_held E.
    + discriminate Hwr.
    + destruct (h_hasMask h); solve_held E.
    + discriminate Hwr.
  - unfold step_user in *. destruct cs as [|cm cs]; [solve_held E|]. cbv zeta in *.
    destruct cm as [|l|mk b|catch o| | |fin0 opc0 msg0]; try (solve_held E). destruct fr; solve_held E.
  - injection E as <- <-; reflexivity.
Qed.

Lemma step_wr_other c st c' : writing c = false -> step c = (st, c') -> w_wr (c_world c') = w_wr (c_world c).
Proof.   intros Hwr E. destruct c as [hdr short stk w]. cbn [c_world].
  unfold AsyncWebSocket.step in *. destruct stk as [|co K]; [fnr E|].
  destruct co as [|p|l p|l us al pr p|fin op m h p|h p|cs fr|].
  - destruct (h_opcode hdr =? OPCODE_CLOSE); fnr E.
  - unfold step_readFrame in *. destruct p as [got|bb|ty got|ty d|got].
    + destruct (readExactAsyncInline 2 got w) as [r w1] eqn:Er. apply readExactA_wr in Er. destruct r; fwr E Er.
    + destruct (unpackHeaderBits (be_dec bb) hdr) as [h l1].
      destruct (l1 <? 126); [fnr E|]. destruct (l1 =? 126); [fnr E|]. destruct (l1 =? 127); fnr E.
    + destruct (readExactAsyncInline (if ty =? 2 then 2 else 8) got w) as [r w1] eqn:Er. apply readExactA_wr in Er. destruct r; fwr E Er.
    + cbv zeta in *. destruct (h_hasMask _); fnr E.
    + destruct (readExactAsyncInline 4 got w) as [r w1] eqn:Er. apply readExactA_wr in Er. destruct r; fwr E Er.
  - unfold step_handle in *. cbv zeta in *.
    assert (forall us nx sh w0 st c', w_wr w0 = w_wr w ->
      match readPayloadAsync hdr us w0 with inl e => fail e (Conf hdr sh K w0) | inr co => (ARun, Conf hdr sh (co :: CoHandle l nx :: K) w0) end = (st, c') ->
      w_wr (c_world c') = w_wr w) as Hp.
    { clear. intros us nx sh w0 st c' Hg E. destruct (readPayloadAsync hdr us w0); fwr E Hg. }
    destruct p.
    + assert (forall st c', (let (ok, w') := checkForContinuationA hdr w in
          if (ok : bool) then match readPayloadAsync hdr false w' with inl e => fail e (Conf hdr short K w') | inr co => (ARun, Conf hdr short (co :: CoHandle l HfFinish :: K) w') end
          else fail ExContinuationExpected (Conf hdr short K w')) = (st, c') -> w_wr (c_world c') = w_wr w) as Hc.
      { clear -Hp. intros st c' E. unfold checkForContinuationA in *. cbv zeta in *.
        destruct (_ || _)%bool; [fnr E|]. eapply Hp; [|exact E]. reflexivity. }
      destruct (h_opcode hdr) as [|[[[[p|p|]|[p|p|]|]|[[p|p|]|[p|p|]|]|]|[[[p|p|]|[p|p|]|]|[[p|p|]|[p|p|]|]|]|]];
        first [fnr E | eapply Hp; [reflexivity|exact E] | eapply Hc; exact E | idtac].
      destruct (_ <? 0)%Z; [fnr E|eapply Hp; [reflexivity|exact E]].
    + destruct l; fnr E.
    + destruct l; fnr E.
    + destruct l; fnr E.
    + fnr E.
  - unfold step_payload in *. cbv zeta in *. destruct p as [|n|got|].
    + destruct (pr <? h_len hdr)%Z; [fnr E|]. destruct (negb us && h_fin hdr)%bool; [|fnr E]. destruct l; fnr E.
    + destruct (readSomeAsyncInline n w) as [r w1] eqn:Er. apply readSomeA_wr in Er. destruct r; [destruct (al <? Z.of_N (lenN d))%Z| | |]; fwr E Er.
    + destruct got; [fnr E|]. destruct us; [fnr E|]. destruct l; fnr E.
    + fnr E.
  - unfold step_send in *. cbv zeta in *.
    assert (forall n h' co w1, sendFrameHeaderAsync h fin op n w = (h', co, w1) -> w_wr w1 = w_wr w) as Hs.
    { intros n h' co w1. unfold sendFrameHeaderAsync. cbv zeta. cbn [h_hasMask]. destruct (s_mask (w_sock w)); intros Eq; injection Eq as <- <- <-;
        reflexivity. }
    destruct p as [| |left|].
    + destruct m as [[|b bs]|]; destruct (sendFrameHeaderAsync h fin op _ w) as [[h' co] w1] eqn:Es; apply Hs in Es; fwr E Es.
    + destruct (h_hasMask h); [|fnr E]. destruct (_ <=? _); fnr E.
    + discriminate Hwr.
    + fnr E.
  - unfold step_writeFrame in *. cbv zeta in *. destruct p as [left| |left| |left].
    + discriminate Hwr.
    + destruct (_ =? 2); [fnr E|]. destruct (_ =? 3); fnr E.
    + discriminate Hwr.
    + destruct (h_hasMask h); fnr E.
    + discriminate Hwr.
  - unfold step_user in *. destruct cs as [|cm cs]; [fnr E|]. cbv zeta in *.
    destruct cm as [|l|mk b|catch o| | |fin0 opc0 msg0]; try (fnr E). destruct fr; fnr E.
  - fnr E.
Qed.

(** No matter what arrives, the blocked machine stays where it is. *)
Definition stuck (c : conf) : Prop := forall t, step (bc (arrive t c)) = (AWait, bc (arrive t c)).
Lemma step_held c st c' : step c = (st, c') ->
  (step (hc c) = (st, hc c') /\ sound (c_world c) (c_world c')) \/
  (step (hc c) = (ARun, bc c) /\ failed (c_world c) (c_world c') /\ stuck c).
Proof.
  intros E. destruct (writing c) eqn:Ew.
  2: { left. split; [now apply step_held_other|]. apply sound_same. eapply step_wr_other; eassumption. }
  destruct c as [hdr short stk w]. unfold writing in Ew. cbn [c_stack] in Ew. destruct stk as [|co K]; [discriminate|].
  destruct co as [|p|l p|l us al pr p|fin op m h p|h p|cs fr|]; try discriminate Ew.
  - destruct p as [| |left|]; try discriminate Ew. cbn [AsyncWebSocket.step step_send] in E.
    + destruct (writeExactAsyncInline left w) as [r w1] eqn:Er. destruct (writeA_held _ _ _ _ Er) as [[Eh Hs]|(Eh & Hf & Hb)].
      * left. unfold hc at 1. cbn [AsyncWebSocket.step step_send c_hdr c_short c_stack c_world]. rewrite Eh.
        assert (c_world c' = w1) as -> by (destruct r; first [injection E as <- <-; reflexivity|exact (proj1 (fail_grows _ _ _ _ _ _ _ E))]).
        split; [destruct r; solve_held E|exact Hs].
      * right. unfold hc at 1. cbn [AsyncWebSocket.step step_send c_hdr c_short c_stack c_world]. rewrite Eh. split; [reflexivity|].
        assert (c_world c' = w1) as -> by (destruct r; first [injection E as <- <-; reflexivity|exact (proj1 (fail_grows _ _ _ _ _ _ _ E))]).
        split; [exact Hf|]. intros t. unfold bc. cbn [AsyncWebSocket.step step_send arrive c_hdr c_short c_stack c_world]. fold (arr t w). rewrite Hb. reflexivity.
  - destruct p as [left| |left| |left]; try discriminate Ew; cbn [AsyncWebSocket.step step_writeFrame] in E.
    + destruct (writeExactAsyncInline left w) as [r w1] eqn:Er. destruct (writeA_held _ _ _ _ Er) as [[Eh Hs]|(Eh & Hf & Hb)].
      * left. unfold hc at 1. cbn [AsyncWebSocket.step step_writeFrame c_hdr c_short c_stack c_world]. rewrite Eh.
        assert (c_world c' = w1) as -> by (destruct r; first [injection E as <- <-; reflexivity|exact (proj1 (fail_grows _ _ _ _ _ _ _ E))]).
        split; [destruct r; solve_held E|exact Hs].
      * right. unfold hc at 1. cbn [AsyncWebSocket.step step_writeFrame c_hdr c_short c_stack c_world]. rewrite Eh. split; [reflexivity|].
        assert (c_world c' = w1) as -> by (destruct r; first [injection E as <- <-; reflexivity|exact (proj1 (fail_grows _ _ _ _ _ _ _ E))]).
        split; [exact Hf|]. intros t. unfold bc. cbn [AsyncWebSocket.step step_writeFrame arrive c_hdr c_short c_stack c_world]. fold (arr t w). rewrite Hb. reflexivity.
    + destruct (writeExactAsyncInline left w) as [r w1] eqn:Er. destruct (writeA_held _ _ _ _ Er) as [[Eh Hs]|(Eh & Hf & Hb)].
      * left. unfold hc at 1. cbn [AsyncWebSocket.step step_writeFrame c_hdr c_short c_stack c_world]. rewrite Eh.
        assert (c_world c' = w1) as -> by (destruct r; first [injection E as <- <-; reflexivity|exact (proj1 (fail_grows _ _ _ _ _ _ _ E))]).
        split; [destruct r; solve_held E|exact Hs].
      * right. unfold hc at 1. cbn [AsyncWebSocket.step step_writeFrame c_hdr c_short c_stack c_world]. rewrite Eh. split; [reflexivity|].
        assert (c_world c' = w1) as -> by (destruct r; first [injection E as <- <-; reflexivity|exact (proj1 (fail_grows _ _ _ _ _ _ _ E))]).
        split; [exact Hf|]. intros t. unfold bc. cbn [AsyncWebSocket.step step_writeFrame arrive c_hdr c_short c_stack c_world]. fold (arr t w). rewrite Hb. reflexivity.
    + destruct (writeExactAsyncInline left w) as [r w1] eqn:Er. destruct (writeA_held _ _ _ _ Er) as [[Eh Hs]|(Eh & Hf & Hb)].
      * left. unfold hc at 1. cbn [AsyncWebSocket.step step_writeFrame c_hdr c_short c_stack c_world]. rewrite Eh.
        assert (c_world c' = w1) as -> by (destruct r; first [injection E as <- <-; reflexivity|exact (proj1 (fail_grows _ _ _ _ _ _ _ E))]).
        split; [destruct r; solve_held E|exact Hs].
      * right. unfold hc at 1. cbn [AsyncWebSocket.step step_writeFrame c_hdr c_short c_stack c_world]. rewrite Eh. split; [reflexivity|].
        assert (c_world c' = w1) as -> by (destruct r; first [injection E as <- <-; reflexivity|exact (proj1 (fail_grows _ _ _ _ _ _ _ E))]).
        split; [exact Hf|]. intros t. unfold bc. cbn [AsyncWebSocket.step step_writeFrame arrive c_hdr c_short c_stack c_world]. fold (arr t w). rewrite Hb. reflexivity.
Qed.

Lemma step_passed c st c' : step c = (st, c') -> passed (c_world c) (c_world c').
Proof. intros E. destruct (step_held _ _ _ E) as [[_ H]|(_ & H & _)]; [now apply sound_passed|now apply failed_passed']. Qed.

Lemma run_more evs : forall st c st' c', run react evs (st, c) = (st', c') -> more (c_world c) (c_world c') /\ passed (c_world c) (c_world c').
Proof.
  induction evs as [|[|s] evs IH]; intros st c st' c' E; cbn [run] in E.
  - injection E as <- <-. split; [apply more_refl|apply sound_passed, sound_refl].
  - destruct (tick react (st, c)) as [st1 c1] eqn:Et. destruct (IH _ _ _ _ E) as [H1 H2].
    assert (more (c_world c) (c_world c1) /\ passed (c_world c) (c_world c1)) as [H3 H4].
    { unfold tick in Et. destruct st; try (injection Et as <- <-; split; [apply more_refl|apply sound_passed, sound_refl]);
        (split; [eapply grows_more, step_grows, Et|eapply step_passed, Et]). }
    split; [eapply more_trans; eassumption|eapply passed_trans; eassumption].
  - cbn [fst snd] in E. exact (IH _ _ _ _ E).
Qed.
Lemma run_stuck evs : forall st c t, stuck c -> going st ->
  exists st' t', going st' /\ run react evs (st, bc (arrive t c)) = (st', bc (arrive t' c)).
Proof.
  induction evs as [|[|s] evs IH]; intros st c t Hs Hg; cbn [run].
  - exists st, t. now split.
  - assert (tick react (st, bc (arrive t c)) = (AWait, bc (arrive t c))) as -> by (destruct Hg as [-> | ->]; exact (Hs t)).
    apply IH; [exact Hs|now right].
  - cbn [fst snd]. assert (arrive s (bc (arrive t c)) = bc (arrive (t ++ s) c)) as ->.
    { destruct c as [hdr short stk w]. unfold bc, arrive, blocked_world, set_wr, set_in. cbn. now rewrite app_assoc. }
    now apply IH.
Qed.
Lemma run_held evs : forall st c st' c', run react evs (st, c) = (st', c') ->
  exists sth ch, run react evs (st, hc c) = (sth, ch) /\
    ((sth = st' /\ ch = hc c' /\ sound (c_world c) (c_world c')) \/
     (going sth /\ more (c_world ch) (c_world c') /\ failed (c_world c) (c_world c') /\ w_wr (c_world ch) = [WBlock])).
Proof.
  induction evs as [|[|s] evs IH]; intros st c st' c' E; cbn [run] in *.
  - injection E as <- <-. eexists. eexists. split; [reflexivity|]. left. split; [reflexivity|]. split; [reflexivity|apply sound_refl].
  - destruct (tick react (st, c)) as [st1 c1] eqn:Et.
    assert ((tick react (st, hc c) = (st1, hc c1) /\ sound (c_world c) (c_world c1)) \/
      (tick react (st, hc c) = (ARun, bc c) /\ failed (c_world c) (c_world c1) /\ stuck c)) as [[-> Hs]|(-> & Hf & Hs)].
    { unfold tick in *. destruct st; try (injection Et as <- <-; left; split; [reflexivity|apply sound_refl]); exact (step_held _ _ _ Et). }
    + destruct (IH _ _ _ _ E) as (sth & ch & Er & [(-> & -> & H3)|(H1 & H2 & H3 & H4)]); rewrite Er.
      * eexists. eexists. split; [reflexivity|]. left. split; [reflexivity|]. split; [reflexivity|eapply sound_trans; eassumption].
      * eexists. eexists. split; [reflexivity|]. right. split; [exact H1|]. split; [exact H2|]. split; [eapply sound_failed; eassumption|exact H4].
    + assert (c = arrive [] c) as Hc by (destruct c as [h sh k w]; unfold arrive; cbn; rewrite app_nil_r; destruct w; reflexivity).
      destruct (run_more (Tick :: evs) st c st' c') as [Hm _]. { cbn [run]. rewrite Et. exact E. }
      destruct (run_more evs _ _ _ _ E) as [_ Hp].
      destruct (run_stuck evs ARun c [] Hs (or_introl eq_refl)) as (sth & t' & Hg' & Er). rewrite <- Hc in Er. rewrite Er.
      exists sth, (bc (arrive t' c)). split; [reflexivity|]. right. split; [exact Hg'|]. split; [exact Hm|].
      split; [eapply failed_passed; eassumption|reflexivity].
  - cbn [fst snd] in *. change (arrive s (hc c)) with (hc (arrive s c)). exact (IH _ _ _ _ E).
Qed.
End Held.
