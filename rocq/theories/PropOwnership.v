(** Property theorems: C93, listeners of the blocking socket that replace themselves. *)
From Verif Require Import Bytes Frame World WebSocket Ownership SpecOwnership SpecFrame SpecSend SpecListen SpecApi SpecReply SpecAsync SpecTalk SpecMixed ProofStream ProofQuit.
Local Open Scope N_scope.
Local Open Scope m_scope.
Local Arguments takeN : simpl never.
Local Arguments dropN : simpl never.
Local Arguments lenN : simpl never.
Local Arguments be_enc : simpl never.
Local Arguments be_dec : simpl never.

(** * Two ways of calling listeners compared *)
Section Rel.
Variable bad : world -> Prop.
Definition agree {A} (m1 m2 : M A) : Prop := forall w, m2 w = m1 w \/ exists w2, m2 w = (Ub UbDangling, w2) /\ bad w2.
Lemma agree_refl {A} (m : M A) : agree m m.
Proof. intros w. now left. Qed.
Lemma agree_bind {A B} (m1 m2 : M A) (f1 f2 : A -> M B) : agree m1 m2 -> (forall a, agree (f1 a) (f2 a)) -> agree (bind m1 f1) (bind m2 f2).
Proof.
  intros Hm Hf w. unfold bind. destruct (Hm w) as [->|(w2 & -> & H)]; [|right; eauto].
  destruct (m1 w) as [[a|e| |u|] w']; try (now left). apply Hf.
Qed.
Lemma agree_try m1 m2 : agree m1 m2 -> agree (try_ m1) (try_ m2).
Proof. intros H w. unfold try_. destruct (H w) as [->|(w2 & -> & G)]; [now left|right; eauto]. Qed.

Variables c1 c2 : event -> M unit.
Hypothesis Hc : forall ev, agree (c1 ev) (c2 ev).
Lemma agree_loop fuel : forall h s al pr, agree (payload_with c1 fuel h s al pr) (payload_with c2 fuel h s al pr).
Proof.
  induction fuel as [|fuel IH]; intros h s al pr; cbn [payload_with]; [apply agree_refl|].
  destruct (pr <? h_len h)%Z; [|apply agree_refl]. apply agree_bind; [apply agree_refl|]. intros w0. cbv zeta. apply agree_bind; [apply agree_refl|].
  intros [d|[]]; [|apply IH|apply agree_refl|apply agree_refl].
  destruct (al <? _)%Z; [apply agree_refl|]. destruct s; [apply IH|]. apply agree_bind; [apply Hc|]. intros _. apply IH.
Qed.
Lemma agree_payload h s : agree (readPayload_with c1 h s) (readPayload_with c2 h s).
Proof.
  unfold readPayload_with. destruct (_ && _)%bool; [apply agree_refl|]. apply agree_bind; [apply agree_refl|]. intros w0. cbv zeta. destruct (_ <? 0)%Z; [apply agree_refl|].
  apply agree_bind; [apply agree_loop|]. intros s'. apply agree_bind; [|intros _; apply agree_refl].
  destruct s; [apply agree_refl|]. destruct (h_fin h); [apply Hc|apply agree_refl].
Qed.
Lemma agree_handle h : agree (handleFrame_with c1 h) (handleFrame_with c2 h).
Proof.
  assert (agree (bind (readPayload_with c1 h None) (fun _ => ret tt)) (bind (readPayload_with c2 h None) (fun _ => ret tt))) as H1.
  { apply agree_bind; [apply agree_payload|intros; apply agree_refl]. }
  assert (forall f, agree (bind (readPayload_with c1 h (Some [])) (fun p => c1 (f p))) (bind (readPayload_with c2 h (Some [])) (fun p => c2 (f p)))) as H2.
  { intros f. apply agree_bind; [apply agree_payload|intros; apply Hc]. }
  assert (agree (bind (checkForContinuation h) (fun ok : bool => if ok then bind (readPayload_with c1 h None) (fun _ => ret tt) else throw ExContinuationExpected))
    (bind (checkForContinuation h) (fun ok : bool => if ok then bind (readPayload_with c2 h None) (fun _ => ret tt) else throw ExContinuationExpected))) as H3.
  { apply agree_bind; [apply agree_refl|]. intros []; [exact H1|apply agree_refl]. }
  unfold handleFrame_with.
  destruct (h_opcode h) as [|[[[[p|p|]|[p|p|]|]|[[p|p|]|[p|p|]|]|]|[[[p|p|]|[p|p|]|]|[[p|p|]|[p|p|]|]|]|]];
    first [apply agree_refl | exact H3 | exact (H2 (fun p => EvPing (str p))) | exact (H2 (fun p => EvPong (str p)))
          | exact (H2 (fun p => EvClose (close_code (str p)) (close_reason (str p))))
          | apply agree_bind; [apply agree_refl|]; intros w0; destruct (_ <? 0)%Z; [apply agree_refl|exact H1]].
Qed.
Lemma agree_listen_loop fuel : forall h, agree (loop_with c1 fuel h) (loop_with c2 fuel h).
Proof.
  induction fuel as [|fuel IH]; intros h; cbn [loop_with]; [apply agree_refl|].
  apply agree_bind; [apply agree_refl|]. intros h'. apply agree_bind; [apply agree_handle|]. intros _. apply agree_bind; [apply agree_refl|].
  intros w0. destruct (_ && _)%bool; [apply IH|apply agree_refl].
Qed.
Lemma agree_listen : agree (listen_with c1) (listen_with c2).
Proof.
  unfold listen_with. apply agree_bind; [apply agree_refl|]. intros _. apply agree_bind; [apply agree_refl|]. intros w0. apply agree_try, agree_listen_loop.
Qed.
End Rel.

(** [listen_with] is listen. *)
Lemma listen_with_notify react w : listen_with (notify react) w = listen react w.
Proof. reflexivity. Qed.

(** * Listener code *)
Definition keeps {A} (m : M A) : Prop := forall w, s_listener (w_sock (snd (m w))) = s_listener (w_sock w).
Lemma keeps_bind {A B} (m : M A) (f : A -> M B) : keeps m -> (forall a, keeps (f a)) -> keeps (bind m f).
Proof. intros H1 H2 w. unfold bind. specialize (H1 w). destruct (m w) as [[a|e| |u|] w']; cbn [snd] in *; try exact H1. now rewrite H2. Qed.
Lemma keeps_ret {A} (a : A) : keeps (ret a). Proof. now intros w. Qed.
Lemma keeps_throw {A} e : keeps (@throw A e). Proof. now intros w. Qed.
Lemma keeps_undef {A} e : keeps (@undef A e). Proof. now intros w. Qed.
Lemma keeps_get : keeps get. Proof. now intros w. Qed.
Lemma keeps_rnd n : keeps (randomBytes n). Proof. now intros w. Qed.
Lemma keeps_try m : keeps m -> keeps (try_ m).
Proof. intros H w. unfold try_. specialize (H w). destruct (m w) as [[a|e| |u|] w']; exact H. Qed.
Lemma keeps_write d : keeps (writeExactSizeDataSimple d).
Proof. intros w. unfold writeExactSizeDataSimple. destruct (writeExact_raw d (w_wr w)) as [[[] ?] ?]; reflexivity. Qed.
Lemma keeps_stop : keeps stopListening. Proof. now intros w. Qed.
#[local] Hint Resolve keeps_ret keeps_throw keeps_undef keeps_get keeps_rnd keeps_try keeps_write keeps_stop : quiet.
Ltac keeps := repeat (first [apply keeps_bind; [|intros]|progress cbv zeta|match goal with
  | |- keeps (if ?b then _ else _) => destruct b | |- keeps (match ?x with _ => _ end) => destruct x end|solve [auto with quiet]]).
Lemma keeps_writeHeader h : keeps (writeFrameHeader h).
Proof. unfold writeFrameHeader. keeps. Qed.
#[local] Hint Resolve keeps_writeHeader : quiet.
Lemma keeps_sendHeader h fin op n : keeps (sendFrameHeader h fin op n).
Proof. unfold sendFrameHeader. keeps. Qed.
#[local] Hint Resolve keeps_sendHeader : quiet.
Lemma keeps_sendOne fin op m : keeps (sendOneFrame fin op m).
Proof. unfold sendOneFrame. keeps. Qed.
#[local] Hint Resolve keeps_sendOne : quiet.
Lemma keeps_send op : keeps (send op).
Proof. unfold send, sendChecked. keeps. Qed.
#[local] Hint Resolve keeps_send : quiet.
Lemma keeps_cmd c : (forall x, c <> CSetListener x) -> keeps (exec_cmd c).
Proof. intros H. destruct c; try (intros w; reflexivity); [destruct (H l eq_refl)| |]; unfold exec_cmd, demand; keeps. Qed.

Section Code.
Variables (kept : nat -> bool) (react : react_t).
Definition dead (w : world) : Prop := died_running kept react (w_log w).

Lemma exec_agree l log : forall cs first w, react l log = first ++ cs -> w_log w = log -> (exists before ev, log = before ++ [(l, ev)]) ->
  (alive kept l w = true \/ (kept l = false /\ exists a x b, first = a ++ CSetListener x :: b /\ x <> Some l)) ->
  exec_owned kept l cs w = exec_cmds cs w \/ exists w2, exec_owned kept l cs w = (Ub UbDangling, w2) /\ dead w2.
Proof.
  induction cs as [|c cs IH]; intros first w Hr Hl Hlog Ha; [now left|]. cbn [exec_owned exec_cmds]. unfold bind.
  destruct (alive kept l w) eqn:Ea.
  - clear Ha. pose proof (quiet_cmd c w) as Hq. destruct (exec_cmd c w) as [[[]|e| |u|] w'] eqn:Ec; try (now left). cbn [snd] in Hq.
    apply (IH (first ++ [c])).
    + rewrite Hr, <- app_assoc. reflexivity.
    + now rewrite Hq.
    + exact Hlog.
    + destruct (alive kept l w') eqn:Ea'; [now left|]. right. unfold alive in Ea'. apply Bool.orb_false_iff in Ea' as [K1 K2]. split; [exact K1|].
      assert (exists x, c = CSetListener x) as [x ->].
      { assert ({x | c = CSetListener x} + {forall x, c <> CSetListener x}) as [[x ->]|H] by (destruct c; try (right; discriminate); left; eauto); [eauto|].
        exfalso. pose proof (keeps_cmd c H w) as Hk. rewrite Ec in Hk. cbn [snd] in Hk. rewrite Hk in K2. unfold alive in Ea. rewrite K1, K2 in Ea. discriminate. }
      exists first, x, []. split; [reflexivity|]. intros ->. cbn in Ec. injection Ec as <-. cbn in K2. now rewrite Nat.eqb_refl in K2.
  - right. destruct Ha as [Ha|(K & a & x & b & F & X)]; [discriminate|]. exists w. split; [reflexivity|]. destruct Hlog as (before & ev & Hlog).
    exists before, l, ev. rewrite Hl. split; [exact Hlog|]. split; [exact K|]. exists a, x, (b ++ c :: cs). split; [rewrite Hr, F, <- app_assoc; reflexivity|]. split; [exact X|]. now destruct b.
Qed.
Lemma notify_agree ev : agree dead (notify react ev) (notify_owned kept react ev).
Proof.
  intros w. unfold notify, notify_owned. destruct (s_listener (w_sock w)) as [l|] eqn:El; [|now left].
  set (log := w_log w ++ [(l, ev)]). set (w' := set_log w log).
  destruct (exec_agree l log (react l log) [] w' eq_refl eq_refl) as [H|H]; [now exists (w_log w), ev|left; unfold alive; cbn; rewrite El, Nat.eqb_refl; apply Bool.orb_true_r|left; exact H|right; exact H].
Qed.
End Code.

(** * C93 *)
(** The only way a listener is destroyed while its code runs: it made the socket forget it in that very call, did something afterwards, and nobody else held
    a reference. In every other run, destroying listeners has no effect on listen(). *)
Theorem C93_only_way : forall kept react w, listen_owned kept react w = listen react w \/
  exists w2, listen_owned kept react w = (Ub UbDangling, w2) /\ died_running kept react (w_log w2).
Proof.
  intros kept react w. unfold listen_owned.
  destruct (agree_listen (dead kept react) (notify react) (notify_owned kept react) (notify_agree kept react) w) as [H|H]; [left; rewrite H; apply listen_with_notify|right; exact H].
Qed.
Print Assumptions C93_only_way.

(** So replacing the listener from a callback is safe if it is the last thing the callback does, or if the application keeps the listener. *)
Theorem C93_safe_partial : forall kept react w, (forall l log, kept l = true \/ ~ saws_off react l log) -> listen_owned kept react w = listen react w.
Proof.
  intros kept react w H. destruct (C93_only_way kept react w) as [E|(w2 & _ & before & l & ev & _ & K & S)]; [exact E|].
  exfalso. destruct (H l (w_log w2)) as [G|G]; [congruence|contradiction].
Qed.
Print Assumptions C93_safe_partial.

(** Otherwise it is undefined behaviour, for every listener that sets another one and then does anything else, as soon as it is called: here for a
    ping without payload. *)
Theorem C93_self_replacing_refuted : forall kept react w l x c cs rest, s_listener (w_sock w) = Some l -> kept l = false -> x <> Some l ->
  react l (w_log w ++ [(l, EvPing [])]) = CSetListener x :: c :: cs -> w_in w = RData x89 [x00] :: rest -> (0 <= s_buf (w_sock w))%Z ->
  exists w2, listen_owned kept react w = (Ub UbDangling, w2) /\ w_log w2 = w_log w ++ [(l, EvPing [])].
Proof.
  intros kept react w l x c cs rest Hl Hk Hx Hr Hi Hb. destruct w as [i wr out rnd pos log [m b ls la li]]. cbn in *. subst i ls.
  destruct (b <? 0)%Z eqn:Eb; [apply Z.ltb_lt in Eb; lia|].
  unfold listen_owned, listen_with, bind, modify_sock, get, try_. cbn [w_sock w_in set_sock set_listening s_buf].
  cbn [loop_with script_size].
  set (so := set_listening (Sock m b (Some l) la li) true).
  assert (readFrameHeader header_init (set_sock (World (RData x89 [x00] :: rest) wr out rnd pos log (Sock m b (Some l) la li)) so) =
    (Ret (Header true false false false 9 false 0 mask0), World rest wr out rnd pos log so)) as Hh by (vm_compute; reflexivity).
  unfold bind. rewrite Hh. clear Hh. unfold handleFrame_with. cbn [h_opcode]. unfold readPayload_with. cbn [h_len h_fin Z.ltb Z.compare andb]. unfold bind, get. cbn [w_sock so set_listening s_buf].
  cbv zeta. cbn [s_buf s_mask s_listener s_last s_listening]. rewrite Eb. cbn [payload_with h_len Z.ltb Z.compare]. unfold ret. cbn [str].
  unfold notify_owned. subst so. cbn [w_sock s_listener set_listening w_log set_log]. rewrite Hr. cbn [exec_owned]. unfold bind.
  unfold alive at 1. cbn [w_sock s_listener set_log set_sock set_listening]. rewrite Nat.eqb_refl, Bool.orb_true_r. cbn [exec_cmd]. unfold modify_sock.
  unfold alive at 1. cbn [w_sock s_listener set_sock set_listener]. rewrite Hk. cbn [orb].
  assert (match x with Some l' => Nat.eqb l' l | None => false end = false) as -> by (destruct x as [l'|]; [apply Nat.eqb_neq; congruence|reflexivity]).
  eexists. split; reflexivity.
Qed.
Print Assumptions C93_self_replacing_refuted.

(** A listener that, when pinged, installs listener 1 and answers; and one that answers first. *)
Definition wrong_order : react_t := fun l _ => match l with O => [CSetListener (Some 1%nat); CSend false (SoPong (Some []))] | _ => [] end.
Definition right_order : react_t := fun l _ => match l with O => [CSend false (SoPong (Some [])); CSetListener (Some 1%nat)] | _ => [] end.
Definition pinged : world := World [RData x89 [x00]] [] [] (fun _ => x00) 0 [] (Sock false 16 (Some 0%nat) (-1) false).
Example C93_nonvacuous :
  (exists w2, listen_owned (fun _ => false) wrong_order pinged = (Ub UbDangling, w2)) /\
  listen_owned (fun _ => true) wrong_order pinged = listen wrong_order pinged /\
  (forall l log, ~ saws_off right_order l log) /\ listen_owned (fun _ => false) right_order pinged = listen right_order pinged.
Proof.
  assert (forall l log, ~ saws_off right_order l log) as H.
  { intros [|l] log (first & x & rest & E & _ & Hr); cbn in E.
    - destruct first as [|a [|b [|d first]]]; try discriminate; injection E; intros; subst; congruence.
    - destruct first; discriminate. }
  split; [|split; [|split; [exact H|]]].
  - destruct (C93_self_replacing_refuted (fun _ => false) wrong_order pinged 0 (Some 1%nat) (CSend false (SoPong (Some []))) [] [] eq_refl eq_refl) as (w2 & E & _);
      [discriminate|reflexivity|reflexivity|cbn; lia|]. now exists w2.
  - apply C93_safe_partial. now left.
  - apply C93_safe_partial. intros l log. right. apply H.
Qed.
