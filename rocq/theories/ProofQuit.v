(** Listener code that gives up (throws) at some point, compared with the same code without the throws. *)
From Verif Require Import Bytes Frame World WebSocket SpecFrame SpecSend SpecListen SpecApi SpecReply SpecAsync SpecTalk SpecMixed
  ProofStream ProofAsync3.
Local Open Scope N_scope.
Local Open Scope m_scope.
Local Arguments takeN : simpl never.
Local Arguments dropN : simpl never.
Local Arguments lenN : simpl never.
Local Arguments be_enc : simpl never.
Local Arguments be_dec : simpl never.

Definition quiet {A} (m : M A) : Prop := forall w, w_log (snd (m w)) = w_log w.
Lemma quiet_bind {A B} (m : M A) (f : A -> M B) : quiet m -> (forall a, quiet (f a)) -> quiet (bind m f).
Proof. intros H1 H2 w. unfold bind. specialize (H1 w). destruct (m w) as [[a|e| |u|] w']; cbn [snd] in *; try exact H1. now rewrite H2. Qed.
Lemma quiet_ret {A} (a : A) : quiet (ret a). Proof. now intros w. Qed.
Lemma quiet_throw {A} e : quiet (@throw A e). Proof. now intros w. Qed.
Lemma quiet_undef {A} e : quiet (@undef A e). Proof. now intros w. Qed.
Lemma quiet_get : quiet get. Proof. now intros w. Qed.
Lemma quiet_sock f : quiet (modify_sock f). Proof. now intros w. Qed.
Lemma quiet_rnd n : quiet (randomBytes n). Proof. now intros w. Qed.
Lemma quiet_try m : quiet m -> quiet (try_ m).
Proof. intros H w. unfold try_. specialize (H w). destruct (m w) as [[a|e| |u|] w']; exact H. Qed.
Lemma quiet_write d : quiet (writeExactSizeDataSimple d).
Proof. intros w. unfold writeExactSizeDataSimple. destruct (writeExact_raw d (w_wr w)) as [[[] ?] ?]; reflexivity. Qed.
Lemma quiet_readSimple n : quiet (readSimple n).
Proof. intros w. unfold readSimple. destruct (n <? 0)%Z; [reflexivity|]. destruct (n =? 0)%Z; [reflexivity|]. destruct (read_raw _ _ _) as [[[] ?] ?]; reflexivity. Qed.
Lemma quiet_readExact n : quiet (readExactSizeDataSimple n).
Proof. intros w. unfold readExactSizeDataSimple. destruct (readExact_raw _ _ _) as [[[] ?] ?]; reflexivity. Qed.
Create HintDb quiet.
#[local] Hint Resolve quiet_ret quiet_throw quiet_undef quiet_get quiet_sock quiet_rnd quiet_try quiet_write quiet_readSimple quiet_readExact : quiet.
Ltac quiet := repeat (first [apply quiet_bind; [|intros]|progress cbv zeta|match goal with
  | |- quiet (if ?b then _ else _) => destruct b | |- quiet (match ?x with _ => _ end) => destruct x end|solve [auto with quiet]]).
Lemma quiet_writeHeader h : quiet (writeFrameHeader h).
Proof. unfold writeFrameHeader. quiet. Qed.
#[local] Hint Resolve quiet_writeHeader : quiet.
Lemma quiet_sendHeader h fin op n : quiet (sendFrameHeader h fin op n).
Proof. unfold sendFrameHeader. quiet. Qed.
#[local] Hint Resolve quiet_sendHeader : quiet.
Lemma quiet_sendOne fin op m : quiet (sendOneFrame fin op m).
Proof. unfold sendOneFrame. quiet. Qed.
#[local] Hint Resolve quiet_sendOne : quiet.
Lemma quiet_send op : quiet (send op).
Proof. unfold send, sendChecked, stopListening. quiet. Qed.
#[local] Hint Resolve quiet_send : quiet.
Lemma quiet_cmd c : quiet (exec_cmd c).
Proof. unfold exec_cmd, demand, stopListening. quiet. Qed.
Lemma quiet_cmds cs : quiet (exec_cmds cs).
Proof. induction cs as [|c cs IH]; cbn [exec_cmds]; [apply quiet_ret|]. apply quiet_bind; [apply quiet_cmd|intros _; exact IH]. Qed.
Lemma quiet_header h : quiet (readFrameHeader h).
Proof. unfold readFrameHeader. quiet. Qed.
Lemma quiet_check h : quiet (checkForContinuation h).
Proof. unfold checkForContinuation. quiet. Qed.

Section Cut.
Variable q : list (nat * event) -> bool.
(** The calls up to the first one at which [q] holds; whether there is one. *)
Fixpoint cut (pre new : list (nat * event)) : list (nat * event) :=
  match new with [] => [] | e :: r => e :: (if q (pre ++ [e]) then [] else cut (pre ++ [e]) r) end.
Fixpoint has (pre new : list (nat * event)) : bool :=
  match new with [] => false | e :: r => q (pre ++ [e]) || has (pre ++ [e]) r end.
Lemma has_app a : forall pre b, has pre (a ++ b) = (has pre a || has (pre ++ a) b)%bool.
Proof.
  induction a as [|e a IH]; intros pre b; cbn [app has]; [now rewrite app_nil_r|].
  rewrite IH, <- app_assoc. now rewrite Bool.orb_assoc.
Qed.
Lemma cut_app a : forall pre b, cut pre (a ++ b) = if has pre a then cut pre a else a ++ cut (pre ++ a) b.
Proof.
  induction a as [|e a IH]; intros pre b; cbn [app cut has]; [now rewrite app_nil_r|].
  destruct (q (pre ++ [e])); cbn [orb]; [reflexivity|]. rewrite IH. destruct (has (pre ++ [e]) a); [reflexivity|].
  now rewrite <- app_assoc.
Qed.
Lemma cut_free new : forall pre, has pre new = false -> cut pre new = new.
Proof.
  induction new as [|e r IH]; intros pre H; [reflexivity|]. cbn [cut has] in *. apply Bool.orb_false_iff in H as [-> H]. now rewrite (IH _ H).
Qed.

Variables r1 r2 : react_t.
Hypothesis Hq : forall l log, r1 l log = r2 l log ++ (if q log then [CThrow] else []).

Definition vs {A} (m1 m2 : M A) : Prop := forall w o2 w2, m2 w = (o2, w2) ->
  exists new, w_log w2 = w_log w ++ new /\
   ((m1 w = (o2, w2) /\ has (w_log w) new = false) \/
    (m1 w = (o2, w2) /\ (forall a, o2 <> Ret a) /\ cut (w_log w) new = new) \/
    (exists w1, m1 w = (Throw ExListener, w1) /\ w_log w1 = w_log w ++ cut (w_log w) new /\ has (w_log w) new = true)).
Lemma vs_quiet {A} (m : M A) : quiet m -> vs m m.
Proof.
  intros H w o2 w2 E. exists []. rewrite app_nil_r. pose proof (H w) as G. rewrite E in G. split; [exact G|]. left. auto.
Qed.
Lemma vs_bind {A B} (m1 m2 : M A) (f1 f2 : A -> M B) : vs m1 m2 -> (forall a, vs (f1 a) (f2 a)) -> vs (bind m1 f1) (bind m2 f2).
Proof.
  intros Hm Hf w o2 w2 E. unfold bind in E. destruct (m2 w) as [o w'] eqn:E1. destruct (Hm _ _ _ E1) as (n1 & L1 & [[C1 C2]|[(C1 & C2 & C3)|(w1 & C1 & C2 & C3)]]).
  - destruct o as [a|e| |u|].
    1: { destruct (Hf a _ _ _ E) as (n2 & L2 & D). exists (n1 ++ n2). rewrite app_assoc, <- L1. split; [exact L2|]. unfold bind. rewrite C1, has_app, cut_app, C2, <- L1. cbn [orb].
      destruct D as [[D1 D2]|[(D1 & D2 & D3)|(w1 & D1 & D2 & D3)]]; [left; auto|right; left; rewrite D3; auto|right; right; exists w1; rewrite app_assoc, <- L1; auto]. }
    all: injection E as <- <-; exists n1; split; [exact L1|]; left; unfold bind; rewrite C1; auto.
  - destruct o as [a|e| |u|]; [destruct (C2 a eq_refl)|..]; injection E as <- <-; exists n1; (split; [exact L1|]); right; left; unfold bind; rewrite C1; (split; [reflexivity|]); split; auto; discriminate.
  - assert (exists n2, w_log w2 = w_log w' ++ n2) as [n2 L2].
    { destruct o as [a|e| |u|]; [destruct (Hf a _ _ _ E) as (n2 & L2 & _); eauto|..]; injection E as <- <-; exists []; now rewrite app_nil_r. }
    exists (n1 ++ n2). rewrite app_assoc, <- L1. split; [exact L2|]. right. right. exists w1. unfold bind. rewrite C1, has_app, cut_app, C3. auto.
Qed.
Lemma exec_throw cs : forall w, exec_cmds (cs ++ [CThrow]) w = match exec_cmds cs w with (Ret tt, w') => (Throw ExListener, w') | r => r end.
Proof.
  induction cs as [|c cs IH]; intros w; [reflexivity|]. cbn [app exec_cmds]. unfold bind. destruct (exec_cmd c w) as [[a|e| |u|] w']; try reflexivity. apply IH.
Qed.
Lemma vs_notify ev : vs (notify r1 ev) (notify r2 ev).
Proof.
  intros w o2 w2 E. unfold notify in *. destruct (s_listener (w_sock w)) as [l|].
  2: { injection E as <- <-. exists []. rewrite app_nil_r. auto. }
  cbn [set_log w_log] in *. set (w0 := set_log w (w_log w ++ [(l, ev)])) in *. set (log := w_log w ++ [(l, ev)]) in *.
  pose proof (quiet_cmds (r2 l log) w0) as Hlog. rewrite E in Hlog. cbn [snd] in Hlog. exists [(l, ev)]. split; [exact Hlog|].
  rewrite Hq. cbn [has cut]. fold log. destruct (q log) eqn:Eq; cbn [orb].
  - rewrite exec_throw, E. destruct o2 as [[]|e| |u|]; [right; right; exists w2; auto|right; left; repeat split; try discriminate; reflexivity..].
  - left. rewrite app_nil_r. auto.
Qed.
Lemma vs_loop fuel : forall h s al pr, vs (readPayload_loop r1 fuel h s al pr) (readPayload_loop r2 fuel h s al pr).
Proof.
  induction fuel as [|fuel IH]; intros h s al pr; cbn [readPayload_loop]; [apply vs_quiet; now intros w|].
  destruct (pr <? h_len h)%Z; [|apply vs_quiet, quiet_ret].
  apply vs_bind; [apply vs_quiet, quiet_get|]. intros w0. cbv zeta. apply vs_bind; [apply vs_quiet, quiet_readSimple|].
  intros [d|[]]; [|apply IH|apply vs_quiet, quiet_throw|apply vs_quiet, quiet_throw].
  destruct (al <? _)%Z; [apply vs_quiet, quiet_undef|]. destruct s; [apply IH|]. apply vs_bind; [apply vs_notify|]. intros _. apply IH.
Qed.
Lemma vs_payload h s : vs (readPayload r1 h s) (readPayload r2 h s).
Proof.
  unfold readPayload. destruct (_ && _)%bool; [apply vs_quiet, quiet_throw|].
  apply vs_bind; [apply vs_quiet, quiet_get|]. intros w0. cbv zeta. destruct (_ <? 0)%Z; [apply vs_quiet, quiet_throw|].
  apply vs_bind; [apply vs_loop|]. intros s'. apply vs_bind; [|intros _; apply vs_quiet, quiet_ret].
  destruct s; [apply vs_quiet, quiet_ret|]. destruct (h_fin h); [apply vs_notify|apply vs_quiet, quiet_ret].
Qed.
Lemma vs_handle h : vs (handleFrame r1 h) (handleFrame r2 h).
Proof.
  assert (vs (bind (readPayload r1 h None) (fun _ => ret tt)) (bind (readPayload r2 h None) (fun _ => ret tt))) as H1.
  { apply vs_bind; [apply vs_payload|intros; apply vs_quiet, quiet_ret]. }
  assert (forall f, vs (bind (readPayload r1 h (Some [])) (fun p => notify r1 (f p))) (bind (readPayload r2 h (Some [])) (fun p => notify r2 (f p)))) as H2.
  { intros f. apply vs_bind; [apply vs_payload|intros; apply vs_notify]. }
  assert (vs (bind (checkForContinuation h) (fun ok : bool => if ok then bind (readPayload r1 h None) (fun _ => ret tt) else throw ExContinuationExpected))
    (bind (checkForContinuation h) (fun ok : bool => if ok then bind (readPayload r2 h None) (fun _ => ret tt) else throw ExContinuationExpected))) as H3.
  { apply vs_bind; [apply vs_quiet, quiet_check|]. intros []; [exact H1|apply vs_quiet, quiet_throw]. }
  unfold handleFrame.
  destruct (h_opcode h) as [|[[[[p|p|]|[p|p|]|]|[[p|p|]|[p|p|]|]|]|[[[p|p|]|[p|p|]|]|[[p|p|]|[p|p|]|]|]|]];
    first [apply vs_quiet, quiet_throw | exact H3 | exact (H2 (fun p => EvPing (str p))) | exact (H2 (fun p => EvPong (str p)))
          | exact (H2 (fun p => EvClose (close_code (str p)) (close_reason (str p)))) | idtac].
  apply vs_bind; [apply vs_quiet, quiet_get|]. intros w0. destruct (_ <? 0)%Z; [apply vs_quiet, quiet_throw|exact H1].
Qed.
Lemma vs_listen_loop fuel : forall h, vs (listen_loop r1 fuel h) (listen_loop r2 fuel h).
Proof.
  induction fuel as [|fuel IH]; intros h; cbn [listen_loop]; [apply vs_quiet; now intros w|].
  apply vs_bind; [apply vs_quiet, quiet_header|]. intros h'. apply vs_bind; [apply vs_handle|]. intros _. apply vs_bind; [apply vs_quiet, quiet_get|].
  intros w0. destruct (_ && _)%bool; [apply IH|apply vs_quiet, quiet_ret].
Qed.
Lemma vs_listen_try : vs (listen_try r1) (listen_try r2).
Proof.
  unfold listen_try. apply vs_bind; [apply vs_quiet, quiet_sock|]. intros _. apply vs_bind; [apply vs_quiet, quiet_get|]. intros w0. apply vs_listen_loop.
Qed.
(** What the listeners of the code that gives up are told. *)
Lemma cut_listen_try w o1 w1 o2 w2 : listen_try r1 w = (o1, w1) -> listen_try r2 w = (o2, w2) ->
  exists new, w_log w2 = w_log w ++ new /\ w_log w1 = w_log w ++ cut (w_log w) new.
Proof.
  intros E1 E2. destruct (vs_listen_try w o2 w2 E2) as (new & L & [[C1 C2]|[(C1 & C2 & C3)|(w3 & C1 & C2 & C3)]]); exists new; (split; [exact L|]); rewrite E1 in C1; injection C1 as -> ->.
  - now rewrite cut_free.
  - now rewrite C3.
  - exact C2.
Qed.
Lemma cut_listen w o1 w1 o2 w2 : listen r1 w = (o1, w1) -> listen r2 w = (o2, w2) ->
  exists new, w_log w2 = w_log w ++ new /\ w_log w1 = w_log w ++ cut (w_log w) new.
Proof.
  rewrite !listen_of_try. destruct (listen_try r1 w) as [o1' w1'] eqn:E1, (listen_try r2 w) as [o2' w2'] eqn:E2. intros F1 F2.
  replace w1 with w1' by (destruct o1'; congruence). replace w2 with w2' by (destruct o2'; congruence). eapply cut_listen_try; eassumption.
Qed.
End Cut.
