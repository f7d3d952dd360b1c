(** Property theorems about a blocking socket on which other threads call stopListening, setListener and setConfig, part 3: nobody
    else (C69), and the window between the two loads of the listener (C70). *)
From Verif Require Import Bytes Frame World WebSocket SpecFrame SpecSend SpecListen SpecApi SpecConfig SpecAsync Threads SpecThreads
  ProofFrame ProofStream ProofSend ProofHeader ProofListen ProofInv ProofAsync ProofThreads PropThreads PropThreads2.
From Coq Require Import ZifyBool ZifyNat ZifyN.
Local Open Scope N_scope.
Local Arguments takeN : simpl never.
Local Arguments dropN : simpl never.
Local Arguments lenN : simpl never.
Local Arguments be_enc : simpl never.
Local Arguments be_dec : simpl never.

(** A call of setListener(nullptr) after [k] accesses without any call. *)
Definition pull_after (k : nat) : list (list ext) := repeat [] k ++ [[XSetListener None]].

Definition par {A} (m : TM A) (n : M A) (w : world) : Prop := forall tr,
  exists o w' new, n w = (o, w') /\ w_log w' = w_log w ++ new /\
  (exists tr', m (TWorld w [] tr) = (o, TWorld w' [] tr')) /\
  (new = [] -> exists k tr', forall xss, m (TWorld w (repeat [] k ++ xss) tr) = (o, TWorld w' xss tr')) /\
  (new <> [] -> exists k t', m (TWorld w (pull_after k) tr) = (Ub UbNull, t')).

Lemma par_bind {A B} (m : TM A) (n : M A) (f : A -> TM B) (g : A -> M B) w :
  par m n w -> (forall a w', n w = (Ret a, w') -> par (f a) (g a) w') -> par (tbind m f) (bind n g) w.
Proof.
  intros Hm Hf tr. destruct (Hm tr) as (o1 & w1 & new1 & E & HL & (tr1 & E1) & H1 & H2). unfold bind, tbind. rewrite E.
  destruct o1 as [a|e| |u|].
  2-5: eexists _, w1, new1; split; [reflexivity|]; split; [exact HL|]; split; [exists tr1; rewrite E1; reflexivity|]; split;
    [intros Hn; destruct (H1 Hn) as (k & tr' & HK); exists k, tr'; intros xss; now rewrite HK
    |intros Hn; destruct (H2 Hn) as (k & t' & HK); exists k, t'; now rewrite HK].
  specialize (Hf a w1 E).
  destruct (Hf tr1) as (o2 & w2 & new2 & F & FL & (tr2 & F1) & _ & _). rewrite F. exists o2, w2, (new1 ++ new2). split; [reflexivity|].
  split; [now rewrite FL, HL, app_assoc|]. split; [exists tr2; now rewrite E1|]. split.
  - intros Hn. apply app_eq_nil in Hn. destruct Hn as [Hn1 Hn2]. destruct (H1 Hn1) as (k & tr' & HK).
    destruct (Hf tr') as (o3 & w3 & new3 & F' & FL' & _ & H3 & _). rewrite F in F'. injection F' as <- <-.
    assert (new3 = []) as Hn3 by (apply (app_inv_head (w_log w1)); rewrite <- FL', FL, Hn2; reflexivity).
    destruct (H3 Hn3) as (k' & tr'' & HK'). exists (k + k')%nat, tr''. intros xss. rewrite repeat_app, <- app_assoc, HK. apply HK'.
  - intros Hn. destruct new1 as [|x new1].
    + destruct (H1 eq_refl) as (k & tr' & HK). destruct (Hf tr') as (o3 & w3 & new3 & F' & FL' & _ & _ & H4). rewrite F in F'. injection F' as <- <-.
      assert (new3 = new2) as -> by (apply (app_inv_head (w_log w1)); rewrite <- FL'; exact FL).
      destruct (H4 Hn) as (k' & t' & HK'). exists (k + k')%nat, t'. unfold pull_after. rewrite repeat_app, <- app_assoc, HK. exact HK'.
    + destruct H2 as (k & t' & HK); [discriminate|]. exists k, t'. now rewrite HK.
Qed.
Lemma par_local {A} (n : M A) w : w_log (snd (n w)) = w_log w -> par (local n) n w.
Proof.
  intros H tr. destruct (n w) as [o w'] eqn:E. cbn in H. exists o, w', []. split; [reflexivity|]. split; [now rewrite app_nil_r|]. unfold local. cbn [t_world t_calls t_trace].
  rewrite E. split; [eauto|]. split; [|congruence]. intros _. exists 0%nat, tr. reflexivity.
Qed.
Lemma par_ret {A} (a : A) w : par (tret a) (ret a) w.
Proof. intros tr. exists (Ret a), w, []. split; [now try exact E|]. split; [now rewrite app_nil_r|]. split; [exists tr; reflexivity|]. split; [|congruence]. intros _. exists 0%nat, tr. reflexivity. Qed.
Lemma par_fail {A} (o : outcome A) (n : M A) w : n w = (o, w) -> par (tfail o) n w.
Proof. intros E tr. exists o, w, []. split; [now try exact E|]. split; [now rewrite app_nil_r|]. split; [exists tr; reflexivity|]. split; [|congruence]. intros _. exists 0%nat, tr. reflexivity. Qed.
Lemma same_sock w : set_sock w (w_sock w) = w.
Proof. now destruct w. Qed.
Lemma par_interleave {B} (m : TM B) (n : M B) w : par m n w -> par (tbind interleave (fun _ => m)) n w.
Proof.
  intros H tr. destruct (H tr) as (o & w' & new & E & HL & (tr1 & E1) & _ & _). exists o, w', new. split; [exact E|]. split; [exact HL|].
  split; [exists tr1; exact E1|].
  destruct (H (tr ++ [])) as (o2 & w2 & new2 & E2 & HL2 & _ & H1 & H2). rewrite E in E2. injection E2 as <- <-.
  assert (new2 = new) as -> by (apply (app_inv_head (w_log w)); rewrite <- HL2; exact HL).
  split.
  - intros Hn. destruct (H1 Hn) as (k & tr' & HK). exists (S k), tr'. intros xss. unfold tbind, interleave. cbn [repeat app t_calls t_world t_trace fold_left map].
    rewrite same_sock. apply HK.
  - intros Hn. destruct (H2 Hn) as (k & t' & HK). exists (S k), t'. unfold pull_after, tbind, interleave. cbn [repeat app t_calls t_world t_trace fold_left map].
    rewrite same_sock. exact HK.
Qed.
Lemma par_get {B} (m : world -> TM B) (n : world -> M B) w : par (m w) (n w) w -> par (tbind tget m) (bind get n) w.
Proof. intros H. exact H. Qed.
Lemma par_tget {B} (m : world -> TM B) (n : M B) w : par (m w) n w -> par (tbind tget m) n w.
Proof. intros H. exact H. Qed.
Lemma par_eq {A} (m m' : TM A) n w : (forall t, m t = m' t) -> par m' n w -> par m n w.
Proof.
  intros He H tr. destruct (H tr) as (o & w' & new & E & HL & (tr1 & E1) & H1 & H2). exists o, w', new. split; [exact E|]. split; [exact HL|].
  split; [exists tr1; now rewrite He|]. split.
  - intros Hn. destruct (H1 Hn) as (k & tr' & HK). exists k, tr'. intros. now rewrite He.
  - intros Hn. destruct (H2 Hn) as (k & t' & HK). exists k, t'. now rewrite He.
Qed.
Lemma par_access {A B} (f : sock -> A) (m : A -> TM B) (n : world -> M B) w : par (m (f (w_sock w))) (n w) w -> par (tbind (access f) m) (bind get n) w.
Proof.
  intros H. change (bind get n w) with (n w w) in *. eapply par_eq; [|apply (par_interleave (tbind tget (fun w => m (f (w_sock w)))))].
  - intros t. unfold access, tbind, tget, tret. destruct (interleave t) as [[] ?]; reflexivity.
  - exact H.
Qed.
Lemma par_mark {B} e (m : TM B) n w : par m n w -> par (tbind (mark e) (fun _ => m)) n w.
Proof.
  intros H tr. destruct (H (tr ++ [e])) as (o & w' & new & E & HL & (tr1 & E1) & H1 & H2). exists o, w', new. split; [exact E|]. split; [exact HL|].
  unfold tbind, mark. cbn [t_world t_calls t_trace]. eauto.
Qed.

Section Par.
Variable react : react_t.
Lemma par_cmd c w : par (texec_cmd c) (exec_cmd c) w.
Proof.
  unfold texec_cmd. apply par_interleave.
  assert (par (local (exec_cmd c)) (exec_cmd c) w) as H.
  { apply par_local. destruct (exec_cmd c w) as [o w'] eqn:E. apply exec_cmd_effect in E. apply E. }
  destruct c; try (apply par_mark; exact H); exact H.
Qed.
Lemma par_cmds cs : forall w, par (texec_cmds cs) (exec_cmds cs) w.
Proof. induction cs as [|c cs IH]; intros w; cbn [texec_cmds exec_cmds]; [apply par_ret|]. apply par_bind; [apply par_cmd|intros; apply IH]. Qed.

Lemma exec_cmds_log cs : forall w, w_log (snd (exec_cmds cs w)) = w_log w.
Proof.
  induction cs as [|c cs IH]; intros w; [reflexivity|]. cbn [exec_cmds]. unfold bind. destruct (exec_cmd c w) as [o w1] eqn:E. apply exec_cmd_effect in E.
  destruct E as (_ & E & _). destruct o; try exact E. rewrite IH. exact E.
Qed.
Lemma par_notify ev w : par (tnotify react ev) (notify react ev) w.
Proof.
  intros tr. unfold notify. destruct (s_listener (w_sock w)) as [l|] eqn:El.
  - cbv zeta. cbn [w_log set_log].
    set (w1 := set_log w (w_log w ++ [(l, ev)])). destruct (exec_cmds (react l (w_log w ++ [(l, ev)])) w1) as [o w'] eqn:E.
    exists o, w', [(l, ev)]. split; [reflexivity|]. pose proof (exec_cmds_log (react l (w_log w ++ [(l, ev)])) w1) as HL. rewrite E in HL. split; [exact HL|].
    split; [|split; [discriminate|]].
    + destruct (par_cmds (react l (w_log w ++ [(l, ev)])) w1 (tr ++ [TCall (Some l) ev])) as (o2 & w2 & new2 & E2 & _ & (tr2 & E3) & _). rewrite E in E2. injection E2 as <- <-.
      exists tr2. unfold tnotify, access, tbind, interleave, tget, tret, mark, local. cbn [t_calls t_world t_trace]. rewrite El. cbn [w_log set_log t_calls t_world t_trace]. rewrite El. exact E3.
    + intros _. exists 1%nat. eexists. unfold pull_after, tnotify, access, tbind, interleave, tget, tret, mark, local. cbn [t_calls t_world t_trace repeat app fold_left map].
      rewrite same_sock, El. cbn [t_calls t_world t_trace fold_left map apply_ext w_sock set_sock s_listener set_listener]. reflexivity.
  - exists (Ret tt), w, []. split; [reflexivity|]. split; [now rewrite app_nil_r|]. split; [|split; [|congruence]].
    + eexists. unfold tnotify, access, tbind, interleave, tget, tret, mark. cbn [t_calls t_world t_trace]. rewrite El. reflexivity.
    + intros _. exists 1%nat, ((tr ++ []) ++ [TCall None ev]). intros xss. unfold tnotify, access, tbind, interleave, tget, tret, mark. cbn [t_calls t_world t_trace repeat app fold_left map].
      rewrite same_sock, El. reflexivity.
Qed.
Lemma readSimple_log n w : w_log (snd (readSimple n w)) = w_log w.
Proof.
  unfold readSimple. destruct (n <? 0)%Z; [reflexivity|]. destruct (n =? 0)%Z; [reflexivity|].
  destruct (read_raw (Z.to_N n) (w_in w) (w_sock w)) as [[[] ?] ?]; reflexivity.
Qed.
Lemma par_loop fuel : forall h short alloc pr w, par (treadPayload_loop react fuel h short alloc pr) (readPayload_loop react fuel h short alloc pr) w.
Proof.
  induction fuel as [|fuel IH]; intros h short alloc pr w; cbn [treadPayload_loop readPayload_loop]; [now apply par_fail|].
  destruct (pr <? h_len h)%Z; [|apply par_ret].
  apply par_access. cbv zeta. apply par_bind; [apply par_local, readSimple_log|]. intros [data|[]] w' _; [|apply IH|now apply par_fail|now apply par_fail].
  destruct (alloc <? Z.of_N (lenN data))%Z; [now apply par_fail|]. destruct short; [apply IH|]. apply par_bind; [apply par_notify|intros; apply IH].
Qed.
Lemma par_payload h short w : par (treadPayload react h short) (readPayload react h short) w.
Proof.
  unfold treadPayload, readPayload. destruct (_ && _)%bool; [now apply par_fail|]. apply par_access. cbv zeta. destruct (_ <? 0)%Z; [now apply par_fail|].
  apply par_tget.
  apply par_bind; [apply par_loop|]. intros s w' _. apply par_bind; [|intros; apply par_ret]. destruct short; [apply par_ret|]. destruct (h_fin h); [apply par_notify|apply par_ret].
Qed.
Lemma par_handle h w : par (thandleFrame react h) (handleFrame react h) w.
Proof.
  assert (forall w, par (treadPayload react h None ;;; tret tt)%t (readPayload react h None ;;; ret tt)%m w) as HP
    by (intros; apply par_bind; [apply par_payload|intros; apply par_ret]).
  assert (forall ev, par (p <- treadPayload react h (Some []) ;; tnotify react (ev p))%t (p <- readPayload react h (Some []) ;; notify react (ev p))%m w) as HN
    by (intros ev; apply par_bind; [apply par_payload|intros; apply par_notify]).
  assert (par (ok <- local (checkForContinuation h) ;; if (ok : bool) then treadPayload react h None ;;; tret tt else tfail (Throw ExContinuationExpected))%t
    (ok <- checkForContinuation h ;; if (ok : bool) then readPayload react h None ;;; ret tt else throw ExContinuationExpected)%m w) as HC.
  { apply par_bind; [|intros [] w' _; [apply HP|now apply par_fail]]. apply par_local. unfold checkForContinuation, bind, get, modify_sock, ret. destruct (_ || _)%bool; reflexivity. }
  unfold thandleFrame, handleFrame.
  destruct (h_opcode h) as [|[[[[]|[]|]|[[]|[]|]|]|[[[]|[]|]|[[]|[]|]|]|]]; try (now apply par_fail); try exact HC; try apply HN.
  apply (par_get (fun w => if (s_last (w_sock w) <? 0)%Z then _ else _)). destruct (_ <? 0)%Z; [now apply par_fail|apply HP].
Qed.
Lemma par_listen_loop fuel : forall h w, par (tlisten_loop react fuel h) (listen_loop react fuel h) w.
Proof.
  induction fuel as [|fuel IH]; intros h w; cbn [tlisten_loop listen_loop]; [now apply par_fail|].
  apply par_mark. apply par_bind.
  { apply par_local. destruct (readFrameHeader h w) as [o w'] eqn:E. apply readFrameHeader_spec in E. destruct E as [E _]. apply E. }
  intros h' w' _. apply par_bind; [apply par_handle|]. intros _ w2 _. apply par_access. destruct (_ && _)%bool; [apply IH|apply par_ret].
Qed.
Lemma par_try m n w : par m n w -> par (ttry m) (try_ n) w.
Proof.
  intros H tr. destruct (H tr) as (o & w' & new & E & HL & (tr1 & E1) & H1 & H2). unfold ttry, try_. rewrite E.
  exists (match o with Throw _ => Ret tt | _ => o end), w', new. split; [destruct o; reflexivity|]. split; [exact HL|]. split; [exists tr1; rewrite E1; destruct o; reflexivity|]. split.
  - intros Hn. destruct (H1 Hn) as (k & tr' & HK). exists k, tr'. intros. rewrite HK. destruct o; reflexivity.
  - intros Hn. destruct (H2 Hn) as (k & t' & HK). exists k, t'. now rewrite HK.
Qed.
Lemma par_listen w : par (tlisten react) (listen react) w.
Proof.
  unfold tlisten, listen. apply par_interleave. apply par_mark. apply par_bind; [apply par_local; reflexivity|]. intros _ w' _.
  apply (par_get (fun w => ttry (tlisten_loop react (S (script_size (w_in w))) header_init)) (fun w => try_ (listen_loop react (S (script_size (w_in w))) header_init))).
  apply par_try, par_listen_loop.
Qed.
End Par.

(** Without other threads, listen is what it was in WebSocket.v. *)
Theorem C69_alone : forall react w tr o w', listen react w = (o, w') ->
  exists tr', tlisten react (TWorld w [] tr) = (o, TWorld w' [] tr').
Proof. intros react w tr o w' E. destruct (par_listen react w tr) as (o2 & w2 & new & E2 & _ & H & _). rewrite E in E2. injection E2 as <- <-. exact H. Qed.
Print Assumptions C69_alone.

(** Whenever listening notifies a listener at all, one call of setListener(nullptr) by another thread at a suitable moment makes it
    dereference a null pointer. *)
Theorem C70_null_race_refuted : forall react w o w', listen react w = (o, w') -> w_log w' <> w_log w ->
  exists k t', tlisten react (TWorld w (pull_after k) []) = (Ub UbNull, t').
Proof.
  intros react w o w' E Hn. destruct (par_listen react w []) as (o2 & w2 & new & E2 & HL & _ & _ & H). rewrite E in E2. injection E2 as <- <-.
  apply H. intros ->. apply Hn. rewrite HL. apply app_nil_r.
Qed.
Print Assumptions C70_null_race_refuted.
(** * Concrete cases *)
(** A text message in two parts with a ping between them, then an empty binary frame and a Close frame; five listeners, the odd
    ones answering with a pong and installing listener 2; other threads installing listeners all the time, and one calling
    stopListening while the ping is being handled. *)
Definition two_chunks : list rev := [RData x01 [x02; x61; x62]; RData x89 [x01; x7a]; RIo IoRetry; RData x80 [x01; x63; x82; x00; x88; x00]].
Definition crowd : list (list ext) :=
  [[]; []; [XSetListener (Some 2%nat)]; []; [XSetListener (Some 3%nat)]; [XSetListener (Some 1%nat); XSetListener (Some 4%nat)]; [];
   [XSetListener (Some 5%nat)]; []; []; []].
Definition polite_answers : react_t := fun l _ => if Nat.odd l then [CSend true (SoPong (Some [x7a])); CSetListener (Some 2%nat)] else [].
Definition busy : world := World two_chunks [] [] (fun _ => x00) 0 [] (Sock false 1024 (Some 1%nat) (-1) false).
Lemma polite_answers_harmless l log : Forall harmless_cmd (polite_answers l log).
Proof. unfold polite_answers. destruct (Nat.odd l); repeat constructor. Qed.

Example C69_nonvacuous : exists t' n h p, tlisten polite_answers (TWorld busy (crowd ++ [[XStop]]) []) = (Ret tt, t') /\
  calls (t_trace t') = [EvMsg 1 [x61; x62]; EvPing [x7a]] /\
  read_frames n header_init (on_its_own busy) = (Ret h, p) /\ ended False (Ret tt) t' n h p.
Proof.
  destruct (tlisten polite_answers (TWorld busy (crowd ++ [[XStop]]) [])) as [o t'] eqn:E.
  pose proof E as E2. vm_compute in E2. injection E2 as Ho Ht.
  destruct (C69_whole_frames polite_answers busy (crowd ++ [[XStop]]) o t' polite_answers_harmless) as (n & h & p & H1 & H2);
    [constructor|repeat constructor|repeat constructor|repeat constructor|exact E|].
  exists t', n, h, p. subst o. split; [reflexivity|]. split; [subst t'; reflexivity|]. auto.
Qed.
Example C69_undisturbed_nonvacuous : exists t' p, tlisten polite_answers (TWorld busy crowd []) = (Ret tt, t') /\
  listen taking_notes (on_its_own busy) = (Ret tt, p) /\ same_delivery t' p /\
  map snd (w_log p) = [EvMsg 1 [x61; x62]; EvPing [x7a]; EvMsg 0 [x63]; EvEnd 0] /\
  map fst (w_log (t_world t')) = [3; 5; 2; 2]%nat.
Proof.
  destruct (tlisten polite_answers (TWorld busy crowd [])) as [o t'] eqn:E.
  pose proof E as E2. vm_compute in E2. injection E2 as Ho Ht.
  destruct (C69_undisturbed polite_answers busy crowd o t' polite_answers_harmless) as (p & H1 & H2);
    [intros l log; unfold polite_answers; now destruct (Nat.odd l)|constructor|repeat constructor|repeat constructor|repeat constructor; discriminate|repeat constructor|exact E|].
  exists t', p. subst o. split; [reflexivity|]. split; [exact H1|]. split; [exact H2|].
  vm_compute in H1. injection H1 as Hp. subst p t'. split; reflexivity.
Qed.
(** A listener that asks for another one and stops, and a thread taking the listener away. *)
Example C70_nonvacuous : exists t', tlisten polite_answers (TWorld busy (crowd ++ [[XStop]]) []) = (Ret tt, t') /\
  addressed (Some 1%nat) (t_trace t') /\ w_log (t_world t') = received (t_trace t') /\ received (t_trace t') = [(3%nat, EvMsg 1 [x61; x62]); (5%nat, EvPing [x7a])].
Proof.
  destruct (tlisten polite_answers (TWorld busy (crowd ++ [[XStop]]) [])) as [o t'] eqn:E.
  pose proof E as E2. vm_compute in E2. injection E2 as Ho Ht.
  destruct (C70_who polite_answers busy (crowd ++ [[XStop]]) o t') as [H1 H2]; [repeat constructor|exact E|].
  exists t'. subst o. split; [reflexivity|]. split; [exact H1|]. split; [exact H2|]. subst t'. reflexivity.
Qed.
Example C70_race_nonvacuous : exists k t', tlisten polite_answers (TWorld busy (pull_after k) []) = (Ub UbNull, t').
Proof. eapply (C70_null_race_refuted polite_answers busy); [vm_compute; reflexivity|discriminate]. Qed.
Example C71_nonvacuous : exists t', tlisten polite_answers (TWorld busy (crowd ++ [[XStop]]) []) = (Ret tt, t') /\
  no_frame_after_stop (t_trace t') /\ stopped (t_trace t') = true /\ w_in (t_world t') <> [].
Proof.
  destruct (tlisten polite_answers (TWorld busy (crowd ++ [[XStop]]) [])) as [o t'] eqn:E.
  pose proof E as E2. vm_compute in E2. injection E2 as Ho Ht.
  pose proof (C71_no_further_frame polite_answers busy (crowd ++ [[XStop]]) o t') as H. subst o. exists t'. split; [reflexivity|].
  split; [apply H; [repeat constructor|exact E]|]. subst t'. split; [reflexivity|discriminate].
Qed.
