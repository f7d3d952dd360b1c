(** Invariants of a blocking socket used by several threads. *)
From Verif Require Import Bytes Frame World WebSocket SpecFrame SpecSend SpecListen SpecApi SpecConfig SpecAsync Threads SpecThreads
  ProofFrame ProofStream ProofSend ProofHeader ProofListen ProofInv ProofAsync ProofThreads.
From Coq Require Import ZifyBool ZifyNat ZifyN.
Local Open Scope N_scope.
Local Arguments takeN : simpl never.
Local Arguments dropN : simpl never.
Local Arguments lenN : simpl never.
Local Arguments be_enc : simpl never.
Local Arguments be_dec : simpl never.

Section Inv.
Variable react : react_t.
Variable I : tworld -> Prop.
(** [U]: what may be undefined. *)
Variable U : ub -> Prop.
Hypothesis Hio : forall t, I t -> io_only (w_in (t_world t)).
Hypothesis Hint : forall t o t', I t -> interleave t = (o, t') -> I t'.
Hypothesis Hcmd : forall l log c t o t', In c (react l log) -> I t -> texec_cmd c t = (o, t') -> I t' /\ forall u, o = Ub u -> U u.
Hypothesis Hread : forall w s xs tr, I (TWorld w xs tr) -> io_only s -> I (TWorld (set_in w s) xs tr).
Hypothesis Hlast : forall w z xs tr, I (TWorld w xs tr) -> I (TWorld (set_sock w (set_last (w_sock w) z)) xs tr).
Hypothesis Hcall : forall w xs tr ev, I (TWorld w xs tr) ->
  match s_listener (w_sock w) with
  | None => I (TWorld w xs (tr ++ [TCall None ev]))
  | Some l => I (TWorld (set_log w (w_log w ++ [(l, ev)])) xs (tr ++ [TCall (Some l) ev]))
  end.
Hypothesis Hframe : forall w xs tr, I (TWorld w xs tr) -> s_listening (w_sock w) = true -> I (TWorld w xs (tr ++ [TFrame])).
(** A listener that is there stays there until it is called, or that is excused. *)
Hypothesis Hnull : forall t o t', I t -> s_listener (w_sock (t_world t)) <> None -> interleave t = (o, t') -> s_listener (w_sock (t_world t')) = None -> U UbNull.
(** The buffer keeps its size, or that is excused. *)
Variable B : Z.
Hypothesis Hbuf : forall t, I t -> s_buf (w_sock (t_world t)) = B \/ (U UbOverflow /\ U UbNegativeCount).

Definition kept {A} (m : TM A) : Prop := forall t o t', I t -> m t = (o, t') -> I t' /\ forall u, o = Ub u -> U u.
Lemma kept_bind {A C} (m : TM A) (f : A -> TM C) : kept m -> (forall a, kept (f a)) -> kept (tbind m f).
Proof.
  intros Hm Hf t o t' Ht E. unfold tbind in E. destruct (m t) as [o1 t1] eqn:E1. apply Hm in E1; [|exact Ht]. destruct E1 as [H1 H2].
  destruct o1 as [a|e| |u|]; try (injection E as <- <-; split; [exact H1|intros; discriminate]); [eapply Hf; eassumption|].
  injection E as <- <-. split; [exact H1|]. intros v Hv. apply H2. congruence.
Qed.
Lemma kept_fail {A} (o : outcome A) : (forall u, o = Ub u -> U u) -> kept (tfail o).
Proof. intros H t o' t' Ht E. injection E as <- <-. auto. Qed.
Lemma kept_ret {A} (a : A) : kept (tret a).
Proof. intros t o' t' Ht E. injection E as <- <-. split; [exact Ht|intros; discriminate]. Qed.
Lemma kept_interleave : kept interleave.
Proof. intros t o t' Ht E. split; [eapply Hint; eassumption|]. unfold interleave in E. destruct (t_calls t); injection E as <- <-; intros; discriminate. Qed.
Lemma kept_access {A} (f : sock -> A) : kept (access f).
Proof. apply kept_bind; [apply kept_interleave|]. intros _ t o t' Ht E. unfold tbind, tget, tret in E. injection E as <- <-. split; [exact Ht|intros; discriminate]. Qed.
Lemma kept_cmds cs l log : (forall c, In c cs -> In c (react l log)) -> kept (texec_cmds cs).
Proof.
  induction cs as [|c cs IH]; intros Hin; cbn [texec_cmds]; [apply kept_ret|].
  apply kept_bind; [|intros _; apply IH; intros; apply Hin; now right]. intros t o t' Ht E. eapply Hcmd; [apply Hin; now left|exact Ht|exact E].
Qed.
Lemma kept_notify ev : kept (tnotify react ev).
Proof.
  intros t o t' Ht E. unfold tnotify in E. unfold tbind at 1 in E. unfold access at 1, tbind at 1 in E. destruct (interleave t) as [o0 t0] eqn:E0.
  assert (o0 = Ret tt) as -> by (unfold interleave in E0; destruct (t_calls t); injection E0 as <- <-; reflexivity).
  apply Hint in E0; [|exact Ht]. unfold tbind at 1, tget, tret in E.
  destruct (s_listener (w_sock (t_world t0))) as [l0|] eqn:El0.
  2: { injection E as <- <-. destruct t0 as [w xs tr]. pose proof (Hcall w xs tr ev E0) as Hc. cbn [t_world] in El0. rewrite El0 in Hc. split; [exact Hc|intros; discriminate]. }
  unfold tbind at 1 in E. unfold access, tbind at 1 in E. destruct (interleave t0) as [o1 t1] eqn:E1. pose proof E1 as E1'.
  assert (o1 = Ret tt) as -> by (unfold interleave in E1; destruct (t_calls t0); injection E1 as <- <-; reflexivity).
  apply Hint in E1; [|exact E0]. unfold tbind at 1, tget, tret in E.
  destruct (s_listener (w_sock (t_world t1))) as [l1|] eqn:El1.
  2: { injection E as <- <-. split; [exact E1|]. intros u Hu. injection Hu as <-. eapply Hnull; [exact E0| |exact E1'|exact El1]. congruence. }
  unfold tbind, mark, local, tget in E. destruct t1 as [w xs tr]. cbn [t_world t_calls t_trace] in *.
  pose proof (Hcall w xs tr ev E1) as Hc. rewrite El1 in Hc. eapply kept_cmds; [|exact Hc|exact E]. intros c Hc0. exact Hc0.
Qed.
Lemma kept_readSimple n : (n < 0 -> U UbNegativeCount)%Z -> kept (local (readSimple n)).
Proof.
  intros Hn t o t' Ht E. unfold local, readSimple in E. destruct t as [w xs tr]. cbn [t_world t_calls t_trace] in E.
  destruct (Z.ltb_spec n 0).
  { injection E as <- <-. split; [exact Ht|]. intros u Hu. injection Hu as <-. auto. }
  destruct (n =? 0)%Z; [injection E as <- <-; split; [exact Ht|intros; discriminate]|].
  destruct (read_raw (Z.to_N n) (w_in w) (w_sock w)) as [[r s1] k1] eqn:E1. apply no_ext_read in E1; [|exact (Hio _ Ht)]. destruct E1 as [-> Hs].
  apply (Hread _ s1) in Ht; [|exact Hs].
  destruct r; injection E as <- <-; (split; [destruct w; exact Ht|intros; discriminate]).
Qed.
Lemma kept_readExact n : kept (local (readExactSizeDataSimple n)).
Proof.
  intros t o t' Ht E. unfold local, readExactSizeDataSimple in E. destruct t as [w xs tr]. cbn [t_world t_calls t_trace] in E.
  destruct (readExact_raw n (w_in w) (w_sock w)) as [[r s1] k1] eqn:E1. apply no_ext_exact in E1; [|exact (Hio _ Ht)]. destruct E1 as [-> Hs].
  apply (Hread _ s1) in Ht; [|exact Hs].
  destruct r; injection E as <- <-; (split; [destruct w; exact Ht|intros; discriminate]).
Qed.
Lemma kept_eq {A} (m m' : TM A) : (forall t, m t = m' t) -> kept m' -> kept m.
Proof. intros H Hm t o t' Ht E. rewrite H in E. eauto. Qed.
Lemma kept_local_bind {A C} (m : M A) (f : A -> M C) : kept (local m) -> (forall a, kept (local (f a))) -> kept (local (bind m f)).
Proof.
  intros H1 H2. eapply kept_eq; [|eapply kept_bind; [exact H1|exact H2]]. intros t. unfold local, tbind, bind.
  destruct (m (t_world t)) as [[a|e| |u|] w1]; reflexivity.
Qed.
Lemma kept_lret {A} (a : A) : kept (local (ret a)).
Proof. eapply kept_eq; [|apply (kept_ret a)]. intros []; reflexivity. Qed.
Lemma kept_lthrow {A} e : kept (local (@throw A e)).
Proof. eapply kept_eq; [|apply (@kept_fail A (Throw e))]; [intros []; reflexivity|intros; discriminate]. Qed.
Lemma kept_header h : kept (local (readFrameHeader h)).
Proof.
  unfold readFrameHeader. apply kept_local_bind; [apply kept_readExact|]. intros bb.
  destruct (negb _); [apply kept_lthrow|]. destruct (unpackHeaderBits _ _) as [h1 n1]. apply kept_local_bind.
  - destruct (n1 <? 126); [apply kept_lret|]. destruct (n1 =? 126); [|destruct (n1 =? 127); [|apply kept_lret]];
      (apply kept_local_bind; [apply kept_readExact|]); intros l2; destruct (negb _); [apply kept_lthrow|apply kept_lret|apply kept_lthrow|apply kept_lret].
  - intros h2. destruct (h_hasMask h2); [|apply kept_lret]. apply kept_local_bind; [apply kept_readExact|]. intros mk. destruct (negb _); [apply kept_lthrow|apply kept_lret].
Qed.

(** Reading the buffer size. *)
Lemma kept_access_buf {A} (f : Z -> TM A) : (forall b, (b = B \/ (U UbOverflow /\ U UbNegativeCount)) -> kept (f b)) -> kept (tbind (access s_buf) f).
Proof.
  intros Hf t o t' Ht E. unfold tbind at 1, access, tbind at 1 in E. destruct (interleave t) as [o0 t0] eqn:E0.
  assert (o0 = Ret tt) as -> by (unfold interleave in E0; destruct (t_calls t); injection E0 as <- <-; reflexivity).
  apply Hint in E0; [|exact Ht]. unfold tbind at 1, tget, tret in E. eapply Hf; [|exact E0|exact E]. exact (Hbuf _ E0).
Qed.
(** What is read fits into what was asked for. *)
Lemma readSimple_fits n w r w' : readSimple n w = (Ret (inl r), w') -> (Z.of_N (lenN r) <= n)%Z.
Proof.
  unfold readSimple. destruct (Z.ltb_spec n 0); [discriminate|]. destruct (Z.eqb_spec n 0); [intros; discriminate|].
  destruct (read_raw (Z.to_N n) (w_in w) (w_sock w)) as [[r1 s1] k1] eqn:E1. destruct r1; intros E; try discriminate. injection E as <- _.
  enough (lenN d <= Z.to_N n) by lia. clear - E1. revert E1. generalize (w_sock w). induction (w_in w) as [|e s IH]; intros k E; cbn [read_raw] in E; [discriminate|].
  destruct e as [b bs|e|x]; [|discriminate|eapply IH; exact E].
  assert (d = takeN (Z.to_N n) (b :: bs)) as -> by congruence. rewrite lenN_takeN. lia.
Qed.

Lemma kept_loop fuel : forall h short alloc pr, (0 <= alloc)%Z -> (alloc = B \/ (U UbOverflow /\ U UbNegativeCount)) -> kept (treadPayload_loop react fuel h short alloc pr).
Proof.
  induction fuel as [|fuel IH]; intros h short alloc pr H0 Ha; cbn [treadPayload_loop]; [apply kept_fail; intros; discriminate|].
  destruct (Z.ltb_spec pr (h_len h)); [|apply kept_ret].
  apply kept_access_buf. intros b Hb. cbv zeta. set (d := if (h_len h - pr <? b)%Z then (h_len h - pr)%Z else b).
  assert (d <= alloc \/ (U UbOverflow /\ U UbNegativeCount))%Z as Hd by (unfold d; destruct (Z.ltb_spec (h_len h - pr) b); destruct Ha as [->|?], Hb as [->|?]; auto; left; lia).
  assert (0 <= d \/ (U UbOverflow /\ U UbNegativeCount))%Z as Hd0 by (unfold d; destruct (Z.ltb_spec (h_len h - pr) b); destruct Ha as [->|?], Hb as [->|?]; auto; left; lia).
  intros t o t' Ht E. unfold tbind at 1 in E. destruct (local (readSimple d) t) as [o1 t1] eqn:E1. pose proof E1 as E1'.
  apply kept_readSimple in E1; [|intros; destruct Hd0 as [?|[_ ?]]; [lia|assumption]|exact Ht]. destruct E1 as [H1 H2].
  destruct o1 as [[data|[]]|e| |u|]; try (injection E as <- <-; split; [exact H1|intros; discriminate]).
  - assert (Z.of_N (lenN data) <= d)%Z as Hfit.
    { unfold local in E1'. destruct (readSimple d (t_world t)) as [o2 w2] eqn:E2. injection E1' as -> _. eapply readSimple_fits. exact E2. }
    revert E. apply (fun k : kept _ => k t1 o t' H1). destruct (Z.ltb_spec alloc (Z.of_N (lenN data))).
    { apply kept_fail. intros u Hu. injection Hu as <-. destruct Hd as [?|[? _]]; [lia|assumption]. }
    destruct short as [s|]; [now apply IH|]. apply kept_bind; [apply kept_notify|intros; now apply IH].
  - revert E. apply (fun k : kept _ => k t1 o t' H1). now apply IH.
  - injection E as <- <-. split; [exact H1|]. intros v Hv. apply H2. congruence.
Qed.
Lemma kept_payload h short : kept (treadPayload react h short).
Proof.
  unfold treadPayload. destruct (_ && _)%bool; [apply kept_fail; intros; discriminate|]. apply kept_access_buf. intros b Hb.
  destruct (Z.ltb_spec b 0); [apply kept_fail; intros; discriminate|].
  intros t o t' Ht E. unfold tbind at 1, tget at 1 in E. revert E. apply (fun k : kept _ => k t o t' Ht).
  apply kept_bind; [now apply kept_loop|]. intros s. apply kept_bind; [|intros; apply kept_ret].
  destruct short; [apply kept_ret|]. destruct (h_fin h); [apply kept_notify|apply kept_ret].
Qed.
Lemma kept_handle h : kept (thandleFrame react h).
Proof.
  assert (kept (treadPayload react h None ;;; tret tt)%t) as HP by (apply kept_bind; [apply kept_payload|intros; apply kept_ret]).
  assert (kept (ok <- local (checkForContinuation h) ;; if (ok : bool) then treadPayload react h None ;;; tret tt else tfail (Throw ExContinuationExpected))%t) as HC.
  { apply kept_bind; [|intros []; [exact HP|apply kept_fail; intros; discriminate]]. intros t o t' Ht E. destruct t as [w xs tr].
    unfold local, checkForContinuation, bind, get, modify_sock, ret in E. cbn [t_world t_calls t_trace] in E.
    destruct (_ || _)%bool; injection E as <- <-; (split; [|intros; discriminate]); [exact Ht|]. now apply Hlast. }
  assert (forall ev, kept (p <- treadPayload react h (Some []) ;; tnotify react (ev p))%t) as HN
    by (intros ev; apply kept_bind; [apply kept_payload|intros; apply kept_notify]).
  unfold thandleFrame.
  destruct (h_opcode h) as [|[[[[]|[]|]|[[]|[]|]|]|[[[]|[]|]|[[]|[]|]|]|]]; try (apply kept_fail; intros; discriminate); try exact HC; try apply HN.
  intros t o t' Ht E. unfold tbind at 1, tget at 1 in E. destruct (_ <? 0)%Z; [injection E as <- <-; split; [exact Ht|intros; discriminate]|].
  eapply HP; eassumption.
Qed.
Lemma kept_listen_loop fuel : forall h t o t', I t -> s_listening (w_sock (t_world t)) = true -> tlisten_loop react fuel h t = (o, t') ->
  I t' /\ forall u, o = Ub u -> U u.
Proof.
  induction fuel as [|fuel IH]; intros h t o t' Ht Hl E; [injection E as <- <-; split; [exact Ht|intros; discriminate]|].
  cbn [tlisten_loop] in E. unfold tbind at 1, mark in E. destruct t as [w xs tr]. cbn [t_world t_calls t_trace] in *.
  apply Hframe in Ht; [|exact Hl]. unfold tbind at 1 in E. destruct (local (readFrameHeader h) _) as [o1 t1] eqn:E1.
  apply kept_header in E1; [|exact Ht]. destruct E1 as [H1 H2].
  destruct o1 as [h'|e| |u|]; try (injection E as <- <-; split; [exact H1|intros; discriminate]).
  2: { injection E as <- <-. split; [exact H1|]. intros v Hv. apply H2. congruence. }
  unfold tbind at 1 in E. destruct (thandleFrame react h' t1) as [o2 t2] eqn:E2. apply kept_handle in E2; [|exact H1]. destruct E2 as [G1 G2].
  destruct o2 as [[]|e| |u|]; try (injection E as <- <-; split; [exact G1|intros; discriminate]).
  2: { injection E as <- <-. split; [exact G1|]. intros v Hv. apply G2. congruence. }
  unfold tbind at 1, access, tbind at 1 in E. destruct (interleave t2) as [o0 t3] eqn:E0.
  assert (o0 = Ret tt) as -> by (unfold interleave in E0; destruct (t_calls t2); injection E0 as <- <-; reflexivity).
  apply Hint in E0; [|exact G1]. unfold tbind at 1, tget, tret in E.
  destruct (negb (h_opcode h' =? OPCODE_CLOSE) && s_listening (w_sock (t_world t3)))%bool eqn:Ec.
  - eapply IH; [exact E0| |exact E]. lia.
  - injection E as <- <-. split; [exact E0|intros; discriminate].
Qed.
End Inv.
