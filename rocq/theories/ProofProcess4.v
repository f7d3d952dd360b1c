(** What a thread puts on the wire (Threads.v), whatever the connection and the other threads do. *)
From Verif Require Import Bytes Frame World WebSocket AsyncWebSocket SpecFrame SpecSend SpecListen SpecApi SpecConfig SpecAsync SpecReply Threads SpecThreads
  Process SpecProcess ProofFrame ProofStream ProofSend ProofHeader ProofListen ProofInv ProofAsync ProofThreads PropReply ProofThreads2 PropThreads2 ProofProcess ProofProcess3 ProofRel.
From Coq Require Import ZifyBool ZifyNat ZifyN.
Local Open Scope N_scope.
Local Arguments takeN : simpl never.
Local Arguments dropN : simpl never.
Local Arguments lenN : simpl never.
Local Arguments be_enc : simpl never.
Local Arguments be_dec : simpl never.

Definition sends1 (c : cmd) : list sendop :=
  match c with CSend _ op => [op] | CDemand fin opcode m => [SoFrame fin opcode m] | _ => [] end.
Lemma sends_of_cons c cs : sends_of (c :: cs) = match c with CThrow => [] | _ => sends1 c ++ sends_of cs end.
Proof. destruct c; reflexivity. Qed.

Section Pieces.
Variable mfix : option bool.
Variable whole : Prop.
(** From [w] to [w'], [b] is written, which is what sending [ops] puts on the wire, with keys drawn meanwhile. *)
Fixpoint taken (l : list (option mask4)) : nat := match l with [] => 0 | None :: r => taken r | Some _ :: r => (4 + taken r)%nat end.
Lemma fresh_app rnd a b : forall pos, fresh_keys rnd pos (a ++ b) <-> fresh_keys rnd pos a /\ fresh_keys rnd (pos + taken a) b.
Proof.
  induction a as [|[k|] a IH]; intros pos; cbn [app fresh_keys taken].
  - rewrite Nat.add_0_r. tauto.
  - rewrite IH. replace (pos + 4 + taken a)%nat with (pos + (4 + taken a))%nat by lia. tauto.
  - apply IH.
Qed.
Lemma taken_app a b : taken (a ++ b) = (taken a + taken b)%nat.
Proof. induction a as [|[k|] a IH]; cbn [app taken]; lia. Qed.
Definition wput (w w' : world) (ops : list sendop) : Prop :=
  exists sent, w_out w' = w_out w ++ concat (map snd sent) /\ w_rnd w' = w_rnd w /\ w_rpos w' = (w_rpos w + taken (map fst sent))%nat /\
    fresh_keys (w_rnd w) (w_rpos w) (map fst sent) /\ Forall2 (put mfix whole) sent ops.
Lemma wput_same w w' : w_out w' = w_out w -> w_rnd w' = w_rnd w -> w_rpos w' = w_rpos w -> wput w w' [].
Proof. intros H1 H2 H3. exists []. cbn [map concat taken fresh_keys]. rewrite app_nil_r, Nat.add_0_r. auto. Qed.
Lemma wput_app w1 w2 w3 x y : wput w1 w2 x -> wput w2 w3 y -> wput w1 w3 (x ++ y).
Proof.
  intros (p & P1 & P2 & P3 & P4 & P5) (q & Q1 & Q2 & Q3 & Q4 & Q5). exists (p ++ q). rewrite !map_app, concat_app, taken_app. split; [rewrite Q1, P1; now rewrite app_assoc|].
  split; [congruence|]. split; [rewrite Q3, P3; lia|]. split; [apply fresh_app; split; [exact P4|rewrite P2, P3 in Q4; exact Q4]|now apply Forall2_app].
Qed.
Lemma wput_like w1 w2 w3 ops : w_out w2 = w_out w1 -> w_rnd w2 = w_rnd w1 -> w_rpos w2 = w_rpos w1 -> wput w2 w3 ops -> wput w1 w3 ops.
Proof. intros H1 H2 H3 H. change ops with ([] ++ ops). eapply wput_app; [|exact H]. now apply wput_same. Qed.

Lemma send_put op w o w' : lenN (req_payload op) < 2 ^ 31 -> (forall b, mfix = Some b -> s_mask (w_sock w) = b) -> (whole -> healthy (w_wr w)) ->
  send op w = (o, w') -> wput w w' [op] /\ (whole -> healthy (w_wr w') /\ o = Ret tt) /\ s_mask (w_sock w') = s_mask (w_sock w).
Proof.
  intros Hs Hm Hh E. pose proof (keeps_send op w _ _ E) as [(_ & _ & Hr & _) _].
  apply send_spec in E; [|lia]. destruct E as (p & Hp & Ho & Hpos & (T1 & _) & _ & _ & _ & _ & Hx). split; [|split].
  - exists [(next_key_opt w, p)]. cbn [map fst snd concat]. rewrite app_nil_r. split; [exact Ho|]. split; [exact Hr|]. unfold next_key_opt, drawn in *. split; [|split].
    + rewrite Hpos. destruct (s_mask (w_sock w)); reflexivity.
    + destruct (s_mask (w_sock w)); cbn [fresh_keys]; [|exact I]. split; [reflexivity|exact I].
    + constructor; [|constructor]. split; [exact Hp|]. split.
      * intros H. apply Hx; [auto|]. intros _. lia.
      * intros b Hb. apply Hm in Hb. rewrite Hb. destruct b; reflexivity.
  - intros H. destruct (Hx (Hh H)) as (-> & _ & G & _); [intros _; lia|]. auto.
  - exact T1.
Qed.
Lemma cmd_put c w o w' : small_cmd c -> (forall b, mfix = Some b -> s_mask (w_sock w) = b) -> (whole -> healthy (w_wr w)) ->
  exec_cmd c w = (o, w') ->
  wput w w' (sends1 c) /\ (whole -> healthy (w_wr w') /\ (c <> CThrow -> o = Ret tt)) /\
    s_mask (w_sock w') = (match c with CSetConfig m _ => m | _ => s_mask (w_sock w) end) /\ (c = CThrow -> o = Throw ExListener).
Proof.
  intros Hs Hm Hh E.
  assert ((exists op cc, sends1 c = [op] /\ c <> CThrow /\ (forall m b, c <> CSetConfig m b) /\ lenN (req_payload op) < 2 ^ 31 /\ exists o1, send op w = (o1, w') /\ (o1 = Ret tt -> whole -> o = Ret tt) /\ cc = c) \/
          (sends1 c = [] /\ w_out w' = w_out w /\ w_wr w' = w_wr w /\ s_mask (w_sock w') = (match c with CSetConfig m _ => m | _ => s_mask (w_sock w) end) /\
            w_rnd w' = w_rnd w /\ w_rpos w' = w_rpos w /\ o = match c with CThrow => Throw ExListener | _ => Ret tt end)) as [H|(H1 & H2 & H3 & H4 & H6 & H7 & H5)].
  { destruct c as [|l|m b|catch op| | |fin opc m]; try (right; injection E as <- <-; repeat split; fail); left.
    - exists op, (CSend catch op). split; [reflexivity|]. split; [discriminate|]. split; [discriminate|]. split; [exact Hs|].
      destruct catch; cbn [exec_cmd] in E.
      + unfold try_ in E. destruct (send op w) as [o1 w1] eqn:E1. exists o1. destruct o1; injection E as <- <-; (split; [reflexivity|]; split; [congruence|reflexivity]).
      + exists o. auto.
    - exists (SoFrame fin opc m), (CDemand fin opc m). split; [reflexivity|]. split; [discriminate|]. split; [discriminate|]. split; [exact Hs|].
      cbn [exec_cmd] in E. destruct (demand_send _ _ _ _ _ _ E) as (o2 & E2 & _). exists o2. split; [exact E2|]. split; [|reflexivity].
      intros _ H. cbn in Hs. apply demand_healthy in E; [apply E|lia|auto|intros _; lia]. }
  - destruct H as (op & _ & E1 & Hn & Hnc & Hsz & o1 & E2 & Hw & _). apply send_put in E2; [|assumption..]. destruct E2 as (G2 & G3 & G4).
    rewrite E1. split; [exact G2|]. split; [|split; [|intros; contradiction]].
    + intros H. destruct (G3 H) as [G ->]. split; [exact G|]. intros _. now apply Hw.
    + destruct c; try exact G4. exfalso. eapply Hnc. reflexivity.
  - rewrite H1, H3, H4, H5. split; [now apply wput_same|]. split; [|split; [reflexivity|]].
    + intros H. split; [auto|]. destruct c; congruence.
    + intros ->. reflexivity.
Qed.

(** * In company *)
Definition mask_ok (x : ext) : Prop := forall b, mfix = Some b -> mask_ext b x.
Definition cmask_ok (c : cmd) : Prop := forall b m d, mfix = Some b -> c = CSetConfig m d -> m = b.
Definition pre_put (t : tworld) : Prop :=
  (forall b, mfix = Some b -> s_mask (w_sock (t_world t)) = b) /\ (whole -> healthy (w_wr (t_world t))) /\ others mask_ok (t_calls t) /\ io_only (w_in (t_world t)).
Lemma pre_interleave t o t' : pre_put t -> interleave t = (o, t') ->
  pre_put t' /\ o = Ret tt /\ w_out (t_world t') = w_out (t_world t) /\ w_log (t_world t') = w_log (t_world t) /\
  w_rnd (t_world t') = w_rnd (t_world t) /\ w_rpos (t_world t') = w_rpos (t_world t).
Proof.
  intros (H1 & H2 & H3 & Hio) E. pose proof (PropThreads2.interleave_ret _ _ _ E) as ->. apply interleave_inv in E.
  destruct E as [[_ ->]|(xs & r & Ec & ->)]; [repeat split; assumption|].
  rewrite Ec in H3. apply Forall_cons_iff in H3. destruct H3 as [Hx H3]. split; [|repeat split]. split; [|split; [exact H2|split; [exact H3|exact Hio]]].
  intros b Hb. cbn [t_world w_sock set_sock]. apply (apply_exts_inv (fun k => s_mask k = b) mask_ok); [|exact Hx|auto].
  intros x y Hxx Hy. specialize (Hxx b Hb). destruct x; cbn in *; auto.
Qed.
Lemma tcmd_put c t o t' : small_cmd c -> cmask_ok c -> pre_put t -> texec_cmd c t = (o, t') ->
  pre_put t' /\ w_log (t_world t') = w_log (t_world t) /\
  wput (t_world t) (t_world t') (sends1 c) /\ (whole -> c <> CThrow -> o = Ret tt) /\ (c = CThrow -> o = Throw ExListener).
Proof.
  intros Hs Hc Ht E. apply texec_cmd_inv in E. destruct E as (t1 & w' & E1 & E2 & ->). apply pre_interleave in E1; [|exact Ht].
  destruct E1 as ((P1 & P2 & P3 & P4) & _ & Ho & Hl & Hr & Hq). destruct (exec_cmd_effect _ _ _ _ E2) as (F1 & F2 & _).
  destruct (cmd_put c _ _ _ Hs P1 P2 E2) as (G2 & G3 & G4 & G5). cbn [t_world]. split; [|split; [congruence|split; [exact (wput_like _ _ _ _ Ho Hr Hq G2)|split; [intros H; now apply G3|auto]]]].
  split; [|split; [intros H; apply G3, H|split; [exact P3|cbn [t_world]; rewrite F1; exact P4]]]. intros x Hx. cbn [t_world]. rewrite G4. destruct c; auto. eapply Hc; [exact Hx|reflexivity].
Qed.
Lemma prefix_nil {A} (l : list A) : prefix [] l.
Proof. exists l. reflexivity. Qed.
Lemma tcmds_put cs : Forall small_cmd cs -> Forall cmask_ok cs -> forall t o t', pre_put t -> texec_cmds cs t = (o, t') ->
  pre_put t' /\ w_log (t_world t') = w_log (t_world t) /\
  exists ops, wput (t_world t) (t_world t') ops /\ prefix ops (sends_of cs) /\ ((o = Ret tt \/ whole) -> ops = sends_of cs).
Proof.
  induction cs as [|c cs IH]; intros Hs Hc t o t' Ht E; cbn [texec_cmds] in E.
  - injection E as <- <-. split; [exact Ht|]. split; [reflexivity|]. exists []. split; [now apply wput_same|]. split; [apply prefix_nil|auto].
  - apply Forall_cons_iff in Hs. destruct Hs as [Hs1 Hs]. apply Forall_cons_iff in Hc. destruct Hc as [Hc1 Hc].
    unfold tbind in E. destruct (texec_cmd c t) as [o1 t1] eqn:E1. apply tcmd_put in E1; [|assumption..]. destruct E1 as (P1 & L1 & B1 & W1 & T1).
    rewrite sends_of_cons.
    destruct o1 as [[]|e| |u|].
    + apply IH in E; [|assumption..]. destruct E as (P2 & L2 & ops & B2 & X2 & W2). split; [exact P2|]. split; [congruence|].
      exists (sends1 c ++ ops). split; [eapply wput_app; eassumption|].
      assert (match c with CThrow => [] | _ => sends1 c ++ sends_of cs end = sends1 c ++ sends_of cs) as ->.
      { destruct c; try reflexivity. specialize (T1 eq_refl). discriminate. }
      split; [destruct X2 as [r ->]; exists r; now rewrite app_assoc|]. intros H. now rewrite (W2 H).
    + injection E as <- <-. split; [exact P1|]. split; [exact L1|]. exists (sends1 c). split; [exact B1|].
      destruct (match c with CThrow => true | _ => false end) eqn:Ec.
      * destruct c; try discriminate. split; [apply prefix_nil|reflexivity].
      * assert (c <> CThrow) as Hn by (intros ->; discriminate). split; [destruct c; try discriminate; eexists; reflexivity|].
        intros [H|H]; [discriminate|]. specialize (W1 H Hn). discriminate.
    + injection E as <- <-. split; [exact P1|]. split; [exact L1|]. exists (sends1 c). split; [exact B1|].
      destruct (match c with CThrow => true | _ => false end) eqn:Ec; [destruct c; try discriminate; specialize (T1 eq_refl); discriminate|].
      assert (c <> CThrow) as Hn by (intros ->; discriminate). split; [destruct c; try discriminate; eexists; reflexivity|].
      intros [H|H]; [discriminate|]. specialize (W1 H Hn). discriminate.
    + injection E as <- <-. split; [exact P1|]. split; [exact L1|]. exists (sends1 c). split; [exact B1|].
      destruct (match c with CThrow => true | _ => false end) eqn:Ec; [destruct c; try discriminate; specialize (T1 eq_refl); discriminate|].
      assert (c <> CThrow) as Hn by (intros ->; discriminate). split; [destruct c; try discriminate; eexists; reflexivity|].
      intros [H|H]; [discriminate|]. specialize (W1 H Hn). discriminate.
    + injection E as <- <-. split; [exact P1|]. split; [exact L1|]. exists (sends1 c). split; [exact B1|].
      destruct (match c with CThrow => true | _ => false end) eqn:Ec; [destruct c; try discriminate; specialize (T1 eq_refl); discriminate|].
      assert (c <> CThrow) as Hn by (intros ->; discriminate). split; [destruct c; try discriminate; eexists; reflexivity|].
      intros [H|H]; [discriminate|]. specialize (W1 H Hn). discriminate.
Qed.

(** * Listening *)
Section React.
Variable react : react_t.
Hypothesis Hsmall : small_react react.
Hypothesis Hmask : forall l log, Forall cmask_ok (react l log).

Definition rput {A} (o : outcome A) (t t' : tworld) : Prop :=
  pre_put t -> pre_put t' /\ exists new ops, w_log (t_world t') = w_log (t_world t) ++ new /\ wput (t_world t) (t_world t') ops /\ prefix ops (replies react (w_log (t_world t)) new) /\ ((is_ret o = true \/ whole) -> ops = replies react (w_log (t_world t)) new).
Definition puts {A} (m : TM A) : Prop := forall t o t', m t = (o, t') -> rput o t t'.
Lemma rput_same {A} (o : outcome A) t t' : w_log (t_world t') = w_log (t_world t) -> w_out (t_world t') = w_out (t_world t) ->
  w_rnd (t_world t') = w_rnd (t_world t) -> w_rpos (t_world t') = w_rpos (t_world t) -> (pre_put t -> pre_put t') -> rput o t t'.
Proof.
  intros H1 H2 H4 H5 H3 Ht. split; [auto|]. exists [], []. rewrite !app_nil_r. split; [exact H1|]. split; [now apply wput_same|].
  split; [apply prefix_nil|reflexivity].
Qed.
Lemma rput_trans {A B} (a : A) (o : outcome B) t1 t2 t3 : rput (Ret a) t1 t2 -> rput o t2 t3 -> rput o t1 t3.
Proof.
  intros H1 H2 Ht. destruct (H1 Ht) as (P1 & n1 & o1 & L1 & B1 & _ & E1). specialize (E1 (or_introl eq_refl)). subst o1.
  destruct (H2 P1) as (P2 & n2 & o2 & L2 & B2 & X2 & E2). split; [exact P2|].
  exists (n1 ++ n2), (replies react (w_log (t_world t1)) n1 ++ o2). rewrite L2, L1, replies_app, !app_assoc.
  split; [reflexivity|]. split; [eapply wput_app; eassumption|]. rewrite L1 in *. split.
  - destruct X2 as [r ->]. exists r. now rewrite app_assoc.
  - intros H. now rewrite (E2 H).
Qed.
Lemma rput_out {A B} (o : outcome A) (o' : outcome B) t t' : is_ret o' = false -> rput o t t' -> rput o' t t'.
Proof.
  intros Ho H Ht. destruct (H Ht) as (P & n & op & H1 & H3 & H4 & H5). split; [exact P|]. exists n, op. split; [exact H1|]. split; [exact H3|]. split; [exact H4|].
  intros [G|G]; [congruence|auto].
Qed.
Lemma puts_bind {A B} (m : TM A) (f : A -> TM B) : puts m -> (forall a, puts (f a)) -> puts (tbind m f).
Proof.
  intros H1 H2 t o t' E. unfold tbind in E. destruct (m t) as [o1 t1] eqn:E1. apply H1 in E1. destruct o1 as [a|e| |u|].
  - eapply rput_trans; [exact E1|]. eapply H2. exact E.
  - injection E as <- <-. eapply rput_out; [reflexivity|exact E1].
  - injection E as <- <-. eapply rput_out; [reflexivity|exact E1].
  - injection E as <- <-. eapply rput_out; [reflexivity|exact E1].
  - injection E as <- <-. eapply rput_out; [reflexivity|exact E1].
Qed.
Lemma puts_fail {A} (o : outcome A) : puts (tfail o).
Proof. intros t o' t' E. injection E as <- <-. now apply rput_same. Qed.
Lemma puts_mark e : puts (mark e).
Proof. intros t o' t' E. injection E as <- <-. now apply rput_same. Qed.
Lemma puts_interleave : puts interleave.
Proof.
  intros t o t' E. intros Ht. destruct (pre_interleave _ _ _ Ht E) as (H1 & H2 & H3 & H4 & H5 & H6). revert Ht. apply rput_same; auto.
Qed.
Lemma puts_access {A} (f : sock -> A) : puts (access f).
Proof. apply puts_bind; [apply puts_interleave|]. intros _. intros t o t' E. unfold tbind, tget, tret in E. injection E as <- <-. now apply rput_same. Qed.
Lemma puts_local {A} (m : M A) : (forall w o w', io_only (w_in w) -> m w = (o, w') ->
    w_log w' = w_log w /\ w_out w' = w_out w /\ w_rnd w' = w_rnd w /\ w_rpos w' = w_rpos w /\ w_wr w' = w_wr w /\ s_mask (w_sock w') = s_mask (w_sock w) /\ io_only (w_in w')) -> puts (local m).
Proof.
  intros H t o t' E Ht. unfold local in E. destruct (m (t_world t)) as [o1 w1] eqn:E1. injection E as <- <-.
  apply H in E1; [|apply Ht]. destruct E1 as (H1 & H2 & H6 & H7 & H3 & H4 & H5). revert Ht.
  apply rput_same; [exact H1|exact H2|exact H6|exact H7|]. intros (P1 & P2 & P3 & P4). split; [|split; [cbn [t_world]; rewrite H3; exact P2|split; [exact P3|exact H5]]].
  intros b Hb. cbn [t_world]. rewrite H4. auto.
Qed.
Lemma puts_private {A} (m : M A) : private m -> quiet_log m -> puts (local m).
Proof.
  intros H Hq. apply puts_local. intros w o w' Hw E. destruct (H w Hw) as [E1 G]. specialize (Hq w). rewrite E in *. cbn [snd] in *. injection E1 as -> ->.
  repeat split; assumption.
Qed.
Lemma puts_notify ev : puts (tnotify react ev).
Proof.
  unfold tnotify. apply puts_bind; [apply puts_access|]. intros [l0|]; [|apply puts_mark].
  apply puts_bind; [apply puts_access|]. intros [l|]; [|apply puts_fail].
  apply puts_bind; [apply puts_mark|]. intros _ t o t' E Ht. unfold tbind, local, tget in E. cbn [t_world w_log set_log] in E.
  assert (pre_put (TWorld (set_log (t_world t) (w_log (t_world t) ++ [(l, ev)])) (t_calls t) (t_trace t))) as Ht1 by exact Ht.
  apply tcmds_put in E; [|apply Hsmall|apply Hmask|exact Ht1]. destruct E as (P & L & ops & B & X & W). split; [exact P|].
  cbn [t_world w_log set_log w_out] in *. exists [(l, ev)], ops. split; [exact L|]. split; [exact B|]. cbn [replies fst]. rewrite app_nil_r.
  split; [exact X|]. intros [H|H]; apply W; [left|right; exact H]. destruct o as [[]|e| |u|]; try discriminate. reflexivity.
Qed.
Lemma puts_get {A} (f : world -> TM A) : (forall w, puts (f w)) -> puts (tbind tget f).
Proof. intros H t o t' E. unfold tbind, tget in E. eapply H. exact E. Qed.
Lemma puts_loop fuel : forall h short alloc progress, puts (treadPayload_loop react fuel h short alloc progress).
Proof.
  induction fuel as [|fuel IH]; intros h short alloc progress; cbn [treadPayload_loop]; [apply puts_fail|].
  destruct (progress <? h_len h)%Z; [|apply puts_fail]. apply puts_bind; [apply puts_access|]. intros des. cbv zeta.
  apply puts_bind; [apply puts_private; [apply private_read|apply quiet_read]|]. intros [data|[| |]]; [|apply IH|apply puts_fail..].
  destruct (_ <? _)%Z; [apply puts_fail|]. destruct short; [apply IH|]. apply puts_bind; [apply puts_notify|intros; apply IH].
Qed.
Lemma puts_payload h short : puts (treadPayload react h short).
Proof.
  unfold treadPayload. destruct (_ && _)%bool; [apply puts_fail|]. apply puts_bind; [apply puts_access|]. intros alloc.
  destruct (alloc <? 0)%Z; [apply puts_fail|]. apply puts_get. intros v. apply puts_bind; [apply puts_loop|]. intros short'. apply puts_bind; [|intros; apply puts_fail].
  destruct short; [apply puts_fail|]. destruct (h_fin h); [apply puts_notify|apply puts_fail].
Qed.
Lemma puts_handle h : puts (thandleFrame react h).
Proof.
  assert (puts (tbind (treadPayload react h None) (fun _ => tret tt))) as HP by (apply puts_bind; [apply puts_payload|intros; apply puts_fail]).
  assert (puts (tbind (local (checkForContinuation h)) (fun ok : bool => if ok then tbind (treadPayload react h None) (fun _ => tret tt) else tfail (Throw ExContinuationExpected)))) as HC.
  { apply puts_bind; [apply puts_private; [apply private_check|apply quiet_check]|]. intros []; [exact HP|apply puts_fail]. }
  assert (forall f, puts (tbind (treadPayload react h (Some [])) (fun p => tnotify react (f p)))) as HN.
  { intros f. apply puts_bind; [apply puts_payload|]. intros p. apply puts_notify. }
  unfold thandleFrame. destruct (h_opcode h) as [|p].
  - apply puts_get. intros v. destruct (_ <? 0)%Z; [apply puts_fail|exact HP].
  - destruct p as [p|p|]; [destruct p as [p|p|]|destruct p as [p|p|]|exact HC]; try apply puts_fail; try exact HC;
      destruct p as [p|p|]; try apply puts_fail; destruct p as [p|p|]; try apply puts_fail; apply HN.
Qed.
Lemma puts_listen_loop fuel : forall h, puts (tlisten_loop react fuel h).
Proof.
  induction fuel as [|fuel IH]; intros h; cbn [tlisten_loop]; [apply puts_fail|].
  apply puts_bind; [apply puts_mark|]. intros _. apply puts_bind; [apply puts_private; [apply private_header|apply quiet_header]|].
  intros h'. apply puts_bind; [apply puts_handle|]. intros _. apply puts_bind; [apply puts_access|]. intros b. destruct (_ && _)%bool; [apply IH|apply puts_fail].
Qed.
(** What listen() puts on the wire: what its callbacks send. *)
Lemma tlisten_put t o t' : pre_put t -> tlisten react t = (o, t') ->
  exists new ops, w_log (t_world t') = w_log (t_world t) ++ new /\ wput (t_world t) (t_world t') ops /\ prefix ops (replies react (w_log (t_world t)) new) /\ (whole -> ops = replies react (w_log (t_world t)) new).
Proof.
  intros Ht E.
  assert (puts (tbind interleave (fun _ => tbind (mark TListen) (fun _ => tbind (local (modify_sock (fun s => set_listening s true)))
     (fun _ => tbind tget (fun w => tlisten_loop react (S (script_size (w_in w))) header_init)))))) as H.
  { apply puts_bind; [apply puts_interleave|]. intros _. apply puts_bind; [apply puts_mark|]. intros _.
    apply puts_bind; [|intros _; apply puts_get; intros w; apply puts_listen_loop].
    apply puts_local. intros w o0 w' Hw E0. injection E0 as <- <-. repeat split. exact Hw. }
  assert (exists o1, tbind interleave (fun _ => tbind (mark TListen) (fun _ => tbind (local (modify_sock (fun s => set_listening s true)))
     (fun _ => tbind tget (fun w => tlisten_loop react (S (script_size (w_in w))) header_init)))) t = (o1, t')) as [o1 E1].
  { unfold tlisten, tbind, ttry in *. destruct (interleave t) as [[] t1]; try (injection E as <- <-; eexists; reflexivity).
    destruct (mark TListen t1) as [[] t2]; try (injection E as <- <-; eexists; reflexivity).
    destruct (local _ t2) as [[] t3]; try (injection E as <- <-; eexists; reflexivity). unfold tget in *.
    destruct (tlisten_loop _ _ _ t3) as [[] t4]; injection E as <- <-; eexists; reflexivity. }
  destruct (H _ _ _ E1 Ht) as (_ & new & ops & H1 & H3 & H4 & H5). exists new, ops. split; [exact H1|]. split; [exact H3|]. auto.
Qed.
End React.
End Pieces.
