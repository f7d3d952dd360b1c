(** What the listening coroutine hears in company: the steps of an undisturbed one. *)
From Verif Require Import Bytes Frame World WebSocket AsyncWebSocket SpecFrame SpecSend SpecListen SpecApi SpecReply SpecAsync SpecThreads Concurrent SpecConcurrent
  SpecProcess Coroutines SpecCoroutines ProofFrame ProofStream ProofSend ProofConcurrent ProofAsync ProofAsync2 ProofCoroutines ProofCoroutines2.
From Coq Require Import ZifyBool ZifyNat ZifyN.
Local Open Scope N_scope.

(** The same socket with a listener that only takes notes, nothing written, nothing else going on. *)
Definition alone (w : world) : world :=
  World (w_in w) [] [] (fun _ => x00) 0 [] (set_listening (set_listener (w_sock w) (Some 0%nat)) false).

Lemma going_dec st : {going st} + {~ going st}.
Proof. unfold going. destruct st; try (right; intros [|]; discriminate); left; auto. Qed.

Section Notes.
Variable react : react_t.
(** Whether application code and writes never fail. *)
Variable safe : Prop.
Hypothesis Hsmall : small_react react.
Hypothesis Hkind : forall l log, Forall kind_cmd (react l log).
Definition safe_cmd (freed : bool) (c : cmd) : Prop := safe -> c <> CThrow /\ (freed = true -> c <> CUseData).
Hypothesis Hsafe : forall l log, Forall (safe_cmd true) (react l log).

Definition code_ok (freed : bool) (cs : list cmd) : Prop :=
  Forall small_cmd cs /\ Forall kind_cmd cs /\ Forall (safe_cmd freed) cs /\ (freed = true -> exists l log, incl cs (react l log)).
(** A coroutine with application code on top. *)
Definition in_code (k : task) (K : list cor) : Prop :=
  going (k_status k) /\ exists cs freed v, code_ok freed cs /\ talking K cs freed v (k_stack k).
(** Coroutine [i] > 0: its data is never freed, so it is never left hanging. *)
Definition outside (k : task) : Prop :=
  (k_stack k = [] /\ (forall u, k_status k <> AUb u) /\ (safe -> forall e, k_status k <> AFail e)) \/
  (going (k_status k) /\ exists cs v, code_ok false cs /\ talking [] cs false v (k_stack k)).
(** Coroutine 0 in step with the undisturbed [sa]. *)
Definition follows (k : task) (sa : status * conf) : Prop :=
  ~ going (k_status k) /\ ~ safe /\ (forall u, k_status k = AUb u -> u = UbDangling /\ exists l log, In CUseData (react l log)) \/
  (k_hdr k = c_hdr (snd sa) /\ k_short k = c_short (snd sa) /\
   ((Forall listening_co (k_stack k) /\ k_status k = fst sa /\ c_stack (snd sa) = map anon_co (k_stack k)) \/
    exists K, Forall listening_co K /\ fst sa = ARun /\ in_code k K /\ c_stack (snd sa) = map anon_co K)).

Lemma talk_world K hdr short w cs freed v st c : code_ok freed cs -> s_listener (w_sock w) <> None -> (safe -> healthy (w_wr w)) -> talks K hdr short w cs freed v st c ->
  c_hdr c = hdr /\ c_short c = short /\ s_listener (w_sock (c_world c)) <> None /\
  (forall past wa, like past wa w -> like past wa (c_world c)) /\ w_in (c_world c) = w_in w /\ (safe -> healthy (w_wr (c_world c))) /\
  ((st = ARun /\ c_stack c = K) \/ (going st /\ exists cs' v', code_ok freed cs' /\ talking K cs' freed v' (c_stack c)) \/
   (~ safe /\ c_stack c = [] /\ ((exists e, st = AFail e) \/ (st = AUb UbDangling /\ freed = true /\ exists l log, In CUseData (react l log))))).
Proof.
  intros (Hs & Hk & Hsf & Hinc) Hn Hh HT.
  assert (forall w', mute w w' -> w_sock w' = w_sock w -> forall past wa, like past wa w -> like past wa w') as HL.
  { intros w' (M1 & M2 & M3 & M4) Hso past wa (L1 & L2 & L3 & L4 & L5). unfold like. rewrite M1, M2, Hso. auto. }
  assert (forall w', mute w w' -> w_sock w' = w_sock w -> s_listener (w_sock w') <> None) as HN by (intros w' _ ->; exact Hn).
  assert (mute w w) as Hm by (unfold mute; auto).
  assert (~ healthy (w_wr w) -> ~ safe) as Hu by (intros H1 H2; auto).
  assert (forall w', ~ healthy (w_wr w) -> safe -> healthy (w_wr w')) as Hx by (intros w' H1 H2; exfalso; auto).
  destruct HT as [-> |st1 Hk1|c cs' st1 w1 -> H2 H3 Hfr H4 H5 H6 H7 H8 H9|c cs' op st1 -> H2 H3|op st1 w1 H1 H2 H3 H4 H5 H6|a left st1 w1 H1 H2 H3 H4 H5 H6|
      left st1 H1 H2|st1 H1|left st1 w1 H1 H2 H3 H4 H5 H6|cs' -> |cs' -> Hfr|left w1 H2 H3 H4 H5 H6]; cbn [c_hdr c_short c_world c_stack];
    (split; [reflexivity|]); (split; [reflexivity|]).
  - split; [auto|]. split; [auto|]. split; [reflexivity|]. split; [exact Hh|]. left. auto.
  - split; [auto|]. split; [auto|]. split; [reflexivity|]. split; [exact Hh|]. right; left. split; [now left|]. exists cs, VIdle. unfold code_ok. auto 8.
  - apply Forall_cons_iff in Hs. destruct Hs as [Hs1 Hs]. apply Forall_cons_iff in Hk. destruct Hk as [Hk1 Hk]. apply Forall_cons_iff in Hsf. destruct Hsf as [Hsf1 Hsf]. destruct H9 as (M1 & M2 & M3 & M4).
    split; [|split; [|split; [exact M1|split; [now rewrite H7|]]]].
    + rewrite H5. destruct c as [|[l|]|m b|catch op| | |fin opcode m]; cbn in *; try exact Hn; try contradiction; discriminate.
    + intros past wa (L1 & L2 & L3 & L4 & L5). unfold like. rewrite M1, M2, M4, L1, L2, L3, L4. repeat (split; [reflexivity|]). split; [|split; [|exact L5]].
      * rewrite H5. destruct c as [|[l|]|m b|catch op| | |fin opcode m]; cbn in *; try reflexivity; contradiction.
      * rewrite H5. destruct c as [|[l|]|m b|catch op| | |fin opcode m]; cbn in *; try reflexivity; try contradiction. destruct (s_listener (w_sock w)); [reflexivity|congruence].
    + right; left. split; [now left|]. exists cs', VIdle. unfold code_ok. split; [|assumption]. repeat (split; [assumption|]). intros Hff. destruct (Hinc Hff) as (l0 & log0 & Hi0). exists l0, log0. intros y Hy. apply Hi0. now right.
  - apply Forall_cons_iff in Hs. destruct Hs as [Hs1 Hs]. apply Forall_cons_iff in Hk. destruct Hk as [Hk1 Hk]. apply Forall_cons_iff in Hsf. destruct Hsf as [Hsf1 Hsf].
    split; [auto|]. split; [auto|]. split; [reflexivity|]. split; [exact Hh|]. right; left. split; [now left|]. exists cs', (VStart op). unfold code_ok. split; [|assumption]. repeat (split; [assumption|]). intros Hff. destruct (Hinc Hff) as (l0 & log0 & Hi0). exists l0, log0. intros y Hy. apply Hi0. now right.
  - split; [auto|]. split; [auto|]. split; [apply H6|]. split; [now rewrite H4|]. right; left. split; [now left|]. eexists cs, _. unfold code_ok. split; [|eassumption]. auto.
  - split; [auto|]. split; [auto|]. split; [apply H6|]. split; [auto|]. right; left. split; [now left|]. eexists cs, _. unfold code_ok. split; [|eassumption]. auto.
  - split; [auto|]. split; [auto|]. split; [reflexivity|]. split; [exact Hh|]. right; left. split; [now right|]. eexists cs, _. unfold code_ok. split; [|eassumption]. auto.
  - split; [auto|]. split; [auto|]. split; [reflexivity|]. split; [exact Hh|]. right; left. split; [now left|]. eexists cs, _. unfold code_ok. split; [|eassumption]. auto.
  - split; [auto|]. split; [auto|]. split; [apply H6|]. split; [auto|]. right; left. split; [now left|]. eexists cs, _. unfold code_ok. split; [|eassumption]. auto.
  - split; [auto|]. split; [auto|]. split; [reflexivity|]. split; [exact Hh|]. right; right. split; [|eauto]. intros Hss. apply Forall_cons_iff in Hsf. destruct Hsf as [Hsf1 _]. now destruct (Hsf1 Hss).
  - split; [auto|]. split; [auto|]. split; [reflexivity|]. split; [exact Hh|]. right; right. split; [|split; [reflexivity|]; right; split; [reflexivity|]; split; [exact Hfr|]; destruct (Hinc Hfr) as (l0 & log0 & Hi0); exists l0, log0; apply Hi0; now left]. intros Hss. apply Forall_cons_iff in Hsf. destruct Hsf as [Hsf1 _]. now destruct (Hsf1 Hss) as [_ []].
  - split; [auto|]. split; [auto|]. split; [apply H6|]. split; [auto|]. right; right. split; [auto|]. split; [reflexivity|]. left. eexists. reflexivity.
Qed.

Variable w0 : world.
Notation past := (map snd (w_log w0)).

(** The crowd and the undisturbed coroutine. *)
Definition in_step (s : crowd_t) (sa : status * conf) : Prop :=
  io_only (w_in (snd s)) /\ s_listener (w_sock (snd s)) <> None /\ (safe -> healthy (w_wr (snd s))) /\ like past (c_world (snd sa)) (snd s) /\
  (forall i, i <> 0%nat -> outside (fst s i)) /\ follows (fst s 0%nat) sa.

Lemma tick_going k w : going (k_status k) -> tick react (k_status k, Conf (k_hdr k) (k_short k) (k_stack k) w) = step react (Conf (k_hdr k) (k_short k) (k_stack k) w).
Proof. intros [-> | ->]; reflexivity. Qed.
Lemma tick_stopped k w : ~ going (k_status k) -> ktick react k w = (k, w).
Proof.
  intros H. unfold ktick. destruct k as [st h sh K]. cbn [k_status k_hdr k_short k_stack] in *. unfold going in H. destruct st; try tauto; reflexivity.
Qed.
Lemma upd_self i (s : crowd_t) : forall j, (if Nat.eqb j i then fst s i else fst s j) = fst s j.
Proof. intros j. destruct (Nat.eqb_spec j i) as [->|]; reflexivity. Qed.

Lemma outside_step i s sa : i <> 0%nat -> in_step s sa -> in_step (kstep react (CTick i) s) sa.
Proof.
  intros Hi (Hio & Hl & Hh & HL & Ho & Hf). cbn [kstep]. pose proof (Ho i Hi) as Hoi. set (k := fst s i) in *.
  assert (forall k', outside k' -> forall w', io_only (w_in w') -> s_listener (w_sock w') <> None -> (safe -> healthy (w_wr w')) -> like past (c_world (snd sa)) w' ->
    in_step ((fun j => if Nat.eqb j i then k' else fst s j), w') sa) as Hok.
  { intros k' Hk' w' G1 G2 G0 G3. split; [exact G1|]. split; [exact G2|]. split; [exact G0|]. split; [exact G3|]. cbn [fst]. split.
    - intros j Hj. destruct (Nat.eqb_spec j i); [exact Hk'|auto].
    - destruct (Nat.eqb_spec 0 i); [congruence|exact Hf]. }
  destruct Hoi as [[H1 H2]|(Hg & cs & v & Hc & Ht)].
  - destruct (going_dec (k_status k)) as [Hg|Hg].
    + unfold ktick. rewrite tick_going by exact Hg. rewrite H1. cbn [step]. apply Hok; auto. left. cbn. split; [reflexivity|]. split; discriminate.
    + rewrite tick_stopped by exact Hg. apply Hok; auto. left. auto.
  - unfold ktick. rewrite tick_going by exact Hg.
    pose proof (talk_step react [] (k_hdr k) (k_short k) (snd s) eq_refl cs false v _ (proj1 Hc) Ht) as HT.
    destruct (step react (Conf (k_hdr k) (k_short k) (k_stack k) (snd s))) as [st' c'] eqn:E. cbn [fst snd] in HT.
    destruct (talk_world _ _ _ _ _ _ _ _ _ Hc Hl Hh HT) as (_ & _ & T3 & T4 & T5 & T0 & T6). apply Hok; [|now rewrite T5|exact T3|exact T0|now apply T4].
    destruct T6 as [[-> T6]|[(Hg' & cs' & v' & Hc' & Ht')|(T8 & T6 & [[e ->]|(_ & T7 & _)])]]; [| | |discriminate].
    + left. cbn [k_stack k_status]. split; [exact T6|]. split; discriminate.
    + right. cbn [k_stack k_status]. split; [exact Hg'|eauto].
    + left. cbn [k_stack k_status]. split; [exact T6|]. split; [discriminate|tauto].
Qed.

(** Coroutine 0. *)
Lemma code_step s sa K : in_step s sa -> in_code (fst s 0%nat) K -> Forall listening_co K -> c_stack (snd sa) = map anon_co K -> fst sa = ARun ->
  k_hdr (fst s 0%nat) = c_hdr (snd sa) -> k_short (fst s 0%nat) = c_short (snd sa) ->
  in_step (kstep react (CTick 0) s) sa.
Proof.
  intros (Hio & Hl & Hhe & HL & Ho & _) (Hg & cs & freed & v & Hc & Ht) HK Hsa Hst Hh Hsh. cbn [kstep]. unfold ktick. set (k := fst s 0%nat) in *. rewrite tick_going by exact Hg.
  pose proof (talk_step react K (k_hdr k) (k_short k) (snd s) (unwind_listening _ HK) cs freed v _ (proj1 Hc) Ht) as HT.
  destruct (step react (Conf (k_hdr k) (k_short k) (k_stack k) (snd s))) as [st' c'] eqn:E. cbn [fst snd] in HT.
  destruct (talk_world _ _ _ _ _ _ _ _ _ Hc Hl Hhe HT) as (T1 & T2 & T3 & T4 & T5 & T0 & T6).
  split; [cbn [snd]; now rewrite T5|]. split; [exact T3|]. split; [exact T0|]. split; [now apply T4|]. cbn [fst]. split; [intros i Hi; destruct i; [congruence|]; cbn; auto|]. cbn [Nat.eqb].
  destruct T6 as [[-> T6]|[(Hg' & cs' & v' & Hc' & Ht')|(T8 & T6 & T7)]].
  - right. cbn [k_hdr k_short k_status k_stack]. split; [congruence|]. split; [congruence|]. left. rewrite T6. auto.
  - right. cbn [k_hdr k_short k_status k_stack]. split; [congruence|]. split; [congruence|]. right. exists K. split; [exact HK|]. split; [exact Hst|]. split; [|exact Hsa].
    split; [exact Hg'|]. exists cs', freed, v'. cbn [k_stack]. auto.
  - left. cbn [k_status]. destruct T7 as [[e ->]|(-> & _ & T7)]; (split; [intros [|]; discriminate|]); (split; [exact T8|]); intros u Hu; [discriminate|]. injection Hu as <-. auto.
Qed.
Lemma ears_step s sa : in_step s sa -> Forall listening_co (k_stack (fst s 0%nat)) -> going (k_status (fst s 0%nat)) ->
  k_hdr (fst s 0%nat) = c_hdr (snd sa) -> k_short (fst s 0%nat) = c_short (snd sa) -> k_status (fst s 0%nat) = fst sa -> c_stack (snd sa) = map anon_co (k_stack (fst s 0%nat)) ->
  in_step (kstep react (CTick 0) s) (tick taking_notes sa) \/ in_step (kstep react (CTick 0) s) (tick taking_notes (tick taking_notes sa)).
Proof.
  intros (Hio & Hl & Hhe & HL & Ho & _) HK Hg Hh Hsh Hst Hsk. cbn [kstep]. unfold ktick. set (k := fst s 0%nat) in *. rewrite tick_going by exact Hg.
  pose proof (hear_step react past (snd s) (k_hdr k) (k_short k) (k_stack k) (c_world (snd sa)) HK Hio HL) as HH.
  assert (tick taking_notes sa = step taking_notes (Conf (k_hdr k) (k_short k) (map anon_co (k_stack k)) (c_world (snd sa)))) as Et.
  { destruct sa as [sta [h sh stk wa]]. cbn [fst snd c_hdr c_short c_stack c_world] in *. subst h sh stk. rewrite <- Hst. destruct Hg as [-> | ->]; reflexivity. }
  rewrite <- Et in HH. destruct (step react (Conf (k_hdr k) (k_short k) (k_stack k) (snd s))) as [st' c'] eqn:E. destruct (tick taking_notes sa) as [sta' ca'].
  destruct HH as ((A1 & A2 & A3 & A4 & A5 & A6 & A7 & A8) & E1 & E2 & E3 & E4 & HH). cbn [fst snd] in *. subst sta'.
  destruct HH as [(H1 & H2 & H3)|(l & ev & freed & K' & H0 & H1 & H2 & H3 & H4)].
  - left. split; [exact A8|]. split; [cbn [snd]; now rewrite A6|]. split; [cbn [snd]; now rewrite A2|]. split; [exact E4|]. cbn [fst]. split; [intros i Hi; destruct i; [congruence|]; cbn; auto|]. cbn [Nat.eqb].
    right. cbn [k_hdr k_short k_status k_stack fst snd]. split; [auto|]. split; [auto|]. left. auto.
  - right. subst st'. destruct ca' as [h sh stk wa']. cbn [c_hdr c_short c_stack c_world] in *. subst h sh stk. cbn [tick step step_user].
    split; [exact A8|]. split; [cbn [snd]; now rewrite A6|]. split; [cbn [snd]; now rewrite A2|]. split; [exact E4|]. cbn [fst]. split; [intros i Hi; destruct i; [congruence|]; cbn; auto|]. cbn [Nat.eqb].
    right. cbn [k_hdr k_short k_status k_stack fst snd c_hdr c_short]. split; [reflexivity|]. split; [reflexivity|]. right. exists K'. split; [exact H3|]. split; [reflexivity|]. split; [|reflexivity].
    split; [now left|]. exists (react l (w_log (snd s) ++ [(l, ev)])), freed, VIdle. split.
    { split; [apply Hsmall|]. split; [apply Hkind|]. split; [|intros _; eexists _, _; apply incl_refl]. eapply Forall_impl; [|apply Hsafe]. intros c Hc Hss. destruct (Hc Hss); auto. }
     cbn [k_stack]. rewrite H1. exact (tk_user K' _ freed false).
Qed.
Lemma stopped_step s sa : in_step s sa -> ~ going (k_status (fst s 0%nat)) -> in_step (kstep react (CTick 0) s) sa.
Proof.
  intros (Hio & Hl & Hhe & HL & Ho & Hf) Hg. cbn [kstep]. rewrite tick_stopped by exact Hg.
  split; [exact Hio|]. split; [exact Hl|]. split; [exact Hhe|]. split; [exact HL|]. cbn [fst snd]. split; [intros i Hi; destruct i; [congruence|]; cbn; auto|exact Hf].
Qed.
Lemma any_tick s sa i : in_step s sa -> exists n, in_step (kstep react (CTick i) s) (run taking_notes (ticks n) sa).
Proof.
  intros H. destruct (Nat.eq_dec i 0) as [->|Hi]; [|exists 0%nat; now apply outside_step].
  destruct (going_dec (k_status (fst s 0%nat))) as [Hg|Hg]; [|exists 0%nat; now apply stopped_step].
  pose proof H as (_ & _ & _ & _ & _ & [[Hn _]|(H1 & H2 & [(H3 & H4 & H5)|(K & H3 & H4 & H5 & H6)])]); [contradiction| |].
  - destruct (ears_step s sa H H3 Hg H1 H2 H4 H5) as [G|G]; [exists 1%nat|exists 2%nat]; exact G.
  - exists 0%nat. eapply code_step; eassumption.
Qed.
Lemma any_arrival s sa rs : io_only rs -> in_step s sa -> in_step (kstep react (CArrive rs) s) (fst sa, arrive rs (snd sa)).
Proof.
  intros Hr (Hio & Hl & Hhe & HL & Ho & Hf). cbn [kstep]. split; [apply io_only_app; assumption|]. split; [exact Hl|]. split; [exact Hhe|]. split.
  - destruct HL as (L1 & L2 & L3 & L4 & L5). unfold like. cbn. rewrite L1. auto.
  - split; [exact Ho|exact Hf].
Qed.
Lemma any_run evs : io_only (arrived evs) -> forall s sa, in_step s sa ->
  exists evs', arrivals evs' = arrived evs /\ in_step (krun react evs s) (run taking_notes evs' sa).
Proof.
  induction evs as [|e evs IH]; intros Hio s sa H; [exists []; auto|]. cbn [krun fold_left]. destruct e as [i|rs]; cbn [arrived] in *.
  - destruct (any_tick s sa i H) as [n Hn]. destruct (IH Hio _ _ Hn) as (evs' & E1 & E2). exists (ticks n ++ evs'). rewrite run_app.
    split; [|exact E2]. rewrite <- E1. clear. induction n; [reflexivity|]. exact IHn.
  - apply Forall_app in Hio. destruct Hio as [Hr Hio]. destruct (IH Hio _ _ (any_arrival s sa rs Hr H)) as (evs' & E1 & E2).
    exists (Arrive rs :: evs'). cbn [arrivals run]. rewrite E1. auto.
Qed.
Lemma in_step_start (work : nat -> list cmd) : io_only (w_in w0) -> s_listener (w_sock w0) <> None -> (safe -> healthy (w_wr w0)) -> small_work work -> (forall i, Forall kind_cmd (work i)) -> (forall i, Forall (safe_cmd false) (work i)) ->
  in_step (crowd_init work w0) (ARun, start_listen (alone w0)).
Proof.
  intros Hio Hl Hh Hs Hk Hsf. split; [exact Hio|]. split; [exact Hl|]. split; [exact Hh|]. split.
  - unfold like, alone. cbn. rewrite app_nil_r. repeat (split; [reflexivity|]). split; [|reflexivity]. destruct (s_listener (w_sock w0)); [reflexivity|congruence].
  - split.
    + intros i Hi. destruct i; [congruence|]. right. cbn. split; [now left|]. exists (work (S i)), VIdle. split; [split; [apply Hs|split; [apply Hk|split; [apply Hsf|discriminate]]]|]. exact (tk_user [] _ false false).
    + right. cbn. split; [reflexivity|]. split; [reflexivity|]. left. split; [repeat constructor|auto].
Qed.
End Notes.
