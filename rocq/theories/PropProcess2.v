(** C76-C78, continued: nobody waits for anybody; full duplex. *)
From Verif Require Import Bytes Frame World WebSocket AsyncWebSocket SpecFrame SpecSend SpecListen SpecApi SpecConfig SpecAsync SpecReply Threads SpecThreads
  Concurrent SpecConcurrent Process SpecProcess ProofFrame ProofStream ProofSend ProofHeader ProofListen ProofInv ProofAsync ProofThreads PropReply
  ProofThreads2 PropThreads PropThreads2 ProofConcurrent ProofCodec ProofProcess ProofProcess2 ProofProcess3 ProofProcess4 PropProcess.
From Coq Require Cantor.
From Coq Require Import ZifyBool ZifyNat ZifyN.
Local Open Scope N_scope.
Local Arguments takeN : simpl never.
Local Arguments dropN : simpl never.
Local Arguments lenN : simpl never.
Local Arguments be_enc : simpl never.
Local Arguments be_dec : simpl never.

(** ** Progress *)
Lemma srun_app a b s : srun (a ++ b) s = srun b (srun a s).
Proof. revert s. induction a as [|i a IH]; intros s; [reflexivity|]. apply IH. Qed.
Lemma after_S f n s : after f (S n) s = sstep (f n) (after f n s).
Proof. unfold after. rewrite seq_S, map_app, srun_app. reflexivity. Qed.
Definition suffix {A} (a b : list A) : Prop := exists r, b = r ++ a.
Lemma step_wr p v g (p' : prog unit) v' g' : pstep p v g = Some (p', v', g') -> suffix (g_wr g') (g_wr g).
Proof.
  assert (forall q : list wev, suffix q q) as R by (intros q; exists []; reflexivity).
  intros E. destruct p as [o|u k|k|x k|k|k|n k|d got k|e k]; cbn [pstep] in *; try discriminate; try (injection E as <- <- <-; apply R).
  destruct d as [|c d]; [injection E as <- <- <-; apply R|]. destruct (g_wr g) as [|[n|[]|] q] eqn:Eq; try discriminate; injection E as <- <- <-; cbn [g_wr];
  try (now exists []); eexists [_]; reflexivity.
Qed.
Lemma step_same i j s : j <> i -> fst (sstep j s) i = fst s i.
Proof.
  intros H. unfold sstep. destruct (pstep _ _ _) as [[[p v] g]|]; [|reflexivity]. cbn [fst]. destruct (Nat.eqb_spec i j); [congruence|reflexivity].
Qed.
Lemma sstep_wr j s : suffix (g_wr (snd (sstep j s))) (g_wr (snd s)).
Proof. unfold sstep. destruct (pstep _ _ _) as [[[p v] g]|] eqn:E; [|exists []; reflexivity]. eapply step_wr. exact E. Qed.
Lemma suffix_trans {A} (a b c : list A) : suffix a b -> suffix b c -> suffix a c.
Proof. intros [r ->] [q ->]. exists (q ++ r). now rewrite app_assoc. Qed.
Lemma suffix_block (a b : list wev) : suffix a b -> no_block b -> no_block a.
Proof. intros [r ->] H. apply Forall_app in H. apply H. Qed.
Lemma suffix_len {A} (a b : list A) : suffix a b -> (length a <= length b)%nat.
Proof. intros [r ->]. rewrite app_length. lia. Qed.

Section Fair.
Variable f : nat -> nat.
Hypothesis Hf : everybody f.
Variable s0 : system.
Variable i : nat.
Definition comes_to_an_end (p : prog unit) : Prop :=
  forall n, fst (fst (after f n s0) i) = p -> no_block (g_wr (snd (after f n s0))) -> exists n' o, finished (after f n' s0) i o.
(** Until thread [i] moves its state is the same. *)
Lemma until_moves n k : (forall m, (n <= m < n + k)%nat -> f m <> i) ->
  fst (after f (n + k) s0) i = fst (after f n s0) i /\ suffix (g_wr (snd (after f (n + k) s0))) (g_wr (snd (after f n s0))).
Proof.
  induction k as [|k IH]; intros H.
  - rewrite Nat.add_0_r. split; [reflexivity|]. exists []. reflexivity.
  - rewrite Nat.add_succ_r, after_S. destruct IH as [H1 H2]; [intros m Hm; apply H; lia|]. split.
    + rewrite step_same; [exact H1|]. apply H. lia.
    + eapply suffix_trans; [apply sstep_wr|exact H2].
Qed.
Lemma first_from n : exists m, (n <= m)%nat /\ f m = i /\ forall q, (n <= q < m)%nat -> f q <> i.
Proof.
  destruct (Hf i n) as (k & Hk & E). remember (k - n)%nat as d eqn:Ed. revert n Hk Ed. induction d as [|d IH]; intros n Hk Ed.
  - exists k. split; [exact Hk|]. split; [exact E|]. intros q Hq. lia.
  - destruct (Nat.eq_dec (f n) i) as [Ei|Ei].
    + exists n. split; [lia|]. split; [exact Ei|]. intros q Hq. lia.
    + destruct (IH (S n)) as (m & H1 & H2 & H3); [lia|lia|]. exists m. split; [lia|]. split; [exact H2|]. intros q Hq.
      destruct (Nat.eq_dec q n) as [->|Hn]; [exact Ei|]. apply H3. lia.
Qed.
(** The next move of thread [i]. *)
Lemma next_move n : exists m, (n <= m)%nat /\ fst (after f m s0) i = fst (after f n s0) i /\ suffix (g_wr (snd (after f m s0))) (g_wr (snd (after f n s0))) /\
  after f (S m) s0 = sstep i (after f m s0).
Proof.
  destruct (first_from n) as (m & H1 & H2 & H3). exists m. split; [exact H1|]. replace m with (n + (m - n))%nat by lia.
  destruct (until_moves n (m - n)) as [G1 G2]; [intros q Hq; apply H3; lia|]. split; [exact G1|]. split; [exact G2|].
  rewrite after_S. replace (n + (m - n))%nat with m by lia. now rewrite H2.
Qed.
Lemma all_end p : comes_to_an_end p.
Proof.
  assert (forall s p' v' g', pstep (fst (fst s i)) (snd (fst s i)) (snd s) = Some (p', v', g') -> fst (fst (sstep i s) i) = p' /\ snd (sstep i s) = g') as Hgo.
  { intros s p' v' g' E. unfold sstep. rewrite E. cbn [fst snd]. now rewrite Nat.eqb_refl. }
  induction p as [o|u k IH|k IH|x k IH|k IH|k IH|c k IH|d got k IH|e k IH]; intros n Hp Hb.
  - exists n, o. exact Hp.
  - destruct (next_move n) as (m & _ & G1 & G2 & G3). rewrite <- G1 in Hp. destruct (fst (after f m s0) i) as [p v] eqn:Ep; cbn [fst] in Hp; subst p.
    destruct (Hgo (after f m s0) (k v) (u v) (snd (after f m s0))) as [H1 H2]; [rewrite Ep; reflexivity|].
    rewrite <- G3 in H1, H2. apply (IH v (S m) H1). rewrite H2. eapply suffix_block; eassumption.
  - destruct (next_move n) as (m & _ & G1 & G2 & G3). rewrite <- G1 in Hp. destruct (fst (after f m s0) i) as [p v] eqn:Ep; cbn [fst] in Hp; subst p.
    eassert _ as Hx; [eapply (Hgo (after f m s0)); rewrite Ep; reflexivity|]. destruct Hx as [H1 H2].
    rewrite <- G3 in H1, H2. apply (IH _ (S m) H1). rewrite H2. eapply suffix_block; eassumption.
  - destruct (next_move n) as (m & _ & G1 & G2 & G3). rewrite <- G1 in Hp. destruct (fst (after f m s0) i) as [p v] eqn:Ep; cbn [fst] in Hp; subst p.
    eassert _ as Hx; [eapply (Hgo (after f m s0)); rewrite Ep; reflexivity|]. destruct Hx as [H1 H2].
    rewrite <- G3 in H1, H2. apply (IH (S m) H1). rewrite H2. eapply suffix_block; eassumption.
  - destruct (next_move n) as (m & _ & G1 & G2 & G3). rewrite <- G1 in Hp. destruct (fst (after f m s0) i) as [p v] eqn:Ep; cbn [fst] in Hp; subst p.
    eassert _ as Hx; [eapply (Hgo (after f m s0)); rewrite Ep; reflexivity|]. destruct Hx as [H1 H2].
    rewrite <- G3 in H1, H2. apply (IH (S m) H1). rewrite H2. eapply suffix_block; eassumption.
  - destruct (next_move n) as (m & _ & G1 & G2 & G3). rewrite <- G1 in Hp. destruct (fst (after f m s0) i) as [p v] eqn:Ep; cbn [fst] in Hp; subst p.
    eassert _ as Hx; [eapply (Hgo (after f m s0)); rewrite Ep; reflexivity|]. destruct Hx as [H1 H2].
    rewrite <- G3 in H1, H2. apply (IH (S m) H1). rewrite H2. eapply suffix_block; eassumption.
  - destruct (next_move n) as (m & _ & G1 & G2 & G3). rewrite <- G1 in Hp. destruct (fst (after f m s0) i) as [p v] eqn:Ep; cbn [fst] in Hp; subst p.
    eassert _ as Hx; [eapply (Hgo (after f m s0)); rewrite Ep; reflexivity|]. destruct Hx as [H1 H2].
    rewrite <- G3 in H1, H2. apply (IH _ (S m) H1). rewrite H2. eapply suffix_block; eassumption.
  - remember (length (g_wr (snd (after f n s0)))) as L eqn:EL. assert (length (g_wr (snd (after f n s0))) <= L)%nat as HL by lia. clear EL.
    revert d got n Hp Hb HL. induction L as [|L IHL]; intros d got n Hp Hb HL.
    + destruct (next_move n) as (m & _ & G1 & G2 & G3). rewrite <- G1 in Hp. destruct (fst (after f m s0) i) as [p v] eqn:Ep; cbn [fst] in Hp; subst p.
      assert (g_wr (snd (after f m s0)) = []) as Hnil by (apply suffix_len in G2; destruct (g_wr (snd (after f m s0))); [reflexivity|cbn [length] in G2; lia]).
      assert (exists c g', pstep (PWrite d got k) v (snd (after f m s0)) = Some (k c, v, g') /\ g_wr g' = []) as (c & g' & Es & Eg).
      { cbn [pstep]. destruct d as [|x d]; [eauto|]. rewrite Hnil. eexists _, _. split; reflexivity. }
      destruct (Hgo (after f m s0) (k c) v g') as [H1 H2]; [rewrite Ep; exact Es|]. rewrite <- G3 in H1, H2. apply (IH _ (S m) H1). rewrite H2, Eg. constructor.
    + destruct (next_move n) as (m & _ & G1 & G2 & G3). rewrite <- G1 in Hp. destruct (fst (after f m s0) i) as [p v] eqn:Ep; cbn [fst] in Hp; subst p.
      pose proof (suffix_block _ _ G2 Hb) as Hb'. pose proof (suffix_len _ _ G2) as HL'.
      assert (exists p' g', pstep (PWrite d got k) v (snd (after f m s0)) = Some (p', v, g') /\ no_block (g_wr g') /\
        ((exists c, p' = k c) \/ (exists d' got', p' = PWrite d' got' k /\ (length (g_wr g') < length (g_wr (snd (after f m s0))))%nat))) as (p' & g' & Es & Eb & Ec).
      { cbn [pstep]. destruct d as [|x d]; [eexists _, _; split; [reflexivity|]; split; [exact Hb'|]; left; eauto|].
        destruct (g_wr (snd (after f m s0))) as [|[c|[]|] q]; try (apply Forall_cons_iff in Hb'; destruct Hb' as [Hx Hb']); try (exfalso; apply Hx; reflexivity);
          (eexists _, _; split; [reflexivity|]; split; [first [exact Hb'|constructor]|]); cbn [g_wr length]; eauto; right; eexists _, _; split; eauto; lia. }
      destruct (Hgo (after f m s0) p' v g') as [H1 H2]; [rewrite Ep; exact Es|]. rewrite <- G3 in H1, H2.
      destruct Ec as [[c ->]|(d' & got' & -> & Hlt)].
      * apply (IH _ (S m) H1). rewrite H2. exact Eb.
      * apply (IHL _ _ (S m) H1); rewrite H2; [exact Eb|lia].
  - destruct (next_move n) as (m & _ & G1 & G2 & G3). rewrite <- G1 in Hp. destruct (fst (after f m s0) i) as [p v] eqn:Ep; cbn [fst] in Hp; subst p.
    eassert _ as Hx; [eapply (Hgo (after f m s0)); rewrite Ep; reflexivity|]. destruct Hx as [H1 H2].
    rewrite <- G3 in H1, H2. apply (IH (S m) H1). rewrite H2. eapply suffix_block; eassumption.
Qed.
End Fair.
Lemma stays_finished f s i o n n' : finished (after f n s) i o -> (n <= n')%nat -> finished (after f n' s) i o.
Proof.
  intros H. induction 1 as [|n' Hn IH]; [exact H|]. rewrite after_S. unfold finished in *. destruct (Nat.eq_dec (f n') i) as [->|Hne].
  - unfold sstep. rewrite IH. exact IH.
  - now rewrite step_same.
Qed.

(** Nobody waits for anybody: if writes do not block for ever, every thread comes to an end (listen() possibly by waiting for more input)
    however the others are scheduled. *)
Theorem C78_nobody_waits : forall react work w f i,
  no_block (w_wr w) -> everybody f -> exists o, ends_with f (system_init react work w) i o.
Proof.
  intros react work w f i Hb Hf. destruct (all_end f Hf (system_init react work w) i _ 0%nat eq_refl Hb) as (n & o & H).
  exists o, n. intros n' Hn. eapply stays_finished; eassumption.
Qed.
Print Assumptions C78_nobody_waits.

(** ** Safety *)
Lemma cmd_no_ub c w o w' : small_cmd c -> exec_cmd c w = (o, w') -> (forall u, o <> Ub u) /\ o <> OutOfFuel.
Proof.
  intros Hs E. pose proof E as E0.
  assert (exec_cmds [c] w = (o, w')) as E1 by (cbn [exec_cmds]; unfold bind; rewrite E; destruct o as [[]| | | |]; reflexivity).
  split; [|now apply exec_cmds_in in E1]. intros u Hu. subst o.
  destruct c as [|l|m b|catch op| | |fin opc m]; cbn [exec_cmd small_cmd] in *; try discriminate.
  - destruct catch.
    + unfold try_ in E. destruct (send op w) as [o1 w1] eqn:E2. destruct o1 as [|e| |u1|]; try discriminate. injection E as -> ->.
      eapply send_no_ub; [| |exact E2|reflexivity]; lia.
    + eapply send_no_ub; [| |exact E|reflexivity]; lia.
  - destruct (demand_send _ _ _ _ _ _ E) as (o2 & E2 & Ho). 
    assert (o2 = Ub u) as -> by (destruct Ho as [Ho|[_ Ho]]; [exact Ho|discriminate]).
    assert (lenN (req_payload (SoFrame fin opc m)) < 2 ^ 31) as Hz by exact Hs. eapply send_no_ub; [| |exact E2|reflexivity]; lia.
Qed.
Lemma tcmds_no_ub cs : Forall small_cmd cs -> forall t o t', texec_cmds cs t = (o, t') -> (forall u, o <> Ub u) /\ o <> OutOfFuel.
Proof.
  induction 1 as [|c cs Hc _ IH]; intros t o t' E; cbn [texec_cmds] in E.
  - injection E as <- <-. split; discriminate.
  - unfold tbind in E. destruct (texec_cmd c t) as [o1 t1] eqn:E1. apply texec_cmd_inv in E1. destruct E1 as (t2 & w' & _ & E2 & _).
    apply cmd_no_ub in E2; [|exact Hc]. destruct E2 as [G1 G2].
    destruct o1 as [[]|e| |u|]; [eapply IH; exact E|..]; injection E as <- <-; split; congruence.
Qed.
(** Sends of healthy connections do not fail. *)
Definition is_throw (c : cmd) : bool := match c with CThrow => true | _ => false end.
Lemma tcmds_ret m cs : Forall small_cmd cs -> Forall (cmask_ok m) cs -> existsb is_throw cs = false -> forall t o t',
  pre_put m True t -> texec_cmds cs t = (o, t') -> o = Ret tt.
Proof.
  induction cs as [|c cs IH]; intros Hs Hc Ht t o t' HP E; cbn [texec_cmds] in E; [injection E as <- <-; reflexivity|].
  apply Forall_cons_iff in Hs, Hc. cbn [existsb] in Ht. apply Bool.orb_false_iff in Ht. destruct Hs as [Hs1 Hs], Hc as [Hc1 Hc], Ht as [Ht1 Ht].
  unfold tbind in E. destruct (texec_cmd c t) as [o1 t1] eqn:E1. apply (tcmd_put m True) in E1; [|assumption..]. destruct E1 as (P1 & _ & _ & H & _).
  rewrite H in E; [|exact Logic.I|intros ->; discriminate]. eapply IH; eassumption.
Qed.

Theorem C76_safe : forall react work w sch,
  io_only (w_in w) -> (forall l log, Forall no_config_cmd (react l log)) -> small_react react -> (forall i, Forall kind_cmd (work i)) -> small_work work ->
  let s := srun sch (system_init react work w) in forall i o, finished s i o ->
  (forall u, o <> Ub u) /\ o <> OutOfFuel /\ (i = 0%nat -> o = Ret tt \/ o = Wait).
Proof.
  intros react work w sch Hio Hr Hsr Hw Hsw s i o Hfin.
  assert (forall i, Forall (cmd_ok quiet_ext False) (work i)) as Hok by (intros j; eapply Forall_impl; [|apply Hw]; apply kind_ok).
  assert (forall l log, Forall (cmd_ok (fun _ => True) False) (react l log)) as Hok' by (intros l log; apply Forall_forall; intros c _; apply any_ok).
  destruct i as [|i].
  - destruct (thread0 react work w (fun _ => True) quiet_ext False sch Hok' Hok (fun H => match H with end) Hio) as (a & C & fn & o1 & t & E & HC & _ & _ & Hf).
    destruct (Hf o Hfin) as (<- & _ & _). set (w0 := World (w_in w) a [] fn 0 (w_log w) (w_sock w)) in *.
    assert (others no_null C /\ others no_config C) as (Hn & Hc).
    { split; (eapply Forall_impl; [|exact HC]); intros xs Hxs; (eapply Forall_impl; [|exact Hxs]); intros x [? ?]; assumption. }
    destruct (C70_safe_partial react w0 C o t Hio E) as (G1 & G2 & G3 & G4 & G5). specialize (G2 Hn). specialize (G3 Hc Hr). specialize (G4 Hsr).
    assert (forall u, o <> Ub u) as HU by (intros [] Hu; subst o; tauto).
    split; [exact HU|].
    assert (o <> OutOfFuel) as HF; [|split; [exact HF|]; intros _; destruct o as [[]|e| |u|]; auto; [destruct (G1 e eq_refl)|destruct (HU u eq_refl)|congruence]].
    apply (start react True True) in E; auto. destruct E as (t1 & o1 & HR & Hin & E & ->).
    apply (loop_frames react True True Hr (or_introl Logic.I) (or_introl Logic.I) true _ _ _ (on_its_own w0)) in E; [|exact HR|cbn; lia].
    destruct E as [Hn0 _]. destruct o1; congruence.
  - destruct (each_alone react work w (fun _ => True) quiet_ext False sch Hok' Hok (fun H => match H with end)) as (lab & rlab & _ & _ & Hi).
    destruct (Hi (fun _ => x00) (S i)) as (a & C & o1 & t & E & _ & _ & _ & _ & _ & Hf). destruct (Hf o Hfin) as (-> & _).
    cbn [start_of] in E. rewrite interp_cmds in E. apply tcmds_no_ub in E; [|apply Hsw]. split; [apply E|]. split; [apply E|discriminate].
Qed.
Print Assumptions C76_safe.

(** ** Full duplex *)
Lemma only_from j (lab : list (nat * byte)) : (forall i, i <> j -> from i lab = []) -> from j lab = map snd lab.
Proof.
  induction lab as [|[i b] lab IH]; intros H; [reflexivity|]. unfold from in *. cbn [filter fst] in *.
  destruct (Nat.eqb_spec i j) as [->|Hne].
  - cbn [map snd]. f_equal. apply IH. intros i Hi. specialize (H i Hi). cbn [filter fst] in H. destruct (Nat.eqb_spec j i); [congruence|exact H].
  - exfalso. specialize (H i Hne). cbn [filter fst] in H. rewrite Nat.eqb_refl in H. discriminate.
Qed.
Lemma put_whole m (P : Prop) rnd b ops : P -> put_all m P rnd b ops -> put_all m True rnd b ops.
Proof.
  intros HP (ps & -> & Hk & H). exists ps. split; [reflexivity|]. split; [exact Hk|]. clear Hk. induction H as [|[k x] y ps' ops' (R1 & R2 & R3) H IH]; constructor; [|exact IH].
  split; [exact R1|]. split; [auto|exact R3].
Qed.
Lemma put_none m whole rnd b ops : put_all m whole rnd b ops -> ops = [] -> b = [].
Proof. intros (ps & -> & _ & H) ->. inversion H. reflexivity. Qed.
Lemma fresh_ext rnd rnd' l : (forall n, rnd n = rnd' n) -> forall pos, fresh_keys rnd pos l -> fresh_keys rnd' pos l.
Proof. intros H. induction l as [|[k|] l IH]; intros pos; cbn [fresh_keys]; auto. unfold key_at. rewrite !H. intros [H1 H2]. auto. Qed.
Lemma put_ext m whole rnd rnd' b ops : (forall n, rnd n = rnd' n) -> put_all m whole rnd b ops -> put_all m whole rnd' b ops.
Proof. intros H (ps & H1 & H2 & H3). exists ps. split; [exact H1|]. split; [exact (fresh_ext _ _ _ H _ H2)|exact H3]. Qed.
(** If only thread [j] has drawn random bytes, it has got those of the source one after the other. *)
Lemma only_drawn rnd pos drawn j : (forall i, i <> j -> count_occ Nat.eq_dec drawn i = 0%nat) ->
  forall n, own_random rnd pos drawn (fun n => rnd (pos + n)%nat) j n = rnd (pos + n)%nat.
Proof.
  intros H n. unfold own_random. rewrite only_from.
  2: { intros i Hi. specialize (H i Hi). apply (count_occ_not_In Nat.eq_dec) in H. unfold from. 
    assert (forall l, filter (fun x => Nat.eqb (fst x) i) (combine drawn l) = []) as ->; [|reflexivity].
    clear -H. induction drawn as [|d r IH]; intros l; [reflexivity|]. destruct l as [|x l]; [reflexivity|]. cbn [combine filter fst].
    destruct (Nat.eqb_spec d i) as [->|]; [exfalso; apply H; now left|]. apply IH. intros Hx. apply H. now right. }
  assert (forall (a : list nat) (b : bytes), length a = length b -> map snd (combine a b) = b) as Hc.
  { clear. induction a as [|x a IH]; intros [|y b] E; try discriminate; [reflexivity|]. cbn [combine map snd]. f_equal. apply IH. now injection E. }
  rewrite Hc by now rewrite map_length, seq_length. destruct (Nat.lt_ge_cases n (length drawn)) as [Hn|Hn].
  - rewrite (nth_indep _ _ (rnd 0%nat)) by (rewrite map_length, seq_length; exact Hn). rewrite map_nth, seq_nth by exact Hn. reflexivity.
  - apply nth_overflow. rewrite map_length, seq_length. exact Hn.
Qed.
Lemma prefix_of_nil {A} (l : list A) : prefix l [] -> l = [].
Proof. intros [r E]. symmetry in E. apply app_eq_nil in E. apply E. Qed.
Lemma replies_none react : (forall l log, sends_of (react l log) = []) -> forall new log, replies react log new = [].
Proof. intros H. induction new as [|e r IH]; intros log; cbn [replies]; [reflexivity|]. now rewrite H, IH. Qed.

(** If only thread [j] sends, the connection carries the frames of its messages one after the other, at every moment a beginning of them;
    whatever is received meanwhile. *)
Theorem C78_one_sender : forall m react work w sch j,
  io_only (w_in w) -> healthy (w_wr w) -> small_react react -> small_work work -> masks_as m react work w -> only_sender j react work -> j <> 0%nat ->
  let s := srun sch (system_init react work w) in
  exists b, put_all m True (fun n => w_rnd w (w_rpos w + n)%nat) b (sends_of (work j)) /\ prefix (wire_out s) (w_out w ++ b) /\
    forall o, finished s j o -> wire_out s = w_out w ++ b.
Proof.
  intros m react work w sch j Hio Hh Hsr Hsw Hm [Ho1 Ho2] Hj s.
  destruct (C77_bytes m react work w sch Hio Hsr Hsw Hm) as (lab & drawn & Hlab & HX). fold s in Hlab, HX.
  destruct (HX (fun n => w_rnd w (w_rpos w + n)%nat)) as (HW & (new & ops & b & P1 & P2 & P3 & P4 & _ & P5 & _)).
  assert (forall i, i <> j -> from i lab = [] /\ count_occ Nat.eq_dec drawn i = 0%nat) as Hno.
  { intros i Hi. destruct i as [|i].
    - assert (ops = []) as Hops by (rewrite (P3 Hh); apply replies_none, Ho1, Hj). split; [|rewrite Hops in P4; cbn [length] in P4; lia].
      apply prefix_of_nil. rewrite <- (put_none _ _ _ _ _ P1); [exact P5|exact Hops].
    - destruct (HW (S i)) as (ops1 & b1 & Q1 & _ & Q3 & Q6 & Q4 & _); [discriminate|]. assert (ops1 = []) as Hops by (rewrite (Q3 Hh); now apply Ho2).
      split; [|rewrite Hops in Q6; cbn [length] in Q6; lia]. apply prefix_of_nil. rewrite <- (put_none _ _ _ _ _ Q1); [exact Q4|exact Hops]. }
  assert (from j lab = map snd lab) as Hfrom by (apply only_from; intros i Hi; now apply Hno).
  destruct (HW j Hj) as (ops1 & b1 & Q1 & _ & Q3 & _ & Q4 & Q5). exists b1. rewrite <- (Q3 Hh). split; [|split].
  - eapply put_ext; [|exact (put_whole _ _ _ _ _ Hh Q1)]. apply only_drawn. intros i Hi. now apply Hno.
  - rewrite Hlab, <- Hfrom. destruct Q4 as [r ->]. exists r. now rewrite app_assoc.
  - intros o Hfin. destruct (Q5 o Hfin) as [<- _]. now rewrite Hfrom.
Qed.
Print Assumptions C78_one_sender.

(** The same for replies: if only the callbacks send. *)
Theorem C78_replies : forall m react work w sch o,
  io_only (w_in w) -> healthy (w_wr w) -> small_react react -> small_work work -> masks_as m react work w -> only_sender 0 react work ->
  let s := srun sch (system_init react work w) in finished s 0 o ->
  exists new b, told s = w_log w ++ new /\ put_all m True (fun n => w_rnd w (w_rpos w + n)%nat) b (replies react (w_log w) new) /\ wire_out s = w_out w ++ b.
Proof.
  intros m react work w sch o Hio Hh Hsr Hsw Hm [_ Ho2] s Hfin.
  destruct (C77_bytes m react work w sch Hio Hsr Hsw Hm) as (lab & drawn & Hlab & HX). fold s in Hlab, HX.
  destruct (HX (fun n => w_rnd w (w_rpos w + n)%nat)) as (HW & (new & ops & b & P1 & P2 & P3 & _ & P4 & P5 & P6)).
  assert (forall i, i <> 0%nat -> from i lab = [] /\ count_occ Nat.eq_dec drawn i = 0%nat) as Hno.
  { intros i Hi. destruct (HW i Hi) as (ops1 & b1 & Q1 & _ & Q3 & Q6 & Q4 & _). assert (ops1 = []) as Hops by (rewrite (Q3 Hh); now apply Ho2).
    split; [|rewrite Hops in Q6; cbn [length] in Q6; lia]. apply prefix_of_nil. rewrite <- (put_none _ _ _ _ _ Q1); [exact Q4|exact Hops]. }
  destruct (P6 o Hfin) as [H1 H2]. exists new, b. split; [exact H1|]. split.
  - rewrite <- (P3 Hh). eapply put_ext; [|exact (put_whole _ _ _ _ _ Hh P1)]. apply only_drawn. intros i Hi. now apply Hno.
  - rewrite Hlab, <- H2, only_from; [reflexivity|]. intros i Hi. now apply Hno.
Qed.
Print Assumptions C78_replies.

(** Full duplex: one thread listens, the others send, install listeners and do whatever else cannot fail. If every thread gets to run,
    receiving ends exactly as it would undisturbed, every thread finishes, and all the frames of its messages are on the wire. *)
Lemma healthy_flows q : healthy q -> no_block q.
Proof. intros H. eapply Forall_impl; [|exact H]. intros [n|[]|] Hx; cbn in Hx; try contradiction; discriminate. Qed.
Theorem C78_full_duplex : forall m react work w f k,
  io_only (w_in w) -> s_listener (w_sock w) <> None -> healthy (w_wr w) ->
  (forall l log, Forall gentle_cmd (react l log)) -> (forall i, Forall gentle_cmd (work i)) -> never_stops react -> no_stop work ->
  masks_as m react work w -> everybody f ->
  exists n, forall n', (n <= n')%nat ->
  let s := after f n' (system_init react work w) in
  exists o p new lab drawn,
    listen taking_notes (on_its_own w) = (o, p) /\ finished s 0 o /\ told s = w_log w ++ new /\ map snd new = map snd (w_log p) /\
    wire_out s = w_out w ++ map snd lab /\ (forall i, (0 < i <= k)%nat -> finished s i (Ret tt)) /\
    forall later, let rnd := own_random (w_rnd w) (w_rpos w) drawn later in
      put_all m True (rnd 0%nat) (from 0 lab) (replies react (w_log w) new) /\
      forall i, (0 < i <= k)%nat -> put_all m True (rnd i) (from i lab) (sends_of (work i)).
Proof.
  intros m react work w f k Hio Hl Hh Hr Hw Hs Hs' Hm Hf.
  assert (forall c, gentle_cmd c -> small_cmd c /\ is_throw c = false) as Hg.
  { intros c [Hx Hy]. destruct c as [|[]| |? ?| | |]; cbn in *; try contradiction; repeat split; try tauto; try discriminate. }
  assert (small_react react) as Hsr by (intros l log; eapply Forall_impl; [|apply Hr]; intros c Hc; now apply Hg).
  assert (small_work work) as Hsw by (intros i; eapply Forall_impl; [|apply Hw]; intros c Hc; now apply Hg).
  set (s0 := system_init react work w).
  assert (exists n, forall n' i, (n <= n')%nat -> (i <= k)%nat -> exists o, finished (after f n' s0) i o) as [n Hn].
  { clear -Hf Hh. induction k as [|k [n IH]].
    - destruct (C78_nobody_waits react work w f 0%nat (healthy_flows _ Hh) Hf) as (o & n & H). exists n. intros n' i Hn Hi. assert (i = 0)%nat as -> by lia. eauto.
    - destruct (C78_nobody_waits react work w f (S k) (healthy_flows _ Hh) Hf) as (o & n1 & H). exists (max n n1). intros n' i Hn Hi.
      destruct (Nat.eq_dec i (S k)) as [->|]; [exists o; apply H; lia|]. apply IH; lia. }
  exists n. intros n' Hn' s. destruct (Hn n' 0%nat Hn') as [o Ho]; [lia|].
  destruct (C76_everything react work w (map f (seq 0 n')) o Hio Hl Hh Hr Hw Hs Hs' Ho) as (new & p & E1 & E2 & E3).
  destruct (C77_bytes m react work w (map f (seq 0 n')) Hio Hsr Hsw Hm) as (lab & drawn & Hlab & HX).
  exists o, p, new, lab, drawn. split; [exact E1|]. split; [exact Ho|]. split; [exact E2|]. split; [exact E3|]. split; [exact Hlab|].
  assert (forall i, (0 < i <= k)%nat -> exists oi, finished s i oi) as Hoi' by (intros i Hi; apply (Hn n' i Hn'); lia).
  split.
  2: { intros later rnd. destruct (HX later) as (HW & (new0 & ops & b & P1 & P2 & P3 & _ & _ & _ & P6)).
    destruct (P6 o Ho) as [H1 H2]. assert (new0 = new) as -> by (rewrite E2 in H1; symmetry; eapply app_inv_head; exact H1). split.
    - rewrite H2, <- (P3 Hh). exact (put_whole _ _ _ _ _ Hh P1).
    - intros i Hi. destruct (Hoi' i Hi) as [oi Hoi]. destruct (HW i) as (ops1 & b1 & Q1 & _ & Q3 & _ & _ & Q5); [lia|]. destruct (Q5 oi Hoi) as [-> _].
      rewrite <- (Q3 Hh). exact (put_whole _ _ _ _ _ Hh Q1). }
  intros i Hi. destruct (Hoi' i Hi) as [oi Hoi].
    destruct (mask_cmd_ok m (healthy (w_wr w)) _ _ _ Hm) as (M1 & M2 & M3 & M4).
    destruct (each_alone react work w (mask_ok m) (mask_ok m) (healthy (w_wr w)) (map f (seq 0 n')) M1 M2 (fun H => H)) as (lab1 & rlab1 & _ & _ & HA).
    destruct i as [|i]; [lia|]. destruct (HA (fun _ => x00) (S i)) as (a & C & o1 & t & E & HC & Ha & _ & _ & _ & Hfin). destruct (Hfin oi Hoi) as (-> & _).
    cbn [start_of priv0 sock0 seen_by] in *. rewrite interp_cmds in E. apply (tcmds_ret m) in E; [subst o1; exact Hoi|apply Hsw|apply M4| |].
    + destruct (existsb is_throw (work (S i))) eqn:Ex; [|reflexivity]. apply existsb_exists in Ex. destruct Ex as (c & Hc1 & Hc2).
      specialize (Hw (S i)). rewrite Forall_forall in Hw. destruct (Hg c (Hw c Hc1)) as [_ Hz]. congruence.
    + split; [intros b2 Hb; apply Hm, Hb|]. split; [intros _; apply Ha, Hh|]. split; [|constructor].
      eapply Forall_impl; [|exact HC]. intros xs Hxs. eapply Forall_impl; [|exact Hxs]. intros x [?|?]; assumption.
Qed.
Print Assumptions C78_full_duplex.

(** * Concrete cases *)
(** A text message in two parts with a ping between them and a Close frame arrive; callbacks answer pings (as all listeners do);
    thread 1 sends two messages and installs listener 2, thread 2 sends one and calls setListener too. *)
Definition chatter_in : list rev := [RData x01 [x02; x61; x62]; RData x89 [x01; x7a]; RIo IoRetry; RData x80 [x01; x63; x88; x00]].
Definition chatter_react : react_t := fun l log => match List.last log (0%nat, EvEnd 0) with (_, EvPing [c]) => [CSend true (SoPong (Some [c]))] | _ => [] end.
Definition chatter_work (i : nat) : list cmd :=
  match i with
  | 1%nat => [CSend true (SoText (Some [x68; x69])); CSetListener (Some 2%nat); CSend false (SoPing None)]
  | 2%nat => [CUseData; CSetListener (Some 1%nat); CSend true (SoBinary (Some [xff]))]
  | _ => []
  end.
Definition chatter_world (wr : list wev) : world := World chatter_in wr [] (fun n => Byte.x2a) 0 [] (Sock false 8 (Some 1%nat) (-1) false).
Definition round_robin : list nat := concat (repeat [0%nat; 1%nat; 2%nat; 0%nat] 60).
Example C76_nonvacuous :
  io_only chatter_in /\ healthy [WAccept 1; WIo IoRetry; WAccept 3] /\ (forall l log, Forall gentle_cmd (chatter_react l log)) /\
  (forall i, Forall gentle_cmd (chatter_work i)) /\ never_stops chatter_react /\ no_stop chatter_work /\
  masks_as (Some false) chatter_react chatter_work (chatter_world [WAccept 1; WIo IoRetry; WAccept 3]) /\
  let s := srun round_robin (system_init chatter_react chatter_work (chatter_world [WAccept 1; WIo IoRetry; WAccept 3])) in
  finished s 0 (Ret tt) /\ finished s 1 (Ret tt) /\ finished s 2 (Ret tt) /\
  map snd (told s) = map snd (w_log (snd (listen taking_notes (on_its_own (chatter_world []))))) /\ told s <> w_log (snd (listen taking_notes (on_its_own (chatter_world [])))).
Proof.
  split; [repeat constructor|]. split; [repeat constructor|]. split.
  { intros l log. unfold chatter_react. destruct (List.last log (0%nat, EvEnd 0)) as [? [| |[|c []]| |]]; repeat constructor. }
  split.
  { intros [|[|[|i]]]; repeat constructor. }
  split.
  { intros l log. unfold chatter_react. destruct (List.last log (0%nat, EvEnd 0)) as [? [| |[|c []]| |]]; reflexivity. }
  split; [intros [|[|[|i]]]; reflexivity|].
  split.
  { intros b [= <-]. split; [reflexivity|]. split.
    - intros l log. unfold chatter_react. destruct (List.last log (0%nat, EvEnd 0)) as [? [| |[|c []]| |]]; repeat constructor.
    - intros [|[|[|i]]]; repeat constructor. }
  vm_compute. repeat split. discriminate.
Qed.
(** What it sends is what C77 says, and nothing more: the bytes of two of the frames are mixed (C30). *)
Example C77_nonvacuous :
  let s := srun round_robin (system_init chatter_react chatter_work (chatter_world [WAccept 1; WIo IoRetry; WAccept 3])) in
  small_react chatter_react /\ small_work chatter_work /\
  wire_out s = [x81; x02; x82; x01; x68; x69; xff; x89; x00; x8a; x01; x7a] /\
  sent_wire None (SoText (Some [x68; x69])) = [x81; x02; x68; x69] /\ sent_wire None (SoBinary (Some [xff])) = [x82; x01; xff].
Proof.
  split. { intros l log. unfold chatter_react. destruct (List.last log (0%nat, EvEnd 0)) as [? [| |[|c []]| |]]; repeat constructor. }
  split. { intros [|[|[|i]]]; repeat constructor. }
  vm_compute. repeat split.
Qed.
Definition solo_work (i : nat) : list cmd := match i with 1%nat => chatter_work 1 | 2%nat => [CSetListener (Some 1%nat)] | _ => [] end.
Example C78_nonvacuous :
  only_sender 1 taking_notes solo_work /\ small_work solo_work /\ everybody (fun n => fst (Cantor.of_nat n)) /\
  let s := srun round_robin (system_init taking_notes solo_work (chatter_world [WAccept 1; WIo IoRetry; WAccept 3])) in
  finished s 1 (Ret tt) /\ wire_out s = [x81; x02; x68; x69; x89; x00].
Proof.
  split. { split; [reflexivity|]. intros [|[|[|i]]] H1 H2; try congruence; reflexivity. }
  split. { intros [|[|[|i]]]; repeat constructor. }
  split.
  { intros i n. exists (Cantor.to_nat (i, n)). rewrite Cantor.cancel_of_to. split; [|reflexivity]. pose proof (Cantor.to_nat_non_decreasing i n). lia. }
  vm_compute. repeat split.
Qed.
