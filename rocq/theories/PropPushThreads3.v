(** C89, continued: everything is delivered and sent. *)
From Coq Require Import Cantor.
From Verif Require Import Bytes Frame World WebSocket AsyncWebSocket SpecFrame SpecSend SpecListen SpecApi SpecAsync SpecReply Lifecycle Server SpecServer ProofServer PropServer ThreadServer
  ProofRel ProofThreads PropListen PropReply ProofApi PropAsync2 PropThreadServer2 Threads SpecThreads Concurrent SpecConcurrent Process SpecProcess ProofProcess3 PropProcess PropProcess2 PropCoroutines
  PushThreads SpecPushThreads ProofPushThreads PropPushThreads PropPushThreads2.
Local Open Scope nat_scope.
Local Notation upd := Lifecycle.upd.
Local Notation gentle_cmd := SpecProcess.gentle_cmd.

(** ** A fair schedule of the whole system *)
Section Fair.
Variables (i N : nat) (g : nat -> uev).
Definition turn_in (e : uev) : nat := match e with UTurn k j => if Nat.eqb k i && (j <=? N) then j else S N | _ => S N end.
Definition filler (n : nat) : nat := let j := snd (Cantor.of_nat n) in if j <=? N then S N else j.
Definition fair (n : nat) : nat := if Nat.even n then turn_in (g (Nat.div2 n)) else filler (Nat.div2 n).
Definition joint (sch : list nat) (k : nat) : nat := if k <? length sch then nth k sch 0 else fair (k - length sch).
Lemma fair_even n : fair (2 * n) = turn_in (g n).
Proof. unfold fair. rewrite Nat.even_mul. cbn [Nat.even orb]. now rewrite Nat.div2_double. Qed.
Lemma fair_odd n : fair (S (2 * n)) = filler n.
Proof. unfold fair. rewrite Nat.even_succ, Nat.odd_mul. cbn [Nat.odd Nat.even negb andb]. now rewrite Nat.div2_succ_double. Qed.
Lemma joint_everybody sch : (forall j k, j <= N -> exists k', k <= k' /\ g k' = UTurn i j) -> everybody (joint sch).
Proof.
  intros Hj j n.
  assert (exists k, n <= k /\ fair k = j) as (k & Hk & E).
  { destruct (Nat.leb_spec j N) as [HN|HN].
    - destruct (Hj j n HN) as (k & Hk & E). exists (2 * k). split; [lia|]. rewrite fair_even, E. unfold turn_in. rewrite Nat.eqb_refl.
      replace (j <=? N) with true by (symmetry; now apply Nat.leb_le). reflexivity.
    - exists (S (2 * Cantor.to_nat (n, j))). split.
      + pose proof (Cantor.to_nat_non_decreasing n j). lia.
      + rewrite fair_odd. unfold filler. rewrite Cantor.cancel_of_to. cbn [snd]. destruct (Nat.leb_spec j N); [lia|reflexivity]. }
  exists (length sch + k). split; [lia|]. unfold joint. destruct (Nat.ltb_spec (length sch + k) (length sch)); [lia|].
  replace (length sch + k - length sch) with k by lia. exact E.
Qed.
Lemma joint_map sch m : map (joint sch) (seq 0 (length sch + m)) = sch ++ map fair (seq 0 m).
Proof.
  rewrite seq_app, map_app. f_equal.
  - apply nth_ext with (d := 0) (d' := 0); [now rewrite map_length, seq_length|]. intros k Hk. rewrite map_length, seq_length in Hk.
    rewrite nth_indep with (d' := joint sch 0) by (rewrite map_length, seq_length; exact Hk). rewrite map_nth, seq_nth by exact Hk. unfold joint. cbn [Nat.add].
    destruct (Nat.ltb_spec k (length sch)); [reflexivity|lia].
  - cbn [Nat.add]. apply nth_ext with (d := 0) (d' := 0); [now rewrite !map_length, !seq_length|]. intros k Hk. rewrite map_length, seq_length in Hk.
    rewrite nth_indep with (d' := joint sch 0) by (rewrite map_length, seq_length; exact Hk). rewrite map_nth, seq_nth by exact Hk.
    rewrite (nth_indep _ 0 (fair 0)) by (rewrite map_length, seq_length; exact Hk). rewrite map_nth, seq_nth by exact Hk. unfold joint.
    destruct (Nat.ltb_spec (length sch + k) (length sch)); [lia|]. f_equal. lia.
Qed.
Hypothesis Hq : forall k, uturns_only i (g k).
Notation gs n := (map g (seq 0 n)).
Lemma gs_snoc n : gs (S n) = gs n ++ [g n].
Proof. rewrite seq_S, map_app. reflexivity. Qed.
Lemma gs_quiet n : uasked i (gs n) = [] /\ uno_conn i (gs n).
Proof.
  induction n as [|n [I1 I2]]; [split; [reflexivity|constructor]|]. rewrite gs_snoc, asked_app, I1. specialize (Hq n). split.
  - destruct (g n) as [l|k q|k cs|k j]; cbn [uturns_only uasked flat_map] in *; try reflexivity. apply Nat.eqb_neq in Hq. now rewrite Hq.
  - apply Forall_app. split; [exact I2|]. repeat constructor. intros q Hx. rewrite Hx in Hq. now apply Hq.
Qed.
Lemma fair_turns react w1 ths sch n : length ths <= N ->
  srun (map fair (seq 0 (2 * n))) (alone react i w1 ths sch) = alone react i w1 ths (sch ++ uturns i N (gs n)).
Proof.
  intros Hl. induction n as [|n IH]; [cbn; now rewrite app_nil_r|]. replace (2 * S n) with (S (S (2 * n))) by lia.
  assert (map fair (seq 0 (S (S (2 * n)))) = map fair (seq 0 (2 * n)) ++ [fair (2 * n); fair (S (2 * n))]) as -> by (rewrite !seq_S, !map_app, <- app_assoc; reflexivity).
  rewrite !srun_app, IH. cbn [srun].
  rewrite fair_even, fair_odd, gs_snoc, turns_app. destruct (gs_quiet n) as [-> _]. cbn [length]. rewrite Nat.add_0_r, app_assoc. set (sch' := sch ++ uturns i N (gs n)).
  assert (forall sc j, N < j -> sstep j (alone react i w1 ths sc) = alone react i w1 ths sc) as Hidle by (intros sc j Hj; assert (length ths < j) as Hx by lia; exact (done_step _ _ _ (idle_thread (fun _ => false) (fun _ _ => []) react i 0 w1 ths sc j Hx))).
  assert (N < filler n) as Hf by (unfold filler; destruct (Nat.leb_spec (snd (Cantor.of_nat n)) N); lia).
  assert (sstep (turn_in (g n)) (alone react i w1 ths sch') = alone react i w1 ths (sch' ++ uturns i N [g n])) as ->; [|now apply Hidle].
  pose proof (Hq n) as Hn. destruct (g n) as [l|k q|k cs|k j]; cbn [turn_in uturns uturns_only] in *; rewrite ?app_nil_r.
  - apply Hidle. lia.
  - apply Hidle. lia.
  - apply Hidle. lia.
  - destruct (Nat.eqb k i && (j <=? N)); [now rewrite alone_snoc|]. rewrite app_nil_r. apply Hidle. lia.
Qed.
End Fair.

(** ** Stages *)
Section Stages.
Variable waits : nat -> bool.
Variable setup : nat -> nat -> list cmd.
Variable react : nat -> react_t.
Variable i : nat.
Definition later_stage (a b : stage) : Prop := (leaving a = true -> leaving b = true) /\ (a = StGone -> b = StGone).
Lemma later_refl a : later_stage a a.
Proof. split; auto. Qed.
Lemma stage_step inst e L st ths c ph new : uabout e = Some i -> uconn waits setup react inst i e (UOn L st ths c) = UOk (ph, new) ->
  exists st' ths' c', ph = UOn L st' ths' c' /\ later_stage st st' /\ ((forall cs, e <> UStart i cs) -> ths' = ths).
Proof.
  intros Ha E. destruct e as [l|k q|k cs|k j]; cbn [uabout] in Ha; try discriminate; injection Ha as ->; [| |destruct j as [|j]]; cbn [uconn] in E.
  - injection E as <- <-. exists st, ths, c. split; [reflexivity|]. split; [apply later_refl|auto].
  - injection E as <- <-. cbn [ustart]. destruct L as [l|]; [destruct (leaving st && waits l)|]; (eexists _, _, _; split; [reflexivity|]; split; [apply later_refl|]); auto. intros Hx. now destruct (Hx cs).
  - destruct st; cbn [uhandler] in E.
    + injection E as <- <-. eexists _, _, _. split; [reflexivity|]. split; [split; discriminate|auto].
    + destruct (fst (fst c 0)) as [[[]| | | |]| | | | | | | |]; try discriminate; injection E as <- <-; (eexists _, _, _; split; [reflexivity|]; split; [split; discriminate|auto]).
    + destruct (_ && _); injection E as <- <-; (eexists _, _, _; split; [reflexivity|]; split; [split; auto; discriminate|auto]).
    + injection E as <- <-. eexists _, _, _. split; [reflexivity|]. split; [apply later_refl|auto].
  - unfold uthread in E. destruct (_ && _); [|injection E as <- <-; eexists _, _, _; split; [reflexivity|]; split; [apply later_refl|auto]].
    destruct st; try discriminate; destruct (fst (fst (sstep (S j) c) (S j))) as [[]| | | | | | | |]; try discriminate; injection E as <- <-;
      (eexists _, _, _; split; [reflexivity|]; split; [apply later_refl|auto]).
Qed.
Lemma stage_run evs : forall s s' L st ths c, u_phase s i = UOn L st ths c -> urun waits setup react evs s = UOk s' ->
  exists st' ths' c', u_phase s' i = UOn L st' ths' c' /\ later_stage st st' /\ (uasked i evs = [] -> ths' = ths).
Proof.
  induction evs as [|e evs IH]; intros s s' L st ths c Hp E; cbn [urun] in E.
  - injection E as <-. exists st, ths, c. split; [exact Hp|]. split; [apply later_refl|auto].
  - destruct (ustep waits setup react e s) as [s1| |] eqn:E1; try discriminate. apply (step_part _ _ _ _ _ _ i) in E1.
    assert (exists st1 ths1 c1, u_phase s1 i = UOn L st1 ths1 c1 /\ later_stage st st1 /\ ((forall cs, e <> UStart i cs) -> ths1 = ths)) as (st1 & ths1 & c1 & Hp1 & [G1 G2] & G3).
    { destruct E1 as [(l & -> & A1 & A2 & A3)|[(k & A0 & Hne & A1 & A2 & A3)|(A0 & A1 & new & A2 & A3)]].
      - exists st, ths, c. split; [congruence|]. split; [apply later_refl|auto].
      - exists st, ths, c. split; [congruence|]. split; [apply later_refl|auto].
      - rewrite Hp in A2. now apply stage_step in A2. }
    destruct (IH _ _ _ _ _ _ Hp1 E) as (st2 & ths2 & c2 & Hp2 & [F1 F2] & F3). exists st2, ths2, c2. split; [exact Hp2|]. split; [split; auto|].
    intros Ha. change (e :: evs) with ([e] ++ evs) in Ha. rewrite asked_app in Ha. apply app_eq_nil in Ha. destruct Ha as [Ha1 Ha2]. rewrite F3 by exact Ha2. apply G3.
    intros cs ->. cbn in Ha1. rewrite Nat.eqb_refl in Ha1. discriminate.
Qed.
(** Turns of the handler's thread once listen() has returned. *)
Lemma leave_turn s s' L st ths c : u_phase s i = UOn L st ths c -> st <> StReady -> finished c 0 (Ret tt) -> ustep waits setup react (UTurn i 0) s = UOk s' ->
  exists st' c', u_phase s' i = UOn L st' ths c' /\ leaving st' = true.
Proof.
  intros Hp Hr Hf E. cbn [ustep] in E. rewrite Hp in E. cbn [uconn] in E. unfold finished in Hf. destruct st; cbn [uhandler] in E; [congruence|rewrite Hf in E|..].
  - injection E as <-. cbn [u_phase]. rewrite upd_same. eauto.
  - destruct (_ && _); injection E as <-; cbn [u_phase]; rewrite upd_same; eauto.
  - injection E as <-. cbn [u_phase]. rewrite upd_same. eauto.
Qed.
Lemma gone_turn s s' L st ths c : u_phase s i = UOn L st ths c -> leaving st = true -> (forall j, 0 < j <= length ths -> exists o, finished c j o) ->
  ustep waits setup react (UTurn i 0) s = UOk s' -> exists c', u_phase s' i = UOn L StGone ths c'.
Proof.
  intros Hp Hl Hf E. cbn [ustep] in E. rewrite Hp in E. cbn [uconn] in E. destruct st; try discriminate; cbn [uhandler] in E.
  - replace (existsb (running c) (seq 1 (length ths))) with false in E.
    + rewrite andb_false_r in E. injection E as <-. cbn [u_phase]. rewrite upd_same. eauto.
    + symmetry. destruct (existsb _ _) eqn:Ex; [|reflexivity]. apply existsb_exists in Ex. destruct Ex as (j & Hj & Hr). apply in_seq in Hj. destruct (Hf j ltac:(lia)) as [o Ho].
      unfold running, finished in *. rewrite Ho in Hr. discriminate.
  - injection E as <-. cbn [u_phase]. rewrite upd_same. eauto.
Qed.
End Stages.

(** ** Frames *)
Lemma put_plain rnd b ops : put_all (Some false) True rnd b ops -> b = plain_frames ops.
Proof.
  intros (ps & -> & _ & H). induction H as [|[k x] y ps' ops' (R1 & R2 & R3) H IH]; [reflexivity|]. cbn [map snd concat plain_frames flat_map]. rewrite IH, (R2 I). f_equal.
  specialize (R3 false eq_refl). destruct k; [discriminate|reflexivity].
Qed.
Lemma frames_plain rnd ops : forall u, frames_of false rnd u ops = plain_frames ops.
Proof. induction ops as [|op ops IH]; intros u; [reflexivity|]. cbn [frames_of plain_frames flat_map]. rewrite IH. reflexivity. Qed.
Lemma gentle_kind_mask b c : gentle_cmd c -> SpecProcess.mask_cmd b c.
Proof. intros [H _]. destruct c; cbn in *; auto. contradiction. Qed.

(** If nothing fails and every thread of the connection gets to run: everything received is delivered and answered; every thread the application has started finishes, and everything is
    on the wire; exactly if the peer has ended the connection, onBeforeDestroy has been called and the socket is gone. *)
Theorem C89_completion : forall waits setup react ws before i p later g,
  w_log (ws i) = [] -> w_out (ws i) = [] -> clean (w_in (ws i)) -> healthy (w_wr (ws i)) -> uno_conn i before -> uno_conn i later ->
  let L := uinstance before in Forall harmless_cmd (hello setup L p) -> after_cmds None (hello setup L p) <> None ->
  (forall l log, Forall gentle_cmd (react i l log)) -> never_stops (react i) ->
  Forall (Forall gentle_cmd) (uasked i later) -> Forall (fun cs => existsb is_stop_cmd cs = false) (uasked i later) ->
  userves i (length (uasked i later)) g ->
  exists n, forall n' s, n <= n' -> urun waits setup react (before ++ UConn i p :: later ++ map g (seq 0 n')) (userver_init ws) = UOk s ->
  let over := match stream_ending false (bytes_of (w_in (ws i))) with Closed _ | Rejected _ => true | _ => false end in
  exists log lab,
    uview i s = created L p ++ NListen :: called log ++ (if over then destroyed L else []) /\
    transcript log = stream_reading false (bytes_of (w_in (ws i))) /\
    usent i s = plain_frames (sends_of (hello setup L p)) ++ map snd lab /\
    from 0 lab = plain_frames (replies (react i) [] log) /\
    (forall j, 0 < j <= length (uthreads i s) -> ufinished i j s (Ret tt) /\ from j lab = plain_frames (sends_of (nth (j - 1) (uthreads i s) []))) /\
    (over = true <-> ugone i s) /\ prefix (uthreads i s) (uasked i later) /\ (over = false -> uthreads i s = uasked i later).
Proof.
  intros waits setup react ws before i p later g Hlog Hout Hcl Hhe H1 H2 L Hh Hal Hgr Hns Hgw Hnw [Hq Hfair].
  destruct (exec_cmds (hello setup L p) (set_sock (ws i) (sock_new false))) as [o0 w1] eqn:Eh.
  destruct (harmless_cmds _ Hh _ _ _ (Hhe : healthy (w_wr (set_sock (ws i) (sock_new false)))) Eh) as (-> & Hw1 & Hb1).
  destruct (fresh_last _ _ _ _ _ Eh) as (K1 & K2 & K3). rewrite Hlog in K2.
  destruct (reply_cmds false _ (harmless_mask _ Hh) _ _ _ Eh eq_refl Hhe) as (R1 & _ & _ & _ & R5 & _).
  cbn [set_sock w_out w_rnd w_rpos] in R5. rewrite Hout, frames_plain in R5. cbn [app] in R5.
  pose proof (proj2 (addr_cmds _ _ _ _ Eh) eq_refl) as Hlis. cbn [set_sock w_sock sock_new s_listener] in Hlis. 
  assert (s_listener (w_sock w1) <> None) as Hl1 by congruence.
  destruct (urun waits setup react (before ++ UConn i p :: later) (userver_init ws)) as [s0| |] eqn:E0.
  2,3: exists 0; intros n' s _ E; exfalso; change (before ++ UConn i p :: later ++ map g (seq 0 n')) with (before ++ (UConn i p :: later) ++ map g (seq 0 n')) in E;
    rewrite app_assoc, run_app, E0 in E; discriminate.
  destruct (serve waits setup react ws before i p later w1 s0 Hlog H1 H2 Eh E0) as [(st0 & ths & c0 & P1 & P2 & P3 & P4 & P5 & P6 & P7 & P8) _]. fold L in P1, P5, P8.
  set (N := length (uasked i later)) in *. set (sch0 := uturns i 0 later) in *.
  assert (length ths <= N) as HlN by (unfold N; now apply prefix_len).
  assert (forall P, Forall (Forall P) (uasked i later) -> forall j, Forall P (uwork ths j)) as Hwk by (intros P HP; apply uwork_all; eapply prefix_Forall; eassumption).
  assert (forall j, existsb is_stop_cmd (uwork ths j) = false) as Hstop.
  { intros [|j]; [reflexivity|]. cbn [uwork]. destruct (nth_in_or_default j ths []) as [Hin| -> ]; [|reflexivity]. pose proof (prefix_Forall _ _ _ P4 Hnw) as Hx. rewrite Forall_forall in Hx. now apply Hx. }
  assert (io_only (w_in w1)) as Hio by (rewrite K1; now apply clean_io_only).
  destruct (C78_full_duplex (Some false) (react i) (uwork ths) w1 (joint i N g sch0) (length ths)) as [n0 Hn0].
  { exact Hio. } { exact Hl1. } { exact Hw1. } { exact Hgr. } { now apply Hwk. } { exact Hns. } { exact Hstop. }
  { intros b [= <-]. split; [exact R1|]. split.
    - intros l log. eapply Forall_impl; [|apply Hgr]. apply gentle_kind_mask.
    - intros j. eapply Forall_impl; [|apply (Hwk _ Hgw)]. apply gentle_kind_mask. }
  { now apply joint_everybody. }
  (* the state of the connection after [n'] more events, as soon as C78 says that everything is done *)
  assert (forall n' s, n0 <= n' -> urun waits setup react (map g (seq 0 n')) s0 = UOk s ->
    let A := alone react i w1 ths (sch0 ++ uturns i N (map g (seq 0 n'))) in
    (exists st c, u_phase s i = UOn L st ths c /\ same c A /\ (st = StReady <-> ~ In 0 (sch0 ++ uturns i N (map g (seq 0 n')))) /\
      (leaving st = true -> finished A 0 (Ret tt)) /\ uview i s = shown_so_far L p st A /\ (L <> None -> leaving st && careful waits L = false -> ths = uasked i later)) /\
    exists o q new lab,
      listen taking_notes (on_its_own w1) = (o, q) /\ finished A 0 o /\ told A = new /\ map snd new = map snd (w_log q) /\
      wire_out A = w_out w1 ++ map snd lab /\ from 0 lab = plain_frames (replies (react i) [] new) /\
      forall j, 0 < j <= length ths -> finished A j (Ret tt) /\ from j lab = plain_frames (sends_of (uwork ths j))) as Hdone.
  { intros n' s Hn' E A. destruct (gs_quiet i g Hq n') as [Q1 Q2]. split.
    - destruct (stage_run waits setup react i (map g (seq 0 n')) s0 s L st0 ths c0 P1 E) as (st & ths' & c & S1 & _ & S3). specialize (S3 Q1). subst ths'.
      destruct (run_follows waits setup react i L p w1 _ K2 Q2 _ _ _ _ (ex_intro _ st0 (ex_intro _ ths (ex_intro _ c0 (conj P1 (conj P2 (conj P3 (conj P4 (conj P5 (conj P6 (conj P7 P8)))))))))) E)
        as (st' & ths' & c' & T1 & T2 & T3 & T4 & T5 & T6 & T7 & T8). rewrite Q1, app_nil_r in *. fold N in T2, T3, T5, T6, T7, T8.
      assert (st' = st /\ ths' = ths /\ c' = c) as (-> & -> & ->) by (repeat split; congruence). exists st, c. auto 10.
    - destruct (Hn0 (length sch0 + 2 * n') ltac:(lia)) as (o & q & new & lab & drawn & D1 & D2 & D3 & D4 & D5 & D6 & D7).
      assert (after (joint i N g sch0) (length sch0 + 2 * n') (system_init (react i) (uwork ths) w1) = A) as EA.
      { unfold after. rewrite joint_map, srun_app. fold (alone react i w1 ths sch0). now apply fair_turns. }
      rewrite EA in *. rewrite K2 in *. cbn [app] in *. destruct (D7 (fun _ => x00)) as [D8 D9]. exists o, q, new, lab. split; [exact D1|]. split; [exact D2|]. split; [exact D3|]. split; [exact D4|].
      split; [exact D5|]. split; [exact (put_plain _ _ _ D8)|]. intros j Hj. split; [now apply D6|exact (put_plain _ _ _ (D9 j Hj))]. }
  (* two more turns of the handler's thread *)
  destruct (Hfair 0 n0 (Nat.le_0_l _)) as (k1 & Hk1 & G1). destruct (Hfair 0 (S k1) (Nat.le_0_l _)) as (k2 & Hk2 & G2).
  exists (S k2). intros n' s Hn' E over.
  assert (urun waits setup react (map g (seq 0 n')) s0 = UOk s) as Es.
  { change (before ++ UConn i p :: later ++ map g (seq 0 n')) with (before ++ (UConn i p :: later) ++ map g (seq 0 n')) in E. now rewrite app_assoc, run_app, E0 in E. }
  assert (forall k, k <= n' -> exists sk, urun waits setup react (map g (seq 0 k)) s0 = UOk sk /\ urun waits setup react (map g (seq k (n' - k))) sk = UOk s) as Hcut.
  { intros k Hk. replace n' with (k + (n' - k)) in Es by lia. rewrite seq_app, map_app, run_app in Es. destruct (urun waits setup react (map g (seq 0 k)) s0) as [sk| |] eqn:Ek; try discriminate. eauto. }
  assert (forall k, k < n' -> exists sk sk', urun waits setup react (map g (seq 0 k)) s0 = UOk sk /\ ustep waits setup react (g k) sk = UOk sk' /\
    urun waits setup react (map g (seq (S k) (n' - S k))) sk' = UOk s /\ urun waits setup react (map g (seq 0 (S k))) s0 = UOk sk') as Hone.
  { intros k Hk. destruct (Hcut k ltac:(lia)) as (sk & Ek & Er). replace (n' - k) with (S (n' - S k)) in Er by lia. cbn [seq map urun] in Er.
    destruct (ustep waits setup react (g k) sk) as [sk'| |] eqn:Est; try discriminate. exists sk, sk'. split; [exact Ek|]. split; [exact Est|]. split; [exact Er|].
    rewrite gs_snoc, run_app, Ek. cbn [urun]. now rewrite Est. }
  destruct (Hdone n' s ltac:(lia) Es) as [(st & c & S1 & S2 & S3 & S4 & S5 & S6) (o & q & new & lab & D1 & D2 & D3 & D4 & D5 & D6 & D7)].
  set (A := alone react i w1 ths (sch0 ++ uturns i N (map g (seq 0 n')))) in *.
  destruct (listen_exact taking_notes (on_its_own w1) o q) as (new' & L1 & _ & L3 & L4 & _).
  { cbn [on_its_own w_in]. now rewrite K1. } { constructor. } { intros ? ?. constructor. } { intros ? ?. reflexivity. }
  { cbn [on_its_own w_sock]. change (0 < s_buf (w_sock w1))%Z. rewrite Hb1. reflexivity. } { left. exact K3. } { exact D1. }
  cbn [on_its_own w_log app] in L1. rewrite L1 in D4.
  assert (opn_of (on_its_own w1) = false) as Hop by (unfold open_of, on_its_own; cbn [w_sock set_listening set_listener s_last]; now rewrite K3). rewrite Hop in L3, L4.
  cbn [on_its_own w_in] in L3, L4. rewrite K1 in L3, L4. change (seen (w_sock (on_its_own w1)) (stream_reading false (bytes_of (w_in (ws i))))) with (stream_reading false (bytes_of (w_in (ws i)))) in L3.
  assert (over = true <-> o = Ret tt) as Hov.
  { unfold over. destruct (stream_ending false (bytes_of (w_in (ws i)))).
    - destruct L4 as [-> _]. split; discriminate.
    - destruct L4 as [-> _]. tauto.
    - destruct L4 as [-> _]. tauto.
    - contradiction. }
  assert (In 0 (sch0 ++ uturns i N (map g (seq 0 n')))) as Hin0.
  { destruct (in_dec Nat.eq_dec 0 (sch0 ++ uturns i N (map g (seq 0 n')))) as [Hx|Hx]; [exact Hx|exfalso]. unfold finished, A, alone in D2. rewrite not_moved in D2 by exact Hx. discriminate. }
  assert (st <> StReady) as Hnr by (intros Hx; apply S3 in Hx; contradiction).
  assert (over = true -> st = StGone) as Hgone.
  { intros Ho. apply Hov in Ho. destruct (Hone k1 ltac:(lia)) as (sa & sa' & A1 & A2 & _ & A4). rewrite G1 in A2.
    destruct (Hdone k1 sa Hk1 A1) as [(sta & ca & B1 & B2 & B3 & _) (o1 & q1 & new1 & lab1 & C1 & C2 & _)].
    assert (o1 = Ret tt) as -> by congruence.
    assert (sta <> StReady) as Hra.
    { intros Hx. apply B3 in Hx. unfold finished, alone in C2. rewrite not_moved in C2 by exact Hx. discriminate. }
    destruct (leave_turn waits setup react i sa sa' L sta ths ca B1 Hra (proj2 (same_finished _ _ B2 0 (Ret tt)) C2) A2) as (stb & cb & B5 & B6).
    destruct (Hone k2 ltac:(lia)) as (sb & sb' & A5 & A6 & A7 & _). rewrite G2 in A6.
    assert (exists evs, urun waits setup react evs sa' = UOk sb) as [evs Eab].
    { exists (map g (seq (S k1) (k2 - S k1))). replace k2 with (S k1 + (k2 - S k1)) in A5 by lia. rewrite seq_app, map_app, run_app, A4 in A5. exact A5. }
    destruct (stage_run waits setup react i evs sa' sb L stb ths cb B5 Eab) as (stc & thsc & cc & B7 & [B8 _] & _).
    destruct (Hdone k2 sb ltac:(lia) A5) as [(std & cd & F1 & F2 & _) (o2 & q2 & new2 & lab2 & _ & _ & _ & _ & _ & _ & F3)].
    assert (stc = std /\ thsc = ths /\ cc = cd) as (-> & -> & ->) by (repeat split; congruence).
    destruct (gone_turn waits setup react i sb sb' L std ths cd F1 (B8 B6)) as [ce Hce]; [|exact A6|].
    { intros j Hj. exists (Ret tt). apply (same_finished _ _ F2), F3, Hj. }
    destruct (stage_run waits setup react i _ _ _ L StGone ths ce Hce A7) as (stf & thsf & cf & F5 & [_ F6] & _). rewrite S1 in F5. assert (stf = st) as -> by congruence. now apply F6. }
  assert (leaving st = over) as Hlv.
  { destruct over eqn:Eo; [now rewrite (Hgone eq_refl)|]. destruct (leaving st) eqn:El; [|reflexivity]. specialize (S4 eq_refl). unfold finished in S4, D2. rewrite S4 in D2.
    assert (o = Ret tt) as Hx by congruence. apply Hov in Hx. discriminate. }
  exists new, lab. split.
  { rewrite S5. unfold shown_so_far. rewrite Hlv, D3. destruct st; try reflexivity. congruence. }
  split; [rewrite <- L3; apply transcript_map; congruence|].
  split; [unfold usent; rewrite S1; rewrite (same_wire _ _ S2), D5, R5; reflexivity|].
  split; [exact D6|]. unfold uthreads, ufinished, ugone. rewrite S1. split; [|split; [|split]].
  - intros j Hj. destruct (D7 j Hj) as [X1 X2]. split; [apply (same_finished _ _ S2), X1|]. destruct j as [|j]; [lia|]. cbn [uwork] in X2. rewrite Nat.sub_succ, Nat.sub_0_r. exact X2.
  - split; [intros Ho; now rewrite (Hgone Ho)|]. intros Hx. rewrite <- Hlv. destruct st; try contradiction. reflexivity.
  - exact P4.
  - intros Ho. apply S6; [|now rewrite Hlv, Ho]. intros HL. rewrite HL in Hal. now apply Hal.
Qed.
Print Assumptions C89_completion.

(** * A chat server with a thread per connection. Connection 2 is served by an instance listener that waits in onBeforeDestroy for the pushing threads; its peer sends a message, a ping and a close while
    two threads push. Connection 3 is served by one that does not wait: its peer closes while a thread is about to push. *)
Definition room_waits (l : nat) : bool := Nat.eqb l 50.
Definition room_setup (l p : nat) : list cmd := [CSetListener (Some (l + p))].
Definition room_react : nat -> react_t := fun _ _ log => match List.last log (0, EvEnd 0) with (_, EvPing [c]) => [CSend true (SoPong (Some [c]))] | _ => [] end.
Definition room_worlds : nat -> world := fun i =>
  World (if Nat.eqb i 2 then [RData x01 [x01; x61; x89; x01]; RData x7a [x80; x00; x88; x00]] else [RData x88 [x00]]) [] [] (fun _ => x00) 0 [] (sock_new false).
Definition room_before : list uev := [USet (Some 60); UConn 3 1; USet (Some 50)].
Definition room_round : list uev := [UTurn 2 2; UTurn 2 0; UTurn 3 0; UTurn 2 1].
Definition room_later : list uev :=
  [UStart 2 [CSend true (SoText (Some [x68; x69]))]; UTurn 2 0; UTurn 2 1; UStart 2 [CSend false (SoBinary (Some [x01; x02; x03]))]; UTurn 3 0; UTurn 2 2].
Definition room_rounds (n : nat) : list uev := flat_map (fun _ => room_round) (seq 0 n).
Definition room (n : nat) : ures userver := urun room_waits room_setup room_react (room_before ++ UConn 2 2 :: room_later ++ room_rounds n) (userver_init room_worlds).
Definition left_alone (n : nat) : list uev := room_before ++ UStart 3 [CSend true (SoText (Some [x62]))] :: repeat (UTurn 3 0) n.
Example C89_nonvacuous :
  clean (w_in (room_worlds 2)) /\ uno_conn 2 room_before /\ uno_conn 2 room_later /\ uinstance room_before = Some 50 /\
  Forall harmless_cmd (hello room_setup (Some 50) 2) /\ after_cmds None (hello room_setup (Some 50) 2) <> None /\
  (forall l log, Forall gentle_cmd (room_react 2 l log)) /\ never_stops (room_react 2) /\ length (uasked 2 room_later) = 2 /\
  Forall (Forall gentle_cmd) (uasked 2 room_later) /\ userves 2 2 (fun n => nth (n mod 4) room_round (USet None)) /\
  match room 70 with
  | UOk s =>
    uview 2 s = [NCreate 50 2; NListen; NCall 52 (EvMsg 1 [x61]); NCall 52 (EvPing [x7a]); NCall 52 (EvEnd 0); NCall 52 (EvClose 0 []); NDestroy 50] /\
    ugone 2 s /\ ufinished 2 1 s (Ret tt) /\ ufinished 2 2 s (Ret tt) /\ length (usent 2 s) = 4 + 5 + 3 /\
    uview 3 s = [NCreate 60 1; NListen; NCall 61 (EvClose 0 []); NDestroy 60] /\ ugone 3 s
  | _ => False
  end /\
  exists n, match urun room_waits room_setup room_react (left_alone n) (userver_init room_worlds) with
    | UOk s => ureturned 3 s /\ uinstance_of 3 s = Some 60 /\ length (uthreads 3 s) = 1 /\ forall o, ~ ufinished 3 1 s o
    | _ => False
    end /\ urun room_waits room_setup room_react (left_alone n ++ [UTurn 3 0; UTurn 3 0; UTurn 3 1]) (userver_init room_worlds) = UUndef.
Proof.
  assert (forall l, forallb (fun e => match e with UConn j _ => negb (Nat.eqb j 2) | _ => true end) l = true -> uno_conn 2 l) as Hno.
  { intros l H. rewrite forallb_forall in H. apply Forall_forall. intros x Hx q ->. specialize (H _ Hx). discriminate. }
  split; [unfold clean; vm_compute; repeat constructor|]. split; [apply Hno; reflexivity|]. split; [apply Hno; reflexivity|]. split; [reflexivity|].
  split; [repeat constructor|]. split; [discriminate|]. split; [|split; [|split; [|split; [|split; [|split]]]]].
  - intros l log. unfold room_react. destruct (List.last log (0, EvEnd 0)) as [? [| |[|c []]| |]]; repeat constructor.
  - intros l log. unfold room_react. destruct (List.last log (0, EvEnd 0)) as [? [| |[|c []]| |]]; reflexivity.
  - reflexivity.
  - replace (uasked 2 room_later) with [[CSend true (SoText (Some [x68; x69]))]; [CSend false (SoBinary (Some [x01; x02; x03]))]] by (vm_compute; reflexivity). repeat constructor.
  - split.
    + intros k. assert (k mod 4 < 4) as H by (apply Nat.mod_upper_bound; discriminate). destruct (k mod 4) as [|[|[|[|]]]]; try exact I; lia.
    + intros j k Hj. assert (j = 0 \/ j = 1 \/ j = 2) as [-> |[-> | -> ]] by lia.
      * exists (1 + k * 4). split; [lia|]. rewrite Nat.mod_add by discriminate. reflexivity.
      * exists (3 + k * 4). split; [lia|]. rewrite Nat.mod_add by discriminate. reflexivity.
      * exists (0 + k * 4). split; [lia|]. rewrite Nat.mod_add by discriminate. reflexivity.
  - vm_compute. repeat split.
  - exists 11. split; [|vm_compute; reflexivity]. assert (match urun room_waits room_setup room_react (left_alone 11) (userver_init room_worlds) with
      | UOk s => match u_phase s 3 with UOn (Some 60) StListen [_] c => match fst (fst c 0) with PDone (Ret tt) => running c 1 | _ => false end | _ => false end
      | _ => false end = true) as H by (vm_compute; reflexivity).
    destruct (urun room_waits room_setup room_react (left_alone 11) (userver_init room_worlds)) as [s| |]; try discriminate. unfold ureturned, uinstance_of, uthreads, ufinished, finished.
    destruct (u_phase s 3) as [|L st ths c| |]; try discriminate. destruct L as [l|]; [|discriminate]. do 61 (destruct l as [|l]; try discriminate).
    destruct st; try discriminate. destruct ths as [|x [|]]; try discriminate. destruct (fst (fst c 0)) as [[[]| | | |]| | | | | | | |]; try discriminate.
    split; [reflexivity|]. split; [reflexivity|]. split; [reflexivity|]. intros o Ho. unfold running in H. rewrite Ho in H. discriminate.
Qed.
