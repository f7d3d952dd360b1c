(** C89, continued: safety, what is delivered and sent, everything is delivered and sent. *)
From Coq Require Import Cantor.
From Verif Require Import Bytes Frame World WebSocket AsyncWebSocket SpecFrame SpecSend SpecListen SpecApi SpecAsync SpecReply Lifecycle Server SpecServer ProofServer PropServer ThreadServer
  ProofThreads PropListen PropReply ProofApi PropAsync2 PropThreadServer2 Threads SpecThreads Concurrent SpecConcurrent Process SpecProcess ProofProcess3 PropProcess PropProcess2 PropCoroutines
  PushThreads SpecPushThreads ProofPushThreads PropPushThreads.
Local Open Scope nat_scope.
Local Notation upd := Lifecycle.upd.
Local Notation gentle_cmd := SpecProcess.gentle_cmd.

Lemma small_cmds_no_ub cs : Forall small_cmd cs -> forall w o w', exec_cmds cs w = (o, w') -> (forall u, o <> Ub u) /\ o <> OutOfFuel.
Proof.
  induction 1 as [|c cs Hc _ IH]; intros w o w' E; cbn [exec_cmds] in E; [injection E as <- <-; split; discriminate|].
  unfold bind in E. destruct (exec_cmd c w) as [o1 w1] eqn:E1. destruct (cmd_no_ub _ _ _ _ Hc E1) as [G1 G2].
  destruct o1 as [[]|e| |u|]; [exact (IH _ _ _ E)|..]; injection E as <- <-; split; congruence.
Qed.
Lemma uwork_all (P : cmd -> Prop) ths : Forall (Forall P) ths -> forall j, Forall P (uwork ths j).
Proof.
  intros H [|j]; [constructor|]. cbn [uwork]. destruct (nth_in_or_default j ths []) as [Hin| -> ]; [|constructor]. rewrite Forall_forall in H. now apply H.
Qed.
Lemma prefix_Forall {A} (P : A -> Prop) a b : prefix a b -> Forall P b -> Forall P a.
Proof. intros [r ->] H. apply Forall_app in H. apply H. Qed.

(** ** Safety *)
Section Safe.
Variable waits : nat -> bool.
Variable setup : nat -> nat -> list cmd.
Variable react : nat -> react_t.
Hypothesis Hsetup : forall l p, Forall small_cmd (setup l p).
Hypothesis Hreact : forall i l log, Forall no_config_cmd (react i l log).
Hypothesis Hsmall : forall i, small_react (react i).

Definition conn_ok (i : nat) (ph : uphase) : Prop :=
  match ph with
  | UNew w => io_only (w_in w) /\ w_log w = []
  | UOn L st ths c =>
    (exists p w1 asked sch v, w_log w1 = [] /\ io_only (w_in w1) /\ follows waits react i L p w1 asked sch ph v) /\
    Forall (Forall kind_cmd) ths /\ Forall (Forall small_cmd) ths /\ (L = None -> ths = []) /\ (forall l, L = Some l -> waits l = true) /\
    (st = StGone -> forall j, 0 < j <= length ths -> running c j = false)
  | _ => True
  end.
Lemma conn_step inst i e ph : (forall l, inst = Some l -> waits l = true) -> (forall k cs, e = UStart k cs -> Forall kind_cmd cs /\ Forall small_cmd cs) -> uabout e = Some i -> conn_ok i ph ->
  exists ph' new, uconn waits setup react inst i e ph = UOk (ph', new) /\ conn_ok i ph'.
Proof.
  intros Hi Hs Ha H. destruct ph as [w|L st ths c|w|w].
  - destruct e as [l|k q|k cs|k j]; cbn [uabout] in Ha; try discriminate; injection Ha as ->.
    + cbn [uconn]. unfold uhandle. change (on_create setup) with (hello setup). destruct H as [H1 H2]. assert (Forall small_cmd (hello setup inst q)) as Hh by (destruct inst; [apply Hsetup|constructor]).
      destruct (exec_cmds (hello setup inst q) (set_sock w (sock_new false))) as [o w1] eqn:E. destruct (small_cmds_no_ub _ Hh _ _ _ E) as [G1 G2].
      destruct (exec_cmds_effect _ _ _ _ E) as (K1 & K2 & _). cbn [set_sock w_in w_log] in K1, K2.
      destruct o as [[]|e| |u|]; [|eexists _, _; split; [reflexivity|exact I]..| |]; [|now destruct (G1 u)|congruence].
      eexists _, _. split; [reflexivity|]. cbn [conn_ok]. split.
      * exists q, w1, [], [], (created inst q). split; [congruence|]. split; [now rewrite K1|].
        exists StReady, []. eexists. split; [reflexivity|]. split; [split; [intros [|[|j]]; reflexivity|reflexivity]|]. split; [constructor|]. split; [now exists []|]. split; [reflexivity|].
        split; [split; [intros _ []|reflexivity]|]. split; [discriminate|]. unfold shown_so_far. now rewrite app_nil_r.
      * split; [constructor|]. split; [constructor|]. split; [reflexivity|]. split; [exact Hi|]. discriminate.
    + eexists _, _. split; [reflexivity|exact H].
    + destruct j; (eexists _, _; split; [reflexivity|exact H]).
  - destruct H as ((p & w1 & asked & sch & v & Hl1 & Hin & HF) & Hk & Hsm & Hnone & Hw & Hgone).
    assert ((forall q, e <> UConn i q) -> forall ph' new, uconn waits setup react inst i e (UOn L st ths c) = UOk (ph', new) ->
      exists p w1 asked sch v, w_log w1 = [] /\ io_only (w_in w1) /\ follows waits react i L p w1 asked sch ph' v) as Hnext.
    { intros Hq ph' new E. pose proof (follows_step waits setup react i L p w1 Hl1 _ _ _ _ _ _ _ _ Ha Hq HF E) as HF'. exists p, w1. eexists _, _, _. split; [exact Hl1|]. split; [exact Hin|exact HF']. }
    destruct HF as (st0 & ths0 & c0 & E1 & E2 & E3 & E4 & E5 & E6 & E7 & E8). assert (st0 = st /\ ths0 = ths /\ c0 = c) as (-> & -> & ->) by (repeat split; congruence).
    assert (forall sch' j o, finished (alone react i w1 ths sch') j o -> (forall u, o <> Ub u) /\ o <> OutOfFuel /\ (j = 0 -> o = Ret tt \/ o = Wait)) as Hsafe.
    { intros sch' j o Ho. refine (C76_safe (react i) (uwork ths) w1 sch' Hin (Hreact i) (Hsmall i) _ _ j o Ho); [|intros k]; now apply uwork_all. }
    destruct e as [l|k q|k cs|k j]; cbn [uabout] in Ha; try discriminate; injection Ha as ->.
    + eexists _, _. split; [reflexivity|]. split; [|auto 10]. exists p, w1, asked, sch, v. split; [exact Hl1|]. split; [exact Hin|]. exists st, ths, c. auto 10.
    + eexists _, _. split; [reflexivity|]. assert (Hn := Hnext ltac:(discriminate) _ _ eq_refl). destruct (Hs i cs eq_refl) as [Hs1 Hs2]. cbn [ustart] in *. destruct L as [l|].
      * rewrite (Hw l eq_refl) in *. rewrite andb_true_r in *. destruct (leaving st) eqn:El; [split; [exact Hn|auto 10]|].
        split; [exact Hn|]. split; [apply Forall_app; split; [exact Hk|auto]|]. split; [apply Forall_app; split; [exact Hsm|auto]|]. split; [discriminate|]. split; [exact Hw|].
        intros ->. discriminate.
      * split; [exact Hn|auto 10].
    + destruct j as [|j]; cbn [uconn] in Hnext |- *.
      * destruct st; cbn [uhandler] in Hnext |- *.
        -- eexists _, _. split; [reflexivity|]. split; [exact (Hnext ltac:(discriminate) _ _ eq_refl)|]. split; [exact Hk|]. split; [exact Hsm|]. split; [exact Hnone|]. split; [exact Hw|discriminate].
        -- assert (forall o, finished c 0 o -> o = Ret tt \/ o = Wait) as Hfin by (intros o Ho; apply (same_finished _ _ E2) in Ho; now apply (Hsafe _ _ _ Ho)).
           unfold finished in Hfin. destruct (fst (fst c 0)) as [[[]|e0| |u|]| | | | | | | |];
             try (destruct (Hfin _ eq_refl) as [Hx|Hx]; discriminate Hx);
             (eexists _, _; split; [reflexivity|]; split; [exact (Hnext ltac:(discriminate) _ _ eq_refl)|]; split; [exact Hk|]; split; [exact Hsm|]; split; [exact Hnone|]; split; [exact Hw|discriminate]).
        -- destruct (careful waits L && existsb (running c) (seq 1 (length ths))) eqn:Eb; (eexists _, _; split; [reflexivity|]);
             (split; [exact (Hnext ltac:(discriminate) _ _ eq_refl)|]); (split; [exact Hk|]); (split; [exact Hsm|]); (split; [exact Hnone|]); (split; [exact Hw|]); [discriminate|].
           intros _ j Hj. destruct L as [l|]; [|rewrite (Hnone eq_refl) in Hj; cbn in Hj; lia]. cbn [careful] in Eb. rewrite (Hw l eq_refl) in Eb. cbn [andb] in Eb.
           destruct (running c j) eqn:Er; [|reflexivity]. exfalso. assert (existsb (running c) (seq 1 (length ths)) = true) as Hx; [|congruence].
           apply existsb_exists. exists j. split; [apply in_seq; lia|exact Er].
        -- eexists _, _. split; [reflexivity|]. split; [exact (Hnext ltac:(discriminate) _ _ eq_refl)|]. auto 10.
      * unfold uthread in Hnext |- *. destruct ((S j <=? length ths) && running c (S j)) eqn:Eb.
        -- apply andb_true_iff in Eb. destruct Eb as [Eb1 Eb2]. apply Nat.leb_le in Eb1.
           assert (st <> StGone) as Hng by (intros Hx; rewrite (Hgone Hx (S j)) in Eb2 by lia; discriminate).
           assert (forall o, finished (sstep (S j) c) (S j) o -> (forall u, o <> Ub u) /\ o <> OutOfFuel) as Hfin.
           { intros o Ho. apply (same_finished _ _ (same_step (S j) _ _ E2)) in Ho. rewrite <- alone_snoc in Ho. destruct (Hsafe _ _ _ Ho) as (A & B & _). auto. }
           assert (exists new : list seen_ev, match st with StGone => UUndef | _ => match fst (fst (sstep (S j) c) (S j)) with PDone (Ub _) | PDone OutOfFuel => UUndef | _ => UOk (UOn L st ths (sstep (S j) c), @nil seen_ev) end end
             = UOk (UOn L st ths (sstep (S j) c), new)) as [new Enew].
           { exists []. unfold finished in Hfin. destruct (fst (fst (sstep (S j) c) (S j))) as [[[]|e0| |u|]| | | | | | | |];
               try (now destruct (Hfin _ eq_refl) as [A B]; destruct (A u eq_refl)); try (now destruct (Hfin _ eq_refl) as [A B]; destruct (B eq_refl)); destruct st; try reflexivity; congruence. }
           rewrite Enew in *. eexists _, _. split; [reflexivity|]. split; [exact (Hnext ltac:(discriminate) _ _ eq_refl)|]. split; [exact Hk|]. split; [exact Hsm|]. split; [exact Hnone|]. split; [exact Hw|].
           congruence.
        -- eexists _, _. split; [reflexivity|]. split; [exact (Hnext ltac:(discriminate) _ _ eq_refl)|]. auto 10.
  - destruct e as [l|k q|k cs|k j]; cbn [uabout] in Ha; try discriminate; try destruct j; (eexists _, _; split; [reflexivity|exact I]).
  - destruct e as [l|k q|k cs|k j]; cbn [uabout] in Ha; try discriminate; try destruct j; (eexists _, _; split; [reflexivity|exact I]).
Qed.
Lemma all_ok evs : (forall l, In (USet (Some l)) evs -> waits l = true) -> (forall k cs, In (UStart k cs) evs -> Forall kind_cmd cs /\ Forall small_cmd cs) ->
  forall s, (forall l, u_inst s = Some l -> waits l = true) -> (forall i, conn_ok i (u_phase s i)) -> exists s', urun waits setup react evs s = UOk s' /\ forall i, conn_ok i (u_phase s' i).
Proof.
  induction evs as [|e evs IH]; intros H1 H2 s Hi Hc; [exists s; split; [reflexivity|exact Hc]|]. cbn [urun].
  assert (exists s1, ustep waits setup react e s = UOk s1 /\ (forall l, u_inst s1 = Some l -> waits l = true) /\ forall i, conn_ok i (u_phase s1 i)) as (s1 & -> & G1 & G2).
  { assert (forall i, uabout e = Some i -> exists ph' new, uconn waits setup react (u_inst s) i e (u_phase s i) = UOk (ph', new) /\ conn_ok i ph') as Hst.
    { intros i Ha. apply conn_step; [exact Hi| |exact Ha|apply Hc]. intros k cs ->. apply (H2 k cs). now left. }
    destruct e as [l|k q|k cs|k j]; cbn [ustep].
    - eexists. split; [reflexivity|]. cbn [u_inst u_phase]. split; [intros l' ->; apply H1; now left|exact Hc].
    - destruct (Hst k eq_refl) as (ph' & new & -> & Hok). eexists. split; [reflexivity|]. cbn [u_inst u_phase]. split; [exact Hi|]. intros i.
      destruct (Nat.eq_dec i k) as [->|Hne]; [now rewrite upd_same|rewrite upd_other by exact Hne; apply Hc].
    - destruct (Hst k eq_refl) as (ph' & new & -> & Hok). eexists. split; [reflexivity|]. cbn [u_inst u_phase]. split; [exact Hi|]. intros i.
      destruct (Nat.eq_dec i k) as [->|Hne]; [now rewrite upd_same|rewrite upd_other by exact Hne; apply Hc].
    - destruct (Hst k eq_refl) as (ph' & new & -> & Hok). eexists. split; [reflexivity|]. cbn [u_inst u_phase]. split; [exact Hi|]. intros i.
      destruct (Nat.eq_dec i k) as [->|Hne]; [now rewrite upd_same|rewrite upd_other by exact Hne; apply Hc]. }
  apply IH; [intros l Hl; apply H1; now right|intros k cs Hx; apply (H2 k cs); now right|exact G1|exact G2].
Qed.
End Safe.

(** If every socket instance listener waits, in onBeforeDestroy, for the threads the application has started on the socket, then nothing peers send, no failing connection, nothing
    those threads and the listeners do and no schedule brings the process down; and no thread outlives its socket. *)
Theorem C89_safe : forall waits setup react ws evs,
  (forall l, In (USet (Some l)) evs -> waits l = true) ->
  (forall l p, Forall small_cmd (setup l p)) -> (forall i l log, Forall no_config_cmd (react i l log)) -> (forall i, small_react (react i)) ->
  (forall i cs, In (UStart i cs) evs -> Forall kind_cmd cs /\ Forall small_cmd cs) -> (forall i, io_only (w_in (ws i)) /\ w_log (ws i) = []) ->
  exists s, urun waits setup react evs (userver_init ws) = UOk s /\
    forall i, ugone i s -> forall j, 0 < j <= length (uthreads i s) -> exists o, ufinished i j s o.
Proof.
  intros waits setup react ws evs Hw Hs Hr Hsr Hst Hin. destruct (all_ok waits setup react Hs Hr Hsr evs Hw Hst (userver_init ws)) as (s & E & H); [discriminate|exact Hin|].
  exists s. split; [exact E|]. intros i Hg j Hj. specialize (H i). unfold ugone, uthreads, ufinished in *. destruct (u_phase s i) as [w|L st ths c|w|w]; try contradiction.
  destruct st; try contradiction. destruct H as (_ & _ & _ & _ & _ & H). specialize (H eq_refl j Hj). unfold running, finished in *. destruct (fst (fst c j)); try discriminate. eauto.
Qed.
Print Assumptions C89_safe.

(** If one does not: whenever listen() has returned while a thread of the application is still at work on the socket, the next few steps can be such that it uses a socket that is gone. *)
Theorem C89_careless : forall waits setup react ws evs i j l s,
  urun waits setup react evs (userver_init ws) = UOk s -> ureturned i s -> uinstance_of i s = Some l -> waits l = false ->
  0 < j <= length (uthreads i s) -> (forall o, ~ ufinished i j s o) ->
  urun waits setup react (evs ++ [UTurn i 0; UTurn i 0; UTurn i j]) (userver_init ws) = UUndef.
Proof.
  intros waits setup react ws evs i j l s E Hr HL Hw Hj Hn. rewrite run_app, E. unfold ureturned, uinstance_of, uthreads, ufinished, finished in *.
  destruct (u_phase s i) as [w|L st ths c|w|w] eqn:Ep; try contradiction. destruct st; try contradiction. subst L.
  cbn [urun ustep]. rewrite Ep. cbn [uconn uhandler]. rewrite Hr. cbn [u_phase u_inst u_log]. rewrite upd_same. cbn [uconn uhandler careful]. rewrite Hw. cbn [andb u_phase u_inst u_log].
  rewrite upd_same. destruct j as [|j]; [lia|]. cbn [uconn]. unfold uthread.
  replace (S j <=? length ths) with true by (symmetry; apply Nat.leb_le; lia). replace (running c (S j)) with true; [reflexivity|].
  unfold running. destruct (fst (fst c (S j))) eqn:Ec; try reflexivity. exfalso. eapply Hn. reflexivity.
Qed.
Print Assumptions C89_careless.

(** ** What is delivered and sent *)
Lemma fresh_last setup L p w w1 : exec_cmds (hello setup L p) (set_sock w (sock_new false)) = (Ret tt, w1) ->
  w_in w1 = w_in w /\ w_log w1 = w_log w /\ s_last (w_sock w1) = (-1)%Z.
Proof. intros E. apply exec_cmds_effect in E. exact E. Qed.
Theorem C89_faithful : forall waits setup react ws before i p later w1 s, w_log (ws i) = [] -> io_only (w_in (ws i)) -> uno_conn i before -> uno_conn i later ->
  let L := uinstance before in exec_cmds (hello setup L p) (set_sock (ws i) (sock_new false)) = (Ret tt, w1) -> s_listener (w_sock w1) <> None ->
  (forall l log, Forall kind_cmd (react i l log)) -> Forall (Forall kind_cmd) (uasked i later) ->
  urun waits setup react (before ++ UConn i p :: later) (userver_init ws) = UOk s ->
  exists log d, (uview i s = created L p \/ uview i s = created L p ++ NListen :: called log ++ d) /\ (d = [] \/ d = destroyed L) /\
    prefix (transcript log) (stream_reading false (bytes_of (w_in (ws i)))).
Proof.
  intros waits setup react ws before i p later w1 s Hlog Hio H1 H2 L Eh Hl Hkr Hkw E.
  destruct (C89_service waits setup react ws before i p later w1 s Hlog H1 H2 Eh E) as (over & _ & Hv & _ & _ & Hp & _). fold L in Hv.
  set (c := srun (uturns i 0 later) (system_init (react i) (uwork (uthreads i s)) w1)) in *. destruct (fresh_last _ _ _ _ _ Eh) as (K1 & K2 & K3). rewrite <- K1 in *.
  destruct (C76_notifications (react i) (uwork (uthreads i s)) w1 (uturns i 0 later) Hio Hl Hkr) as (new & N1 & N2).
  { apply uwork_all. eapply prefix_Forall; [exact Hp|exact Hkw]. }
  fold c in N1. rewrite K2, Hlog in N1. cbn [app] in N1. exists new, (if over then destroyed L else []). rewrite N1 in Hv.
  split; [destruct Hv as [[Hv _]|[Hv _]]; auto|]. split; [destruct over; auto|].
  destruct (listen taking_notes (on_its_own w1)) as [o wn] eqn:En. cbn [snd] in N2.
  destruct (C06_only_a_prefix taking_notes (on_its_own w1) o wn) as (new' & P1 & P2).
  { now apply io_only_stop_only. } { intros ? ?. constructor. } { left. exact K3. } { exact En. }
  cbn [on_its_own w_log app w_sock w_in] in P1, P2. rewrite P1 in N2. destruct N2 as [r Hr].
  assert (exists a b, new' = a ++ b /\ map snd a = map snd new) as (a & b & -> & Ha).
  { exists (firstn (length new) new'), (skipn (length new) new'). split; [symmetry; apply firstn_skipn|]. rewrite <- firstn_map, Hr.
    rewrite firstn_app, map_length, Nat.sub_diag, firstn_O, app_nil_r. rewrite <- (map_length snd new). apply firstn_all. }
  rewrite <- (transcript_map _ _ Ha). replace false with (open_of (w_sock w1)) by (unfold open_of; now rewrite K3).
  apply (P2 a). now exists b.
Qed.
Print Assumptions C89_faithful.

(** Every byte sent to the peer belongs to a frame the application wanted to send: what onAfterCreate has sent, then what the callbacks reply and what the application's threads send, each in order. *)
Theorem C89_bytes : forall m waits setup react ws before i p later w1 s, w_log (ws i) = [] -> io_only (w_in (ws i)) -> uno_conn i before -> uno_conn i later ->
  let L := uinstance before in exec_cmds (hello setup L p) (set_sock (ws i) (sock_new false)) = (Ret tt, w1) ->
  small_react (react i) -> Forall (Forall small_cmd) (uasked i later) -> masks_as m (react i) (uwork (uasked i later)) w1 ->
  urun waits setup react (before ++ UConn i p :: later) (userver_init ws) = UOk s ->
  exists lab drawn, usent i s = w_out w1 ++ map snd lab /\ forall rest, let rnd := own_random (w_rnd w1) (w_rpos w1) drawn rest in
    (forall j, 0 < j <= length (uthreads i s) -> exists ops b,
       put_all m (healthy (w_wr w1)) (rnd j) b ops /\ prefix ops (sends_of (nth (j - 1) (uthreads i s) [])) /\ prefix (from j lab) b /\
       forall o, ufinished i j s o -> from j lab = b /\ (o = Ret tt -> ops = sends_of (nth (j - 1) (uthreads i s) []))) /\
    (forall j, length (uthreads i s) < j -> from j lab = []) /\
    exists log ops b, put_all m (healthy (w_wr w1)) (rnd 0) b ops /\ prefix ops (replies (react i) [] log) /\ prefix (from 0 lab) b /\
      (uview i s = created L p \/ exists told d, uview i s = created L p ++ NListen :: called told ++ d /\ (d = [] \/ d = destroyed L) /\ prefix told log).
Proof.
  intros m waits setup react ws before i p later w1 s Hlog Hio H1 H2 L Eh Hsr Hsw Hm E.
  destruct (C89_service waits setup react ws before i p later w1 s Hlog H1 H2 Eh E) as (over & _ & Hv & Hs & Hf & Hp & _). fold L in Hv.
  set (c := srun (uturns i 0 later) (system_init (react i) (uwork (uthreads i s)) w1)) in *. destruct (fresh_last _ _ _ _ _ Eh) as (K1 & K2 & K3).
  destruct (C77_bytes m (react i) (uwork (uthreads i s)) w1 (uturns i 0 later)) as (lab & drawn & B1 & BX).
  { now rewrite K1. } { exact Hsr. } { intros j. apply uwork_all. eapply prefix_Forall; [exact Hp|exact Hsw]. }
  { intros bb Hb. destruct (Hm bb Hb) as (M1 & M2 & M3). split; [exact M1|]. split; [exact M2|]. intros j. destruct j as [|j]; [constructor|]. cbn [uwork].
    destruct Hp as [r Hp]. specialize (M3 (S j)). cbn [uwork] in M3. rewrite Hp in M3. destruct (Nat.lt_ge_cases j (length (uthreads i s))) as [Hlt|Hge].
    - now rewrite app_nth1 in M3 by exact Hlt.
    - rewrite nth_overflow by exact Hge. constructor. }
  fold c in B1, BX. exists lab, drawn. split; [congruence|]. intros rest rnd. destruct (BX rest) as (B2 & log & ops & b & B3 & B4 & _ & _ & B5 & B6 & _). split; [|split].
  - intros j Hj. destruct (B2 j ltac:(lia)) as (ops' & b' & Q1 & Q2 & Q3 & _ & Q4 & Q5). destruct j as [|j]; [lia|]. cbn [uwork] in *. rewrite Nat.sub_succ, Nat.sub_0_r.
    exists ops', b'. split; [exact Q1|]. split; [exact Q2|]. split; [exact Q4|]. intros o Ho. apply Q5, Hf, Ho.
  - intros j Hj. destruct (B2 j ltac:(lia)) as (ops' & b' & Q1 & Q2 & _ & _ & Q4 & _). destruct j as [|j]; [lia|]. cbn [uwork] in *. rewrite nth_overflow in Q2 by lia.
    cbn in Q2. apply prefix_of_nil in Q2. apply prefix_of_nil. rewrite <- (put_none _ _ _ _ _ Q1 Q2). exact Q4.
  - rewrite K2, Hlog in *. cbn [app] in *. exists log, ops, b. split; [exact B3|]. split; [exact B4|]. split; [exact B6|].
    destruct Hv as [[Hv _]|[Hv _]]; [now left|right]. exists (told c), (if over then destroyed L else []). split; [exact Hv|]. split; [destruct over; auto|exact B5].
Qed.
Print Assumptions C89_bytes.
