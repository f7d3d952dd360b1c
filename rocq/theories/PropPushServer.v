(** C88: a server whose application sends from coroutines of its own. *)
From Coq Require Import Cantor.
From Verif Require Import Bytes Frame World WebSocket AsyncWebSocket Lifecycle Server SpecServer ProofServer ProofAsync2 PropAsync PropAsync2 PropAsync3 SpecFrame SpecSend SpecListen SpecApi
  SpecAsync SpecReply SpecThreads Concurrent SpecConcurrent SpecProcess
  Coroutines SpecCoroutines ProofCoroutines3 ProofCoroutines4 PropServer PropCoroutines PushServer SpecPushServer ProofPushServer ProofPushServer2.
Local Open Scope nat_scope.
Local Notation arrived := SpecCoroutines.arrived.

(** Connections do not influence each other. *)
Theorem C88_isolation : forall setup react ws1 ws2 evs1 evs2 i, ws1 i = ws2 i -> pown i evs1 = pown i evs2 ->
  exists s1 s2, prun setup react evs1 (pserver_init ws1) = Some s1 /\ prun setup react evs2 (pserver_init ws2) = Some s2 /\
    pview i s1 = pview i s2 /\ psent i s1 = psent i s2 /\ forall j, pstatus i j s1 = pstatus i j s2.
Proof.
  intros setup react ws1 ws2 evs1 evs2 i Hw He.
  destruct (prun_part setup react evs1 _ (psinv_init ws1)) as (s1 & E1 & _ & H1).
  destruct (prun_part setup react evs2 _ (psinv_init ws2)) as (s2 & E2 & _ & H2).
  exists s1, s2. split; [exact E1|]. split; [exact E2|]. specialize (H1 i). specialize (H2 i).
  rewrite He in H1. assert (ppart_of i (pserver_init ws1) = ppart_of i (pserver_init ws2)) as Hp.
  { unfold ppart_of, pserver_init, pview. cbn [p_life p_log p_crowd p_made p_count]. now rewrite Hw. }
  rewrite Hp, <- H2 in H1. unfold ppart_of in H1. unfold psent, pstatus.
  assert (p_crowd s1 i = p_crowd s2 i /\ pview i s1 = pview i s2) as [-> ->] by (split; congruence). auto.
Qed.
Print Assumptions C88_isolation.

(** A connection's life: the socket with its coroutines, as if it were alone. *)
Definition history (before : list pev) (i p : nat) (mid later : list pev) : list pev := before ++ PConn i p :: mid ++ PStep i :: later.
Definition alone_run (react : nat -> react_t) (ws : nat -> world) (before : list pev) (i : nat) (mid later : list pev) (xs : list ext) (throws : bool) : crowd_t :=
  krun (react i) (CArrive (parrived i (before ++ mid)) :: turns i throws 0 later) (crowd_init (pwork i later) (set_sock (ws i) (served_sock xs))).

Theorem C88_service : forall setup react ws before i p mid later xs throws, w_log (ws i) = [] -> handed_over i before mid later ->
  let L := pinstance before in pplan setup L p = (xs, throws) ->
  let c := alone_run react ws before i mid later xs throws in
  exists s gone, prun setup react (history before i p mid later) (pserver_init ws) = Some s /\
    (gone = true <-> throws = true \/ pdropped i later \/ ended (status_of c 0) = true) /\
    pview i s = created L p ++ (if throws then destroyed L else NListen :: called (notified c) ++ if gone : bool then destroyed L else []) /\
    psent i s = written c /\ (forall j, 0 < j <= length (pstarted i later) -> pstatus i j s = status_of c j).
Proof.
  intros setup react ws before i p mid later xs throws Hlog Hh L Hp c.
  destruct (serve_alone setup react ws before i p mid later xs throws Hlog Hh Hp) as (s & E & l & cr & HP & H1 & H2 & H3 & _).
  exists s, (gone_b (throws || drops i later) c). split; [exact E|]. unfold ppart_of in HP. split.
  { unfold gone_b. rewrite !orb_true_iff, drops_in. tauto. }
  assert (p_crowd s i = cr) as Ec by congruence. split; [unfold shown in HP; fold L in HP; fold (alone_run react ws before i mid later xs throws) in HP; fold c in HP; congruence|].
  split; [unfold psent, written; rewrite Ec, H1; reflexivity|]. intros j Hj. unfold pstatus, status_of. rewrite Ec, H2 by exact Hj. reflexivity.
Qed.
Print Assumptions C88_service.

Lemma arrived_turns i evs : forall g n, arrived (turns i g n evs) = parrived i evs.
Proof.
  induction evs as [|e evs IH]; intros g n; [reflexivity|]. rewrite arrived_cons. cbn [turns].
  destruct (pconcerns i e) eqn:Ec; unfold pconcerns in Ec; cbn [conn_of] in Ec.
  - destruct e; unfold parrived at 1; cbn [flat_map conn_of] in *; rewrite ?Ec; cbn [app].
    all: try apply IH.
    + destruct g; cbn [app SpecCoroutines.arrived]; apply IH.
    + cbn [SpecCoroutines.arrived]. rewrite app_nil_r. now rewrite IH.
    + destruct (_ && _); cbn [app SpecCoroutines.arrived]; apply IH.
  - rewrite IH. destruct e; unfold parrived at 2; cbn [flat_map conn_of] in *; rewrite ?Ec; reflexivity.
Qed.
Lemma history_arrived before i p mid later : parrived i (history before i p mid later) = parrived i (before ++ mid) ++ parrived i later.
Proof. unfold history. change (PConn i p :: mid ++ PStep i :: later) with ([PConn i p] ++ mid ++ [PStep i] ++ later). rewrite !parrived_app, <- !app_assoc. reflexivity. Qed.
Lemma work_all (P : cmd -> Prop) i later : Forall (Forall P) (pstarted i later) -> forall j, Forall P (pwork i later j).
Proof.
  intros H [|j]; [constructor|]. cbn [pwork]. destruct (nth_in_or_default j (pstarted i later) []) as [Hin| -> ]; [|constructor]. rewrite Forall_forall in H. now apply H.
Qed.

(** What listeners are told is a beginning of what the received bytes say, whatever the application's coroutines send and do. *)
Theorem C88_faithful : forall setup react ws before i p mid later xs, fresh_conn (ws i) -> handed_over i before mid later ->
  let L := pinstance before in pplan setup L p = (xs, false) ->
  io_only (parrived i (history before i p mid later)) -> s_listener (served_sock xs) <> None ->
  small_react (react i) -> (forall l log, Forall kind_cmd (react i l log)) ->
  Forall (Forall small_cmd) (pstarted i later) -> Forall (Forall kind_cmd) (pstarted i later) ->
  exists s log d, prun setup react (history before i p mid later) (pserver_init ws) = Some s /\
    pview i s = created L p ++ NListen :: called log ++ d /\ (d = [] \/ d = destroyed L) /\
    prefix (transcript log) (stream_reading false (bytes_of (parrived i (history before i p mid later)))).
Proof.
  intros setup react ws before i p mid later xs (Hin & _ & Hlog) Hh L Hp Hio Hl Hsr Hkr Hsw Hkw.
  destruct (C88_service setup react ws before i p mid later xs false Hlog Hh Hp) as (s & gone & E & _ & Hv & _). fold L in Hv.
  set (c := alone_run react ws before i mid later xs false) in *. rewrite history_arrived in *.
  destruct (C79_notifications (react i) (pwork i later) (set_sock (ws i) (served_sock xs)) (CArrive (parrived i (before ++ mid)) :: turns i false 0 later)) as (new & N1 & N2).
  - cbn [w_in set_sock]. rewrite Hin. constructor.
  - cbn [SpecCoroutines.arrived]. now rewrite arrived_turns.
  - exact Hl.
  - left. apply served_fields.
  - exact Hsr.
  - intros j. now apply work_all.
  - exact Hkr.
  - intros j. now apply work_all.
  - fold (alone_run react ws before i mid later xs false) in N1. fold c in N1. cbn [set_sock w_log w_sock w_in] in N1, N2. rewrite Hlog in N1. rewrite Hin in N2. cbn [app SpecCoroutines.arrived] in N1, N2.
    rewrite arrived_turns in N2. replace (open_of (served_sock xs)) with false in N2 by (unfold open_of; now rewrite (proj2 (served_fields xs))).
    rewrite N1 in Hv. exists s, new, (if gone then destroyed L else []). split; [exact E|]. split; [exact Hv|]. split; [destruct gone; auto|exact N2].
Qed.
Print Assumptions C88_faithful.

(** Every byte sent to the peer belongs to a frame the application wanted to send: the handler's coroutine sends the callbacks' replies, the others what they were started for. *)
Theorem C88_bytes : forall m setup react ws before i p mid later xs, fresh_conn (ws i) -> handed_over i before mid later ->
  let L := pinstance before in pplan setup L p = (xs, false) ->
  io_only (parrived i (history before i p mid later)) ->
  small_react (react i) -> Forall (Forall small_cmd) (pstarted i later) -> masks_as m (react i) (pwork i later) (set_sock (ws i) (served_sock xs)) ->
  exists s lab (begun : list sent) log d, prun setup react (history before i p mid later) (pserver_init ws) = Some s /\
    pview i s = created L p ++ NListen :: called log ++ d /\ (d = [] \/ d = destroyed L) /\
    psent i s = map snd lab /\ fresh_keys (w_rnd (ws i)) (w_rpos (ws i)) (map snd begun) /\ (forall b, m = Some b -> Forall (keyed_as b) (map snd begun)) /\
    (forall j, frames_begun (from j lab) (filter (sent_by j) begun) (match j with O => replies (react i) [] log | S k => sends_of (nth k (pstarted i later) []) end)) /\
    forall j, 0 < j <= length (pstarted i later) ->
      (pstatus i j s = ADone -> map sent_op (filter (sent_by j) begun) = sends_of (pwork i later j)) /\
      (healthy (w_wr (ws i)) -> pstatus i j s <> ARun -> pstatus i j s <> AUb UbDangling -> frames_sent (from j lab) (filter (sent_by j) begun) (sends_of (pwork i later j))).
Proof.
  intros m setup react ws before i p mid later xs (Hin & Hout & Hlog) Hh L Hp Hio Hsr Hsw Hm.
  destruct (C88_service setup react ws before i p mid later xs false Hlog Hh Hp) as (s & gone & E & _ & Hv & Hs & Hst). fold L in Hv.
  set (c := alone_run react ws before i mid later xs false) in *. rewrite history_arrived in Hio.
  destruct (C80_bytes m (react i) (pwork i later) (set_sock (ws i) (served_sock xs)) (CArrive (parrived i (before ++ mid)) :: turns i false 0 later)) as (lab & begun & new & N1 & N2 & N3 & N4 & N5).
  - cbn [w_in set_sock]. rewrite Hin. constructor.
  - cbn [SpecCoroutines.arrived]. now rewrite arrived_turns.
  - exact Hsr.
  - intros j. now apply work_all.
  - exact Hm.
  - fold (alone_run react ws before i mid later xs false) in N1, N2, N5. fold c in N1, N2, N5. cbn [set_sock w_log w_sock w_in w_out w_rnd w_rpos w_wr] in *. rewrite Hlog in *. rewrite Hout in N1. cbn [app] in N1, N2.
    exists s, lab, begun, new, (if gone then destroyed L else []). split; [exact E|]. rewrite N2 in Hv. split; [exact Hv|]. split; [destruct gone; auto|]. split; [congruence|]. split; [exact N3|]. split; [exact N4|].
    split; [intros [|j]; exact (proj1 (N5 _))|].
    intros j Hj. rewrite (Hst j Hj). destruct (N5 j) as (_ & P2 & P3). destruct j as [|j]; [lia|]. cbn [to_send] in P2, P3. split; [exact P2|]. intros Hhe. exact (proj2 (P3 Hhe)).
Qed.
Print Assumptions C88_bytes.

(** ** Completion *)
Section Fair.
Variables (i N : nat) (g : nat -> pev).
(** A schedule for the coroutines of connection [i] alone: the turns [g] gives them, and turns for coroutines that have no work. *)
Definition idle : nat := S N.
Definition turn_in (e : pev) : nat :=
  match e with
  | PStep j => if Nat.eqb j i then 0 else idle
  | PTask k j => if Nat.eqb k i && ((1 <=? j) && (j <=? N)) then j else idle
  | _ => idle
  end.
Definition filler (n : nat) : nat := let k := snd (Cantor.of_nat n) in if k <=? N then idle else k.
Definition fair (n : nat) : nat := if Nat.even n then turn_in (g (Nat.div2 n)) else filler (Nat.div2 n).

Lemma fair_even n : fair (2 * n) = turn_in (g n).
Proof. unfold fair. rewrite Nat.even_mul. cbn [Nat.even orb]. now rewrite Nat.div2_double. Qed.
Lemma fair_odd n : fair (S (2 * n)) = filler n.
Proof. unfold fair. rewrite Nat.even_succ, Nat.odd_mul. cbn [Nat.odd Nat.even negb andb]. now rewrite Nat.div2_succ_double. Qed.
Lemma fair_everybody : (forall n, exists k, n <= k /\ g k = PStep i) -> (forall j n, 0 < j <= N -> exists k, n <= k /\ g k = PTask i j) -> everybody fair.
Proof.
  intros H0 Hj j n. destruct (Nat.eq_dec j 0) as [->|Hn0]; [|destruct (Nat.leb_spec j N) as [HN|HN]].
  - destruct (H0 n) as (k & Hk & E). exists (2 * k). split; [lia|]. rewrite fair_even, E. cbn. now rewrite Nat.eqb_refl.
  - destruct (Hj j n ltac:(lia)) as (k & Hk & E). exists (2 * k). split; [lia|]. rewrite fair_even, E. unfold turn_in. rewrite Nat.eqb_refl.
    replace (1 <=? j) with true by (symmetry; apply Nat.leb_le; lia). replace (j <=? N) with true by (symmetry; now apply Nat.leb_le). reflexivity.
  - exists (S (2 * Cantor.to_nat (n, j))). split.
    + pose proof (Cantor.to_nat_non_decreasing n j). lia.
    + rewrite fair_odd. unfold filler. rewrite Cantor.cancel_of_to. cbn [snd]. destruct (Nat.leb_spec j N); [lia|reflexivity].
Qed.
End Fair.

Section Idle.
Variable r : react_t.
Variables (N : nat).
(** Coroutines without work make no difference. *)
Definition only_idle_differ (a b : crowd_t) : Prop := snd a = snd b /\ (forall j, j <= N -> fst a j = fst b j) /\
  forall j, N < j -> fst b j = Task ARun header_init [] [CoUser [] false] \/ fst b j = Task ADone header_init [] [] \/ fst b j = Task ARun header_init [] [].
Lemma idle_tick a b j : N < j -> only_idle_differ a b -> only_idle_differ a (kstep r (CTick j) b).
Proof.
  intros Hj (E1 & E2 & E3). split; [|split].
  - rewrite (proj2 (own_step r j b)), E1. destruct (E3 j Hj) as [-> |[-> | ->]]; reflexivity.
  - intros k Hk. rewrite others_same by lia. now apply E2.
  - intros k Hk. destruct (Nat.eq_dec k j) as [->|Hne]; [|rewrite others_same by congruence; now apply E3].
    rewrite (proj1 (own_step r j b)). destruct (E3 j Hj) as [-> |[-> | ->]]; cbn; auto.
Qed.
Lemma busy_tick a b j : j <= N -> only_idle_differ a b -> only_idle_differ (kstep r (CTick j) a) (kstep r (CTick j) b).
Proof.
  intros Hj (E1 & E2 & E3). split; [|split].
  - now rewrite !(proj2 (own_step r j _)), E1, E2.
  - intros k Hk. destruct (Nat.eq_dec k j) as [->|Hne]; [now rewrite !(proj1 (own_step r j _)), E1, E2|]. rewrite !others_same by congruence. now apply E2.
  - intros k Hk. rewrite others_same by lia. now apply E3.
Qed.
End Idle.

Lemma turns_app i a b : forall g n, turns i g n (a ++ b) = turns i g n a ++ turns i (g || drops i a) (n + length (pstarted i a)) b.
Proof.
  induction a as [|e a IH]; intros g n; cbn [app].
  - cbn. now rewrite orb_false_r, Nat.add_0_r.
  - cbn [turns]. rewrite started_cons. destruct (pconcerns i e) eqn:Ec; unfold pconcerns in Ec; cbn [conn_of] in Ec.
    + destruct e; cbn [drops existsb conn_of] in *; unfold pstarted at 1; cbn [flat_map]; rewrite ?Ec; cbn [orb app length]; rewrite IH; unfold drops; rewrite ?orb_true_r, <- ?app_assoc, <- ?plus_n_Sm; try reflexivity.
    + rewrite IH. destruct e; cbn [drops existsb conn_of] in *; unfold pstarted at 2; cbn [flat_map]; rewrite ?Ec; reflexivity.
Qed.

Section Quiet.
Variables (react : nat -> react_t) (i N : nat) (g : nat -> pev).
Hypothesis Hq : forall k, only_turns i (g k).
Notation gs n := (map g (seq 0 n)).
Lemma seq_snoc n : gs (S n) = gs n ++ [g n].
Proof. rewrite seq_S, map_app. reflexivity. Qed.
Lemma quiet_facts n : pstarted i (gs n) = [] /\ drops i (gs n) = false /\ parrived i (gs n) = [] /\ never (is_conn i) (gs n).
Proof.
  generalize (seq 0 n). intros l. induction l as [|k l (I1 & I2 & I3 & I4)]; [repeat split; constructor|]. cbn [map].
  pose proof (Hq k) as H. rewrite started_cons, arrived_cons, I1, I3. unfold drops in *. cbn [existsb]. rewrite I2. unfold pstarted, parrived. cbn [flat_map].
  destruct (g k) eqn:E; cbn [only_turns] in H; try (apply Nat.eqb_neq in H as H'; rewrite ?H'); cbn; (split; [reflexivity|]); (split; [reflexivity|]); (split; [reflexivity|]);
    constructor; try exact I4; intros [q Hx]; try discriminate. injection Hx as -> _. contradiction.
Qed.
Lemma same_turns A : (forall j, N < j -> fst A j = Task ARun header_init [] [CoUser [] false]) ->
  forall n, only_idle_differ N (krun (react i) (turns i false N (gs n)) A) (kafter (react i) (fair i N g) (2 * n) A).
Proof.
  intros HA. induction n as [|n IH].
  - cbn. split; [reflexivity|]. split; [reflexivity|]. intros j Hj. left. now apply HA.
  - rewrite seq_snoc, turns_app. destruct (quiet_facts n) as (-> & -> & _). cbn [orb length]. rewrite Nat.add_0_r, krun_app.
    replace (2 * S n) with (S (S (2 * n))) by lia. rewrite !kafter_S, fair_odd, fair_even.
    apply idle_tick.
    { unfold filler. destruct (Nat.leb_spec (snd (Cantor.of_nat n)) N); [unfold idle; lia|lia]. }
    pose proof (Hq n) as Hn. assert (idle N > N) as Hi by (unfold idle; lia).
    destruct (g n) as [l|j q|j|j s|j|j cs|j t]; cbn [only_turns turn_in] in Hn |- *; unfold turns, pconcerns; cbn [conn_of].
    + now apply idle_tick.
    + apply Nat.eqb_neq in Hn. rewrite Hn. now apply idle_tick.
    + destruct (Nat.eqb j i); [apply busy_tick; [lia|exact IH]|now apply idle_tick].
    + apply Nat.eqb_neq in Hn. rewrite Hn. now apply idle_tick.
    + apply Nat.eqb_neq in Hn. rewrite Hn. now apply idle_tick.
    + apply Nat.eqb_neq in Hn. rewrite Hn. now apply idle_tick.
    + destruct (Nat.eqb j i); cbn [andb]; [|now apply idle_tick]. destruct (_ && _) eqn:Et; [|now apply idle_tick].
      apply andb_true_iff in Et. destruct Et as [_ Et]. apply Nat.leb_le in Et. apply busy_tick; [exact Et|exact IH].
Qed.
End Quiet.

(** If nothing fails and every coroutine of the connection gets to run: everything received is delivered and answered, every coroutine the application has started
    finishes, even if the connection has been closed meanwhile, and everything is on the wire; onBeforeDestroy has been called exactly if the peer has ended the connection. *)
Theorem C88_completion : forall m setup react ws before i p mid later xs g, fresh_conn (ws i) -> handed_over i before mid later -> ~ pdropped i later ->
  let L := pinstance before in pplan setup L p = (xs, false) -> let k := served_sock xs in
  clean (parrived i (history before i p mid later)) -> healthy (w_wr (ws i)) -> s_listener k <> None -> (0 < s_buf k)%Z ->
  (forall l log, Forall gentle_cmd (react i l log)) -> no_use (react i) -> Forall (Forall gentle_cmd) (pstarted i later) ->
  masks_as m (react i) (pwork i later) (set_sock (ws i) k) -> serves i (length (pstarted i later)) g ->
  exists n, forall n', n <= n' -> exists s log lab (begun : list sent),
    prun setup react (history before i p mid (later ++ map g (seq 0 n'))) (pserver_init ws) = Some s /\
    pview i s = created L p ++ NListen :: called log ++
      (match stream_ending false (bytes_of (parrived i (history before i p mid later))) with Closed _ | Rejected _ => destroyed L | _ => [] end) /\
    transcript log = stream_reading false (bytes_of (parrived i (history before i p mid later))) /\
    psent i s = map snd lab /\ fresh_keys (w_rnd (ws i)) (w_rpos (ws i)) (map snd begun) /\ (forall b, m = Some b -> Forall (keyed_as b) (map snd begun)) /\
    frames_sent (from 0 lab) (filter (sent_by 0) begun) (replies (react i) [] log) /\
    forall j, 0 < j <= length (pstarted i later) ->
      pstatus i j s = ADone /\ frames_sent (from j lab) (filter (sent_by j) begun) (sends_of (nth (j - 1) (pstarted i later) [])).
Proof.
  intros m setup react ws before i p mid later xs g (Hin & Hout & Hlog) Hh Hnd L Hp k Hc Hhe Hl Hb Hgr Hnu Hgw Hm (Hq & Hf0 & Hfj).
  set (N := length (pstarted i later)) in *.
  set (sched := CArrive (parrived i (before ++ mid)) :: turns i false 0 later).
  set (A := krun (react i) sched (crowd_init (pwork i later) (set_sock (ws i) k))).
  assert (arrived sched = parrived i (history before i p mid later)) as Ear by (unfold sched; cbn [SpecCoroutines.arrived]; now rewrite arrived_turns, history_arrived).
  assert (forall j, N < j -> fst A j = Task ARun header_init [] [CoUser [] false]) as HA.
  { destruct (serve_alone setup react ws before i p mid later xs false Hlog Hh Hp) as (s & _ & l & cr & _ & _ & _ & _ & _ & H & _). intros j Hj.
    specialize (H j Hj). fold k sched A in H. rewrite H. destruct j as [|j]; [lia|]. cbn [pwork]. now rewrite nth_overflow by (fold N; lia). }
  destruct (C81_full_duplex m (react i) (pwork i later) (set_sock (ws i) k) sched (fair i N g) N) as [n Hn].
  - cbn [w_in set_sock]. rewrite Hin. constructor.
  - now rewrite Ear.
  - exact Hl.
  - left. apply served_fields.
  - exact Hb.
  - exact Hhe.
  - exact Hgr.
  - exact Hnu.
  - intros j. now apply work_all.
  - exact Hm.
  - now apply fair_everybody.
  - exists n. intros n' Hn'. fold A in Hn. destruct (Hn (2 * n') ltac:(lia)) as (log & lab & begun & D1 & D2 & D3 & D4 & D5 & D6 & D7 & D8).
    destruct (same_turns react i N g Hq A HA n') as (S1 & S2 & _). set (B := kafter (react i) (fair i N g) (2 * n') A) in *.
    destruct (quiet_facts i g Hq n') as (Q1 & Q2 & Q3 & Q4).
    assert (pstarted i (later ++ map g (seq 0 n')) = pstarted i later) as Est by (unfold pstarted in *; rewrite flat_map_app, Q1; apply app_nil_r).
    assert (drops i later = false) as Ed by (destruct (drops i later) eqn:E; [apply drops_in in E; contradiction|reflexivity]).
    destruct (C88_service setup react ws before i p mid (later ++ map g (seq 0 n')) xs false Hlog) as (s & gone & E & Hg & Hv & Hs & Hst).
    { destruct Hh as (G1 & G2 & G3 & G4). split; [exact G1|]. split; [exact G2|]. split; [apply Forall_app; split; assumption|exact G4]. }
    { exact Hp. }
    assert (alone_run react ws before i mid (later ++ map g (seq 0 n')) xs false = krun (react i) (turns i false N (map g (seq 0 n'))) A) as EA.
    { unfold alone_run. rewrite turns_app, Ed. cbn [orb]. unfold A, sched. rewrite <- krun_app. cbn [app].
      assert (pwork i (later ++ map g (seq 0 n')) = pwork i later) as -> by (unfold pwork; now rewrite Est). reflexivity. }
    rewrite EA in *. set (C := krun (react i) (turns i false N (map g (seq 0 n'))) A) in *.
    assert (notified C = notified B /\ written C = written B) as [En Ew] by (unfold notified, written; rewrite S1; auto).
    assert (forall j, j <= N -> status_of C j = status_of B j) as Es by (intros j Hj; unfold status_of; now rewrite S2).
    cbn [set_sock w_log w_in w_sock w_out w_rnd w_rpos] in *. rewrite Hlog in *. rewrite Hin, Ear in *. rewrite Hout in D4. cbn [app] in *.
    replace (open_of k) with false in * by (unfold open_of, k; now rewrite (proj2 (served_fields xs))).
    exists s, log, lab, begun. split; [exact E|]. split.
    { rewrite Hv, En, D1. fold L. do 3 f_equal. rewrite Es in Hg by lia.
      assert (~ pdropped i (later ++ map g (seq 0 n'))) as Hnd' by (rewrite <- drops_in; unfold drops in *; rewrite existsb_app, Ed, Q2; discriminate).
      destruct (stream_ending false (bytes_of (parrived i (history before i p mid later)))).
      - destruct D3 as [D3 _]. rewrite D3 in Hg. destruct gone; [exfalso|reflexivity]. destruct Hg as [Hg _]. destruct (Hg eq_refl) as [?|[?|?]]; try discriminate. contradiction.
      - destruct D3 as [D3 _]. rewrite D3 in Hg. replace gone with true by (symmetry; apply Hg; auto). reflexivity.
      - destruct D3 as [[e D3] _]. rewrite D3 in Hg. replace gone with true by (symmetry; apply Hg; auto). reflexivity.
      - contradiction. }
    split; [exact D2|]. split; [congruence|]. split; [exact D5|]. split; [exact D6|]. split; [exact D7|].
    intros j Hj. destruct (D8 j Hj) as [F1 F2]. rewrite Hst by (rewrite Est; exact Hj). rewrite Es by lia. split; [exact F1|].
    destruct j as [|j]; [lia|]. cbn [pwork] in F2. now rewrite Nat.sub_succ, Nat.sub_0_r.
Qed.
Print Assumptions C88_completion.

(** * A chat server: what one peer says is pushed to the others. Connection 1 says "hi"; the application starts a coroutine on connection 2 that sends it there while 2 is
    itself sending a message in two pieces, then 2 closes while a second push is under way; 3 is refused by the instance listener, and the application pushes to it nevertheless. *)
Definition chat_setup (l p : nat) : list ext * bool := ([XSetListener (Some (l + p))], Nat.eqb p 9).
Definition chat_react : nat -> react_t := fun _ _ log => match List.last log (0, EvEnd 0) with (_, EvPing [c]) => [CSend true (SoPong (Some [c]))] | _ => [] end.
Definition rounds (n : nat) : list pev := flat_map (fun _ => [PStep 2; PTask 2 1; PStep 1; PTask 2 2; PTask 3 1]) (seq 0 n).
Definition chat_before : list pev := [PSet (Some 50); PConn 1 1; PArrive 1 [RData x81 [x02; x68; x69]]; PStep 1; PArrive 2 [RData x01 [x01; x61]]].
Definition chat_mid : list pev := [PConn 3 9; PStep 3; PTask 2 1] ++ repeat (PStep 1) 20.
Definition chat_later : list pev :=
  [PStart 2 [CSend true (SoText (Some [x68; x69]))]; PStart 3 [CSend true (SoText (Some [x62]))]] ++ rounds 3 ++
  [PArrive 2 [RData x89 [x01]]; PStart 2 [CSend false (SoBinary (Some [x01; x02; x03]))]] ++ rounds 2 ++ [PArrive 2 [RData x7a [x80; x00; x88; x00]]].
Definition chat_worlds : nat -> world := fun _ => aworld [] [].
Example C88_nonvacuous :
  fresh_conn (chat_worlds 2) /\ handed_over 2 chat_before chat_mid chat_later /\ ~ pdropped 2 chat_later /\ pinstance chat_before = Some 50 /\
  pplan chat_setup (Some 50) 2 = ([XSetListener (Some 52)], false) /\
  clean (parrived 2 (history chat_before 2 2 chat_mid chat_later)) /\ length (pstarted 2 chat_later) = 2 /\
  (forall l log, Forall gentle_cmd (chat_react 2 l log)) /\ no_use (chat_react 2) /\ Forall (Forall gentle_cmd) (pstarted 2 chat_later) /\
  serves 2 2 (fun n => nth (n mod 5) [PStep 2; PTask 2 1; PStep 1; PTask 2 2; PTask 3 1] (PSet None)) /\
  match prun chat_setup chat_react (history chat_before 2 2 chat_mid (chat_later ++ rounds 60)) (pserver_init chat_worlds) with
  | Some s =>
    pview 1 s = [NCreate 50 1; NListen; NCall 51 (EvMsg 1 [x68; x69]); NCall 51 (EvEnd 1)] /\
    pview 2 s = [NCreate 50 2; NListen; NCall 52 (EvMsg 1 [x61]); NCall 52 (EvPing [x7a]); NCall 52 (EvEnd 0); NCall 52 (EvClose 0 []); NDestroy 50] /\
    pstatus 2 1 s = ADone /\ pstatus 2 2 s = ADone /\ length (psent 2 s) = 4 + 5 + 3 /\
    pview 3 s = [NCreate 50 9; NDestroy 50] /\ psent 3 s = [x81; x01; x62]
  | None => False
  end.
Proof.
  assert (forall P l, forallb (fun e => negb (P e)) l = true -> Forall (fun e : pev => P e = false) l) as Hdec.
  { intros P l H. rewrite forallb_forall in H. apply Forall_forall. intros x Hx. specialize (H x Hx). now destruct (P x). }
  split; [repeat split|]. split.
  { assert (forall l, forallb (fun e => negb (match e with PConn j _ => Nat.eqb j 2 | _ => false end)) l = true -> never (is_conn 2) l) as Hno.
    { intros l H. eapply Forall_impl; [|apply (Hdec (fun e => match e with PConn j _ => Nat.eqb j 2 | _ => false end) l H)]. intros e He [q ->]. discriminate. }
    split; [apply Hno; vm_compute; reflexivity|]. split; [apply Hno; vm_compute; reflexivity|]. split; [apply Hno; vm_compute; reflexivity|].
    eapply Forall_impl; [|apply (Hdec (fun e => match e with PStep j => Nat.eqb j 2 | PDrop j => Nat.eqb j 2 | _ => false end) chat_mid)]; [|vm_compute; reflexivity].
    intros e He [-> | ->]; discriminate. }
  split; [rewrite <- drops_in; vm_compute; discriminate|]. split; [reflexivity|]. split; [reflexivity|]. split; [unfold clean; vm_compute; repeat constructor|].
  split; [reflexivity|]. split; [|split; [|split; [|split]]].
  - intros l log. unfold chat_react. destruct (List.last log (0, EvEnd 0)) as [? [| |[|c []]| |]]; repeat constructor.
  - intros l log. unfold chat_react. destruct (List.last log (0, EvEnd 0)) as [? [| |[|c []]| |]]; repeat constructor; discriminate.
  - replace (pstarted 2 chat_later) with [[CSend true (SoText (Some [x68; x69]))]; [CSend false (SoBinary (Some [x01; x02; x03]))]] by (vm_compute; reflexivity).
    repeat constructor.
  - split; [|split].
    + intros k. assert (k mod 5 < 5) as H by (apply Nat.mod_upper_bound; discriminate). destruct (k mod 5) as [|[|[|[|[|]]]]]; try exact I; lia.
    + intros k. exists (k * 5). split; [lia|]. now rewrite Nat.mod_mul by discriminate.
    + intros j k Hj. assert (j = 1 \/ j = 2) as [-> | ->] by lia.
      * exists (1 + k * 5). split; [lia|]. rewrite Nat.mod_add by discriminate. reflexivity.
      * exists (3 + k * 5). split; [lia|]. rewrite Nat.mod_add by discriminate. reflexivity.
  - vm_compute. repeat split.
Qed.
