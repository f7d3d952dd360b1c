(** Property theorems: C57, asynchronous endpoints connected by a network. *)
From Verif Require Import Bytes Frame World WebSocket AsyncWebSocket SpecFrame SpecSend SpecListen SpecApi SpecReply SpecAsync SpecNet
  ProofFrame ProofStream ProofSend ProofCodec ProofHeader ProofListen ProofReading ProofApi ProofInv ProofHistory ProofProps
  ProofAsync ProofAsync2 ProofAsync3 PropListen PropListen2 PropReply PropAsync PropAsync2 PropAsync3.
From Coq Require Import ZifyBool ZifyNat ZifyN.
Local Open Scope N_scope.
Local Arguments takeN : simpl never.
Local Arguments dropN : simpl never.
Local Arguments lenN : simpl never.
Local Arguments be_enc : simpl never.
Local Arguments be_dec : simpl never.
Notation step := AsyncWebSocket.step.

(** * The sending coroutine *)
Lemma send_all_frames ops : forall w o w', Forall (fits (s_mask (w_sock w))) ops -> healthy (w_wr w) -> send_all ops w = (o, w') ->
  o = Ret tt /\ w_out w' = w_out w ++ frames_of (s_mask (w_sock w)) (w_rnd w) (w_rpos w) ops.
Proof.
  induction ops as [|op r IH]; intros w o w' Hf Hh E; cbn [send_all] in E.
  - injection E as <- <-. cbn. now rewrite app_nil_r.
  - inversion Hf as [|? ? [F1 F2] F3]; subst. unfold bind in E. destruct (send op w) as [o1 w1] eqn:E1.
    pose proof (keeps_send op w _ _ E1) as [(_ & _ & Kr & _) _].
    apply send_spec in E1; [|exact F1]. destruct E1 as (p & _ & Ho & Hrp & _ & _ & _ & _ & _ & Hx).
    destruct (Hx Hh F2) as (-> & -> & Hh1 & Hs1).
    apply IH in E; [|now rewrite Hs1|exact Hh1]. destruct E as [-> E]. split; [reflexivity|].
    rewrite E, Ho, Hs1, Kr, Hrp, <- app_assoc. cbn [frames_of]. reflexivity.
Qed.
Lemma exec_sends ops w : exec_cmds (map (CSend false) ops) w = send_all ops w.
Proof.
  revert w. induction ops as [|op r IH]; intros w; [reflexivity|]. cbn [map exec_cmds send_all exec_cmd].
  apply bind_ext; [reflexivity|]. intros _. apply IH.
Qed.

Notation passive := watch.
Lemma sends_halts ops w : idle w -> Forall (fits (s_mask (w_sock w))) ops ->
  exists c2, halts passive (start_sends ops w) ADone c2 /\ w_out (c_world c2) = frames_of (s_mask (w_sock w)) (w_rnd w) (w_rpos w) ops.
Proof.
  intros (Hin & Hout & _ & Hh & Hl & _) Hf. destruct (send_all ops w) as [o w'] eqn:E.
  destruct (send_all_frames _ _ _ _ Hf Hh E) as [-> Ho]. rewrite Hout in Ho. cbn [app] in Ho.
  rewrite <- exec_sends in E.
  assert (inv false (s_listener (w_sock w)) (s_buf (w_sock w)) false w) as Hi.
  { repeat split; try assumption. rewrite Hin. constructor. intros _. exact (ProofAsync.healthy_never _ Hh). }
  pose proof (cmds_sim passive false (s_listener (w_sock w)) (s_buf (w_sock w)) false (map (CSend false) ops)) as HS.
  specialize (HS ltac:(apply Forall_map, Forall_forall; intros x _; cbn; discriminate) false header_init [] [] w (Ret tt) w' Hi E).
  rewrite er_id in HS by exact Hl. destruct (sim_halts _ _ _ _ _ _ _ _ _ HS) as (st2 & c2 & H1 & H2 & H3); [discriminate|].
  destruct st2; cbn in H2; try contradiction. exists c2. split; [exact H1|]. rewrite H3. exact Ho.
Qed.

(** * Projections *)
Lemma segment_le k d out : (length (segment k d out) <= length out - d)%nat.
Proof. unfold segment. rewrite firstn_length, skipn_length. lia. Qed.
Lemma segment_app k d out : (d <= length out)%nat -> firstn d out ++ segment k d out = firstn (d + length (segment k d out)) out.
Proof.
  intros H. unfold segment. set (n := length (firstn (S k) (skipn d out))).
  assert (firstn (S k) (skipn d out) = firstn n (skipn d out)) as ->.
  { unfold n. rewrite firstn_length. destruct (Nat.le_ge_cases (S k) (length (skipn d out))) as [Hc|Hc].
    - now rewrite Nat.min_l by lia.
    - rewrite Nat.min_r by lia. rewrite firstn_all. now apply firstn_all2. }
  clearbody n. clear k. rewrite <- (firstn_skipn d out) at 3. rewrite firstn_app, firstn_firstn.
  rewrite firstn_length. replace (Nat.min (d + n) d) with d by lia. f_equal. f_equal. rewrite Nat.min_l by lia. lia.
Qed.

Lemma run_tick_end react evs sc : run react (evs ++ [Tick]) sc = tick react (run react evs sc).
Proof. rewrite run_app. reflexivity. Qed.
Lemma arrivals_app a b : arrivals (a ++ b) = arrivals a ++ arrivals b.
Proof. induction a as [|[|s] a IH]; cbn; [reflexivity|exact IH|now rewrite IH, app_assoc]. Qed.
Lemma bytes_of_app a b : bytes_of (a ++ b) = bytes_of a ++ bytes_of b.
Proof. induction a as [|[b0 bs|e|x] a IH]; cbn; [reflexivity| |exact IH|exact IH]. now rewrite IH, app_assoc. Qed.

(** How the machines have been driven. *)
Definition driven (rs rx : react_t) (ops : list sendop) (wt ws wr : world) (s : net) : Prop :=
  exists n e2 e3, n_tx s = run passive (ticks n) (ARun, start_sends ops wt) /\
    n_srv s = run rs e2 (ARun, start_listen ws) /\ n_rx s = run rx e3 (ARun, start_listen wr) /\
    clean (arrivals e2) /\ clean (arrivals e3) /\
    (n_up s <= length (w_out (c_world (snd (n_tx s)))))%nat /\ (n_down s <= length (w_out (c_world (snd (n_srv s)))))%nat /\
    bytes_of (arrivals e2) = firstn (n_up s) (w_out (c_world (snd (n_tx s)))) /\
    bytes_of (arrivals e3) = firstn (n_down s) (w_out (c_world (snd (n_srv s)))).

Lemma ticks_S n : ticks (S n) = ticks n ++ [Tick].
Proof. induction n as [|n IH]; [reflexivity|]. cbn [ticks] in *. rewrite IH at 1. reflexivity. Qed.
Lemma tick_out react sc : prefix (w_out (c_world (snd sc))) (w_out (c_world (snd (tick react sc)))).
Proof.
  destruct sc as [st c]. unfold tick. destruct st; try apply prefix_refl; cbn [snd];
    destruct (step react c) as [st1 c1] eqn:E; apply step_grows in E; apply E.
Qed.
Lemma firstn_prefix {A} (n : nat) (a b : list A) : prefix a b -> (n <= length a)%nat -> firstn n a = firstn n b /\ (n <= length b)%nat.
Proof.
  intros [r ->] H. rewrite firstn_app, app_length. replace (n - length a)%nat with 0%nat by lia. cbn. rewrite app_nil_r. split; [reflexivity|lia].
Qed.
Lemma deliver_run react e sc seg : deliver seg (run react e sc) = run react (e ++ match seg with [] => [] | b :: bs => [Arrive [RData b bs]] end) sc.
Proof. rewrite run_app. destruct seg; reflexivity. Qed.
Lemma deliver_arr seg : arrivals match seg with [] => [] | b :: bs => [Arrive [RData b bs]] end = match seg with [] => [] | b :: bs => [RData b bs] end.
Proof. destruct seg; reflexivity. Qed.
Lemma deliver_out seg sc : w_out (c_world (snd (deliver seg sc))) = w_out (c_world (snd sc)).
Proof. destruct seg; reflexivity. Qed.
Lemma deliver_bytes (seg : bytes) : bytes_of match seg with [] => [] | b :: bs => [RData b bs] end = seg.
Proof. destruct seg; [reflexivity|]. cbn. now rewrite app_nil_r. Qed.
Lemma deliver_clean (seg : bytes) : clean match seg with [] => [] | b :: bs => [RData b bs] end.
Proof. destruct seg; repeat constructor. Qed.

Lemma driven_step rs rx ops wt ws wr s e : driven rs rx ops wt ws wr s -> driven rs rx ops wt ws wr (nstep rs rx s e).
Proof.
  intros (n & e2 & e3 & H1 & H2 & H3 & H4 & H5 & H6 & H7 & H8 & H9). destruct e as [| | |k|k]; cbn [nstep].
  - exists (S n), e2, e3. cbn [n_tx n_srv n_rx n_up n_down]. split; [rewrite ticks_S, run_tick_end, H1; reflexivity|].
    repeat (split; [assumption|]).
    destruct (firstn_prefix (n_up s) _ _ (tick_out passive (n_tx s)) H6) as [F1 F2].
    split; [exact F2|]. split; [exact H7|]. split; [rewrite H8; exact F1|exact H9].
  - exists n, (e2 ++ [Tick]), e3. cbn [n_tx n_srv n_rx n_up n_down]. split; [exact H1|]. split; [rewrite run_tick_end, H2; reflexivity|].
    split; [exact H3|]. rewrite arrivals_app. cbn [arrivals]. rewrite app_nil_r.
    destruct (firstn_prefix (n_down s) _ _ (tick_out rs (n_srv s)) H7) as [F1 F2].
    repeat (split; [assumption|]). rewrite H9. exact F1.
  - exists n, e2, (e3 ++ [Tick]). cbn [n_tx n_srv n_rx n_up n_down]. split; [exact H1|]. split; [exact H2|].
    split; [rewrite run_tick_end, H3; reflexivity|]. rewrite arrivals_app. cbn [arrivals]. rewrite app_nil_r. repeat (split; [assumption|]). assumption.
  - cbv zeta. set (seg := segment k (n_up s) (w_out (c_world (snd (n_tx s))))).
    exists n, (e2 ++ match seg with [] => [] | b :: bs => [Arrive [RData b bs]] end), e3. cbn [n_tx n_srv n_rx n_up n_down].
    rewrite arrivals_app, deliver_arr, bytes_of_app, deliver_bytes, deliver_out.
    split; [exact H1|]. split; [rewrite H2; apply deliver_run|]. split; [exact H3|].
    split; [apply Forall_app; split; [exact H4|apply deliver_clean]|]. split; [exact H5|].
    split; [pose proof (segment_le k (n_up s) (w_out (c_world (snd (n_tx s))))); fold seg in H; lia|]. split; [exact H7|].
    split; [|exact H9]. rewrite H8. now apply segment_app.
  - cbv zeta. set (seg := segment k (n_down s) (w_out (c_world (snd (n_srv s))))).
    exists n, e2, (e3 ++ match seg with [] => [] | b :: bs => [Arrive [RData b bs]] end). cbn [n_tx n_srv n_rx n_up n_down].
    rewrite arrivals_app, deliver_arr, bytes_of_app, deliver_bytes.
    split; [exact H1|]. split; [exact H2|]. split; [rewrite H3; apply deliver_run|]. split; [exact H4|].
    split; [apply Forall_app; split; [exact H5|apply deliver_clean]|]. split; [exact H6|].
    split; [pose proof (segment_le k (n_down s) (w_out (c_world (snd (n_srv s))))); fold seg in H; lia|].
    split; [exact H8|]. rewrite H9. now apply segment_app.
Qed.
Lemma driven_start rs rx ops wt ws wr : driven rs rx ops wt ws wr (net_start ops wt ws wr).
Proof. exists 0%nat, [], []. cbn. repeat split; auto; try constructor; lia. Qed.
Lemma driven_run rs rx ops wt ws wr evs : forall s, driven rs rx ops wt ws wr s -> driven rs rx ops wt ws wr (nrun rs rx evs s).
Proof. induction evs as [|e evs IH]; intros s H; [exact H|]. cbn. apply IH. now apply driven_step. Qed.

(** * Prefixes of streams *)
Lemma reading_trunc_end k : forall opn p q,
  match snd (reading k opn p) with
  | Rejected r => snd (reading k opn (p ++ q)) = Rejected (r ++ q)
  | Closed r => snd (reading k opn (p ++ q)) = Closed (r ++ q)
  | Stopped r => snd (reading k opn (p ++ q)) = Stopped (r ++ q)
  | Blocked => True
  end.
Proof.
  induction k as [|k IH]; intros opn p q; [reflexivity|]. cbn [reading].
  destruct (rd_header p) as [[i rest]|] eqn:E; [|exact I].
  rewrite (rd_header_app _ _ _ _ E). destruct (negb (accepts opn i)); [reflexivity|].
  set (n := eff_len (i_len i)).
  destruct (N.leb_spec n (lenN rest)) as [Hn|Hn]; cbn [negb]; [|exact I].
  destruct (N.leb_spec n (lenN (rest ++ q))) as [Hn'|Hn']; [|rewrite lenN_app in Hn'; lia]. cbn [negb].
  rewrite dropN_app. replace (n - lenN rest) with 0 by lia. rewrite dropN_0.
  destruct (i_opcode i =? 8); [reflexivity|].
  specialize (IH (next_open opn i) (dropN n rest) q).
  destruct (reading k _ (dropN n rest)) as [m1 e1]. destruct (reading k _ (dropN n rest ++ q)) as [m2 e2].
  cbn [snd] in *. exact IH.
Qed.
Lemma stream_trunc_blocked opn p q : stream_ending opn (p ++ q) = Blocked -> stream_ending opn p = Blocked.
Proof.
  intros H. unfold stream_ending in *.
  assert (snd (reading (S (length (p ++ q))) opn p) = snd (reading (S (length p)) opn p)) as <-.
  { pose proof (stream_enough (S (length (p ++ q))) opn p) as H1. rewrite app_length in *. specialize (H1 ltac:(lia)).
    rewrite H1. reflexivity. }
  pose proof (reading_trunc_end (S (length (p ++ q))) opn p q) as H1. rewrite H in H1.
  destruct (snd (reading (S (length (p ++ q))) opn p)); congruence.
Qed.

(** What a peer shows of a prefix of the frames of plain sends. *)
Lemma sent_prefix m rnd pos ops p : Forall plain_send ops -> Forall (fun op => lenN (req_payload op) < 2 ^ 63) ops ->
  prefix p (frames_of m rnd pos ops) ->
  prefix (stream_reading false p) (flat_map received ops) /\ stream_ending false p = Blocked.
Proof.
  intros H1 H2 [q Hq]. destruct (keyed_history m rnd pos ops H1 H2) as (A & B & C).
  destruct (stream_wires _ false [] A) as [S1 S2]. rewrite app_nil_r, <- frames_of_keyed, Hq in S1, S2. rewrite B, C in *.
  destruct (stream_reading_nil false) as [N1 N2]. rewrite N1, app_nil_r in S1. rewrite N2 in S2.
  split; [rewrite <- S1; apply stream_trunc|]. eapply stream_trunc_blocked. exact S2.
Qed.
Lemma sent_whole m rnd pos ops : Forall plain_send ops -> Forall (fun op => lenN (req_payload op) < 2 ^ 63) ops ->
  stream_reading false (frames_of m rnd pos ops) = flat_map received ops /\ stream_ending false (frames_of m rnd pos ops) = Blocked.
Proof.
  intros H1 H2. destruct (keyed_history m rnd pos ops H1 H2) as (A & B & C).
  destruct (stream_wires _ false [] A) as [S1 S2]. rewrite app_nil_r, <- frames_of_keyed in S1, S2. rewrite B, C in *.
  destruct (stream_reading_nil false) as [N1 N2]. rewrite N1, app_nil_r in S1. rewrite N2 in S2. auto.
Qed.
Lemma obs_replies_app lim a : forall acc b, exists more, obs_replies lim acc (a ++ b) = obs_replies lim acc a ++ more.
Proof.
  induction a as [|o a IH]; intros acc b; [exists (obs_replies lim acc b); reflexivity|]. cbn [app obs_replies].
  destruct o as [op c|op|p|p|c p]; [apply IH| | |apply IH|].
  - destruct (IH [] b) as [more ->]. exists more. now rewrite app_assoc.
  - destruct (IH acc b) as [more ->]. exists more. now rewrite app_assoc.
  - destruct (IH acc b) as [more ->]. exists more. now rewrite app_assoc.
Qed.
Lemma answers_plain lim ops : lim < 2 ^ 31 - 2 -> Forall (echoable lim) ops ->
  Forall plain_send (flat_map answer ops) /\ Forall (fun op => lenN (req_payload op) < 2 ^ 63) (flat_map answer ops).
Proof.
  intros Hlim. assert (2 ^ 31 < 2 ^ 63) by reflexivity.
  induction 1 as [|op r [Hp Hl] _ [IH1 IH2]]; [split; constructor|]. cbn [flat_map]. split; apply Forall_app; (split; [|assumption]).
  - destruct op; cbn in *; repeat constructor; assumption.
  - destruct op; cbn in *; repeat constructor; unfold req_payload; cbn; lia.
Qed.
Lemma echo_user lim : lim < 2 ^ 31 - 2 -> user_react (SpecReply.echo lim) /\ no_use (SpecReply.echo lim).
Proof.
  intros Hlim. split; intros l log; destruct (echo_cmds lim l log Hlim) as [->|(op & -> & _)]; repeat constructor; discriminate.
Qed.

(** * One endpoint: a listening coroutine fed with a prefix of the frames of plain sends never stops listening *)
Lemma fed_going react w evs st c :
  idle w -> user_react react -> polite_react react -> no_use react -> clean (arrivals evs) ->
  stream_ending false (bytes_of (arrivals evs)) = Blocked ->
  run react evs (ARun, start_listen w) = (st, c) -> st = ARun \/ st = AWait.
Proof.
  intros (Hin & Hout & Hlog & Hh & Hl & Hla & Hb) Hu Hp Hn Hc He E.
  assert (open_of (w_sock w) = false) as Ho by (unfold open_of; rewrite Hla; reflexivity).
  destruct (C53_delivery react w evs Hl Hu) as [n H].
  { split; [cbn; rewrite Hin; exact Hc|]. split; [exact Hh|]. split; [exact Hp|]. split; [|split; [exact Hb|now left]].
    intros l log. specialize (Hu l log). clear - Hu. induction Hu as [|x r Hx _ IH]; [reflexivity|]. cbn. rewrite IH. destruct x; cbn in *; try contradiction; reflexivity. }
  assert (st <> ARun -> st <> AWait -> st = AUb UbDangling) as Hst.
  { intros H1 H2. assert (run react (evs ++ ticks n) (ARun, start_listen w) = (st, c)) as E2.
    { rewrite run_app, E. apply run_ticks_stopped. unfold going. intros [?|?]; contradiction. }
    destruct (H n (le_n _) _ _ E2) as [Hd|(new & _ & _ & _ & Hx)]; [exact Hd|].
    rewrite Hin, Ho in Hx. cbn [app] in Hx. rewrite He in Hx. destruct Hx as [Hx _]. contradiction. }
  destruct st as [| | |e|u]; [now left|now right| | |]; exfalso;
    (specialize (Hst ltac:(discriminate) ltac:(discriminate))); try discriminate Hst.
  injection Hst as ->. destruct (C31_only_way _ _ _ _ E) as (log & l & op & d & _ & Hi).
  specialize (Hn l (w_log (c_world c))). rewrite Forall_forall in Hn. exact (Hn _ Hi eq_refl).
Qed.

Lemma tx_prefix ops w n : idle w -> Forall (fits (s_mask (w_sock w))) ops ->
  (fst (run passive (ticks n) (ARun, start_sends ops w)) = ARun \/ fst (run passive (ticks n) (ARun, start_sends ops w)) = AWait \/
   fst (run passive (ticks n) (ARun, start_sends ops w)) = ADone) /\
  prefix (w_out (c_world (snd (run passive (ticks n) (ARun, start_sends ops w))))) (frames_of (s_mask (w_sock w)) (w_rnd w) (w_rpos w) ops).
Proof.
  intros Hi Hf. destruct (sends_halts ops w Hi Hf) as (c2 & Hh & Ho). destruct Hi as (Hin & _).
  destruct (run passive (ticks n) (ARun, start_sends ops w)) as [st c] eqn:E. cbn [fst snd].
  assert (io_only (w_in w)) as Hio by (rewrite Hin; constructor).
  assert (arrivals (ticks n) = []) as Ha by (clear; induction n; [reflexivity|exact IHn]).
  assert (arrive (arrivals (ticks n)) (start_sends ops w) = start_sends ops w) as Hs.
  { rewrite Ha. unfold arrive, start_sends. cbn. destruct w; cbn. now rewrite app_nil_r. }
  destruct (run_halts passive (ticks n) ARun (start_sends ops w) st c ADone c2 (or_introl eq_refl) Hio) as [[Hg Hh2]|(_ & -> & ->)];
    [rewrite Ha; constructor|exact E|rewrite Hs; exact Hh| |].
  - apply halts_grows in Hh2. destruct Hh2 as (_ & G1 & G2). split; [destruct Hg; auto|]. rewrite <- Ho. first [exact G1|exact G2].
  - split; [auto|]. rewrite Ho. apply prefix_refl.
Qed.

(** * C57 *)
Lemma watch_user : user_react watch /\ polite_react watch /\ no_use watch.
Proof. repeat split; intros l log; constructor. Qed.
Lemma prefix_firstn {A} n (a : list A) : prefix (firstn n a) a.
Proof. exists (skipn n a). symmetry. apply firstn_skipn. Qed.
Lemma frames_prefix m rnd pos a b : prefix (frames_of m rnd pos a) (frames_of m rnd pos (a ++ b)).
Proof. rewrite frames_of_app. eexists. reflexivity. Qed.

Definition tx_out (w : world) (ops : list sendop) : bytes := frames_of (s_mask (w_sock w)) (w_rnd w) (w_rpos w) ops.

Lemma srv_invariant lim ops ws evs m rnd pos : lim < 2 ^ 31 - 2 -> Forall (echoable lim) ops ->
  Forall (fun op => lenN (req_payload op) < 2 ^ 63) ops -> idle ws ->
  clean (arrivals evs) -> prefix (bytes_of (arrivals evs)) (frames_of m rnd pos ops) ->
  forall st c, run (SpecReply.echo lim) evs (ARun, start_listen ws) = (st, c) ->
  going st /\ prefix (transcript (w_log (c_world c))) (flat_map received ops) /\
  prefix (w_out (c_world c)) (tx_out ws (flat_map answer ops)).
Proof.
  intros Hlim Hops H63 Hi Hc Hb st c E. destruct (echo_user lim Hlim) as [Hu Hn].
  assert (Forall plain_send ops) as Hpl by (eapply Forall_impl; [|exact Hops]; intros op []; assumption).
  destruct (sent_prefix _ _ _ _ _ Hpl H63 Hb) as [P1 P2].
  pose proof Hi as (Hin & Hout & Hlog & Hh & Hl & Hla & Hbuf).
  assert (io_only (w_in ws)) as Hio by (rewrite Hin; constructor).
  split; [eapply fed_going; try eassumption; now apply echo_polite|].
  assert (open_of (w_sock ws) = false) as Ho by (unfold open_of; rewrite Hla; reflexivity).
  destruct (C53_only_a_prefix _ _ _ _ _ Hl Hio (clean_io_only _ Hc) Hu (or_introl Hla) E) as (new & N1 & _ & N3).
  rewrite Hlog in N1. cbn [app] in N1. rewrite Hin, Ho in N3. cbn [app] in N3.
  assert (prefix (transcript new) (flat_map received ops)) as HT by (eapply prefix_trans; eassumption).
  split; [rewrite N1; exact HT|].
  destruct (C56_replies _ (SpecReply.echo lim) ws evs st c Hl Hio (clean_io_only _ Hc) Hu eq_refl (polite_mask _ _ (echo_polite _ Hlim)) Hh E)
    as (new' & N1' & R1 & _).
  rewrite Hlog, N1 in N1'. cbn [app] in N1'. subst new'. rewrite Hout, Hlog in R1. cbn [app] in R1.
  eapply prefix_trans; [exact R1|]. rewrite echo_obs. cbn [collect fold_left].
  destruct HT as [t Ht]. destruct (obs_replies_app lim (transcript new) [] t) as [more Hm]. rewrite <- Ht in Hm.
  rewrite <- (app_nil_r (flat_map received ops)), obs_replies_received in Hm by exact Hops. cbn [obs_replies] in Hm. rewrite app_nil_r in Hm.
  unfold tx_out. rewrite Hm. apply frames_prefix.
Qed.

(** At any time, in any interleaving of the three coroutines and the network: nobody has failed, the server has been
    shown a beginning of what was sent, the client a beginning of the answers to it. *)
Theorem C57_any_time : forall lim ops wt ws wr evs s,
  lim < 2 ^ 31 - 2 -> Forall (echoable lim) ops -> Forall (fits (s_mask (w_sock wt))) ops ->
  idle wt -> idle ws -> idle wr ->
  nrun (SpecReply.echo lim) watch evs (net_start ops wt ws wr) = s ->
  (fst (n_tx s) = ARun \/ fst (n_tx s) = AWait \/ fst (n_tx s) = ADone) /\
  (fst (n_srv s) = ARun \/ fst (n_srv s) = AWait) /\ (fst (n_rx s) = ARun \/ fst (n_rx s) = AWait) /\
  prefix (transcript (w_log (c_world (snd (n_srv s))))) (flat_map received ops) /\
  prefix (transcript (w_log (c_world (snd (n_rx s))))) (flat_map received (flat_map answer ops)).
Proof.
  intros lim ops wt ws wr evs s Hlim Hops Hf It Is Ir Es.
  assert (driven (SpecReply.echo lim) watch ops wt ws wr s) as (n & e2 & e3 & D1 & D2 & D3 & D4 & D5 & D6 & D7 & D8 & D9).
  { rewrite <- Es. apply driven_run, driven_start. }
  destruct (tx_prefix ops wt n It Hf) as [T1 T2]. rewrite <- D1 in T1, T2.
  assert (Forall (fun op => lenN (req_payload op) < 2 ^ 63) ops) as H63 by (eapply Forall_impl; [|exact Hf]; intros op []; assumption).
  assert (prefix (bytes_of (arrivals e2)) (tx_out wt ops)) as HB.
  { rewrite D8. eapply prefix_trans; [apply prefix_firstn|exact T2]. }
  destruct (n_srv s) as [st2 c2] eqn:S2. destruct (n_rx s) as [st3 c3] eqn:S3. cbn [fst snd] in *.
  symmetry in D2, D3.
  destruct (srv_invariant lim ops ws e2 _ _ _ Hlim Hops H63 Is D4 HB st2 c2 D2) as (G1 & G2 & G3).
  destruct (answers_plain lim ops Hlim Hops) as [A1 A2].
  assert (prefix (bytes_of (arrivals e3)) (tx_out ws (flat_map answer ops))) as HB3.
  { rewrite D9. eapply prefix_trans; [apply prefix_firstn|exact G3]. }
  destruct (sent_prefix _ _ _ _ _ A1 A2 HB3) as [P1 P2].
  destruct watch_user as (U1 & U2 & U3).
  split; [exact T1|]. split; [exact G1|].
  split; [apply (fed_going watch wr e3 st3 c3 Ir U1 U2 U3 D5 P2 D3)|]. split; [exact G2|].
  destruct Ir as (Hin & Hout & Hlog & Hh & Hl & Hla & Hbuf).
  assert (open_of (w_sock wr) = false) as Ho by (unfold open_of; rewrite Hla; reflexivity).
  destruct (C53_only_a_prefix watch wr e3 st3 c3 Hl) as (new & N1 & _ & N3);
    [rewrite Hin; constructor|now apply clean_io_only|exact U1|now left|exact D3|].
  rewrite Hlog in N1. cbn [app] in N1. rewrite N1. rewrite Hin, Ho in N3. cbn [app] in N3. eapply prefix_trans; eassumption.
Qed.
Print Assumptions C57_any_time.

(** * Fair schedules *)
Fixpoint cnt (f : nat -> nev) (k : nat) (n : nat) : nat :=
  match n with O => 0%nat | S n => (cnt f k n + if Nat.eqb (kind (f n)) k then 1 else 0)%nat end.
Lemma cnt_mono f k a b : (a <= b)%nat -> (cnt f k a <= cnt f k b)%nat.
Proof. induction 1 as [|b _ IH]; [lia|]. cbn. lia. Qed.
Lemma fair_cnt f k M : fair f -> (k < 5)%nat -> exists N, forall n, (N <= n)%nat -> (M <= cnt f k n)%nat.
Proof.
  intros Hf Hk. induction M as [|M [N IH]]; [exists 0%nat; lia|].
  destruct (Hf k Hk N) as (m & Hm & Hkm). exists (S m). intros n Hn. pose proof (cnt_mono f k (S m) n Hn) as H.
  cbn [cnt] in H. rewrite Hkm, Nat.eqb_refl in H. specialize (IH m Hm). lia.
Qed.
Lemma fair_fills f k (g : nat -> nat) L N0 : fair f -> (k < 5)%nat ->
  (forall n, (N0 <= n)%nat -> (g n <= L)%nat /\ (g n <= g (S n))%nat /\ (kind (f n) = k -> g n < L -> g n < g (S n))%nat) ->
  exists N, (N0 <= N)%nat /\ forall n, (N <= n)%nat -> g n = L.
Proof.
  intros Hf Hk Hg.
  assert (forall M, (M <= L)%nat -> exists N, (N0 <= N)%nat /\ forall n, (N <= n)%nat -> (M <= g n)%nat) as H.
  { assert (forall a b, (N0 <= a)%nat -> (a <= b)%nat -> (g a <= g b)%nat) as Hm.
    { intros a b Ha Hab. induction Hab as [|b Hab IH]; [lia|]. destruct (Hg b ltac:(lia)) as (_ & H & _). lia. }
    induction M as [|M IH]; intros HM; [exists N0; split; [lia|]; intros; lia|].
    destruct IH as (N & HN & IH); [lia|]. destruct (Hf k Hk N) as (m & Hm1 & Hkm). exists (S m). split; [lia|].
    intros n Hn. pose proof (Hm (S m) n ltac:(lia) Hn) as H1. destruct (Hg m ltac:(lia)) as (_ & H2 & H3). specialize (IH m Hm1). specialize (H3 Hkm). lia. }
  destruct (H L (le_n _)) as (N & HN & H1). exists N. split; [exact HN|]. intros n Hn. specialize (H1 n Hn).
  destruct (Hg n ltac:(lia)) as (H2 & _). lia.
Qed.

Lemma upto_S f n : upto f (S n) = upto f n ++ [f n].
Proof. unfold upto. rewrite seq_S, map_app. reflexivity. Qed.
Lemma nrun_S rs rx f n s : nrun rs rx (upto f (S n)) s = nstep rs rx (nrun rs rx (upto f n) s) (f n).
Proof. rewrite upto_S. unfold nrun. rewrite fold_left_app. reflexivity. Qed.
Lemma segment_empty k d out : d = length out -> segment k d out = [].
Proof. intros ->. unfold segment. rewrite skipn_all. apply firstn_nil. Qed.
Lemma segment_pos k d out : (d < length out)%nat -> (0 < length (segment k d out))%nat.
Proof. intros H. unfold segment. rewrite firstn_length, skipn_length. lia. Qed.

Section Fair.
Variables (rs rx : react_t) (f : nat -> nev) (s0 : net).
Let s (n : nat) : net := nrun rs rx (upto f n) s0.

Lemma fair_tx n : n_tx (s n) = run passive (ticks (cnt f 0 n)) (n_tx s0).
Proof.
  induction n as [|n IH]; [reflexivity|]. unfold s in *. rewrite nrun_S. cbn [cnt].
  destruct (f n); cbn [nstep n_tx kind Nat.eqb]; rewrite ?Nat.add_0_r; try exact IH.
  rewrite Nat.add_1_r, ticks_S, run_tick_end, IH. reflexivity.
Qed.
Lemma fair_srv N : (forall n, (N <= n)%nat -> n_up (s n) = length (w_out (c_world (snd (n_tx (s n)))))) ->
  forall n, (N <= n)%nat -> n_srv (s n) = run rs (ticks (cnt f 1 n - cnt f 1 N)) (n_srv (s N)).
Proof.
  intros H n Hn. induction Hn as [|n Hn IH]; [rewrite Nat.sub_diag; reflexivity|]. pose proof (H n Hn) as Hu. unfold s in *. rewrite nrun_S. cbn [cnt].
  pose proof (cnt_mono f 1 N n Hn) as Hc.
  destruct (f n); cbn [nstep n_srv kind Nat.eqb]; rewrite ?Nat.add_0_r; try exact IH.
  - replace (cnt f 1 n + 1 - cnt f 1 N)%nat with (S (cnt f 1 n - cnt f 1 N))%nat by lia. rewrite ticks_S, run_tick_end, IH. reflexivity.
  - rewrite segment_empty by exact Hu. exact IH.
Qed.
Lemma fair_rx N : (forall n, (N <= n)%nat -> n_down (s n) = length (w_out (c_world (snd (n_srv (s n)))))) ->
  forall n, (N <= n)%nat -> n_rx (s n) = run rx (ticks (cnt f 2 n - cnt f 2 N)) (n_rx (s N)).
Proof.
  intros H n Hn. induction Hn as [|n Hn IH]; [rewrite Nat.sub_diag; reflexivity|]. pose proof (H n Hn) as Hu. unfold s in *. rewrite nrun_S. cbn [cnt].
  pose proof (cnt_mono f 2 N n Hn) as Hc.
  destruct (f n); cbn [nstep n_rx kind Nat.eqb]; rewrite ?Nat.add_0_r; try exact IH.
  - replace (cnt f 2 n + 1 - cnt f 2 N)%nat with (S (cnt f 2 n - cnt f 2 N))%nat by lia. rewrite ticks_S, run_tick_end, IH. reflexivity.
  - rewrite segment_empty by exact Hu. exact IH.
Qed.
Lemma fair_up N0 F : fair f -> (forall n, (N0 <= n)%nat -> w_out (c_world (snd (n_tx (s n)))) = F /\ (n_up (s n) <= length F)%nat) ->
  exists N, (N0 <= N)%nat /\ forall n, (N <= n)%nat -> n_up (s n) = length F.
Proof.
  intros Hf H. apply (fair_fills f 3 (fun n => n_up (s n)) (length F) N0 Hf); [lia|]. intros n Hn. destruct (H n Hn) as [H1 H2].
  split; [exact H2|]. unfold s in *. rewrite nrun_S. destruct (f n); cbn [nstep n_up kind]; split; try lia.
  intros _ Hl. rewrite H1. pose proof (segment_pos k (n_up (nrun rs rx (upto f n) s0)) F Hl). lia.
Qed.
Lemma fair_down N0 F : fair f -> (forall n, (N0 <= n)%nat -> w_out (c_world (snd (n_srv (s n)))) = F /\ (n_down (s n) <= length F)%nat) ->
  exists N, (N0 <= N)%nat /\ forall n, (N <= n)%nat -> n_down (s n) = length F.
Proof.
  intros Hf H. apply (fair_fills f 4 (fun n => n_down (s n)) (length F) N0 Hf); [lia|]. intros n Hn. destruct (H n Hn) as [H1 H2].
  split; [exact H2|]. unfold s in *. rewrite nrun_S. destruct (f n); cbn [nstep n_down kind]; split; try lia.
  intros _ Hl. rewrite H1. pose proof (segment_pos k (n_down (nrun rs rx (upto f n) s0)) F Hl). lia.
Qed.
End Fair.

(** One listening coroutine, all of whose input has arrived. *)
Lemma fed_finishes_gen react w evs F R : idle w -> user_react react -> polite_react react -> no_use react ->
  clean (arrivals evs) -> stream_reading false F = R -> stream_ending false F = Blocked ->
  (exists l, s_listener (w_sock w) = Some l) -> bytes_of (arrivals evs) = F ->
  exists n, forall k, (n <= k)%nat -> forall st c, run react (evs ++ ticks k) (ARun, start_listen w) = (st, c) ->
  st = AWait /\ transcript (w_log (c_world c)) = R /\
  w_out (c_world c) = tx_out w (replies react [] (w_log (c_world c))).
Proof.
  intros (Hin & Hout & Hlog & Hh & Hl & Hla & Hb) Hu Hp Hn Hc S1 S2 [l0 Hls] Hby.
  assert (open_of (w_sock w) = false) as Ho by (unfold open_of; rewrite Hla; reflexivity).
  assert (io_only (w_in w)) as Hio by (rewrite Hin; constructor).
  destruct (C53_delivery react w evs Hl Hu) as [n1 H1].
  { split; [cbn; rewrite Hin; exact Hc|]. split; [exact Hh|]. split; [exact Hp|]. split; [|split; [exact Hb|now left]].
    intros l log. specialize (Hu l log). clear - Hu. induction Hu as [|x r Hx _ IH]; [reflexivity|]. cbn. rewrite IH. destruct x; cbn in *; try contradiction; reflexivity. }
  destruct (C56_completion _ react w evs Hl Hio (clean_io_only _ Hc) Hu Hn eq_refl (polite_mask _ _ Hp) Hh) as [n2 H2].
  exists (n1 + n2)%nat. intros k Hk st c E.
  destruct (H1 k ltac:(lia) st c E) as [-> |(new & N1 & _ & N3 & N4)].
  { exfalso. destruct (C31_only_way _ _ _ _ E) as (log & l & op & d & _ & Hi).
    specialize (Hn l (w_log (c_world c))). rewrite Forall_forall in Hn. exact (Hn _ Hi eq_refl). }
  destruct (H2 k ltac:(lia) st c E) as (new' & N1' & RR). rewrite Hlog in N1, N1'. cbn [app] in N1, N1'. subst new'. rewrite N1 in RR.
  rewrite Hin, Ho in N3, N4. cbn [app] in N3, N4. rewrite Hby in N3, N4. rewrite S2 in N4. rewrite S1 in N3. unfold seen in N3. rewrite Hls in N3.
  rewrite N1. split; [apply N4|]. split; [exact N3|]. rewrite Hout, Hlog in RR. exact RR.
Qed.

Lemma fed_finishes react w evs m rnd pos ops : idle w -> user_react react -> polite_react react -> no_use react ->
  clean (arrivals evs) -> Forall plain_send ops -> Forall (fun op => lenN (req_payload op) < 2 ^ 63) ops ->
  (exists l, s_listener (w_sock w) = Some l) -> bytes_of (arrivals evs) = frames_of m rnd pos ops ->
  exists n, forall k, (n <= k)%nat -> forall st c, run react (evs ++ ticks k) (ARun, start_listen w) = (st, c) ->
  st = AWait /\ transcript (w_log (c_world c)) = flat_map received ops /\
  w_out (c_world c) = tx_out w (replies react [] (w_log (c_world c))).
Proof.
  intros Hi Hu Hp Hn Hc Hpl H63 Hls Hby. destruct (sent_whole m rnd pos ops Hpl H63) as [S1 S2].
  exact (fed_finishes_gen react w evs _ _ Hi Hu Hp Hn Hc S1 S2 Hls Hby).
Qed.

(** If every coroutine and both directions of the network keep going, in whatever order: after finitely many steps, and
    from then on, the client's sends are done, the server has been shown exactly the messages sent, the client exactly
    the answers. *)
Theorem C57_fair : forall lim ops wt ws wr f,
  lim < 2 ^ 31 - 2 -> Forall (echoable lim) ops -> Forall (fits (s_mask (w_sock wt))) ops ->
  idle wt -> idle ws -> idle wr -> (exists ls, s_listener (w_sock ws) = Some ls) -> (exists ll, s_listener (w_sock wr) = Some ll) -> fair f ->
  exists N, forall n, (N <= n)%nat -> forall s, nrun (SpecReply.echo lim) watch (upto f n) (net_start ops wt ws wr) = s ->
  fst (n_tx s) = ADone /\ fst (n_srv s) = AWait /\ fst (n_rx s) = AWait /\
  transcript (w_log (c_world (snd (n_srv s)))) = flat_map received ops /\
  transcript (w_log (c_world (snd (n_rx s)))) = flat_map received (flat_map answer ops).
Proof.
  intros lim ops wt ws wr f Hlim Hops Hf It Is Ir Ls Lr Hfair.
  set (rs := SpecReply.echo lim). set (s0 := net_start ops wt ws wr). set (S := fun n => nrun rs watch (upto f n) s0).
  assert (Forall plain_send ops) as Hpl by (eapply Forall_impl; [|exact Hops]; intros op []; assumption).
  assert (Forall (fun op => lenN (req_payload op) < 2 ^ 63) ops) as H63 by (eapply Forall_impl; [|exact Hf]; intros op []; assumption).
  destruct (answers_plain lim ops Hlim Hops) as [A1 A2]. destruct (echo_user lim Hlim) as [Eu En]. destruct watch_user as (U1 & U2 & U3).
  assert (forall n, driven rs watch ops wt ws wr (S n)) as HD by (intros n; apply driven_run, driven_start).
  (* the sends *)
  destruct (sends_halts ops wt It Hf) as (ct & Hh & Ho). fold (tx_out wt ops) in Ho.
  destruct (halts_ticks _ _ _ _ Hh) as [nt Hnt]; [destruct It as (Hin & _); cbn [start_sends c_world]; rewrite Hin; constructor|].
  destruct (fair_cnt f 0 nt Hfair ltac:(lia)) as [N1 HN1].
  assert (forall n, (N1 <= n)%nat -> n_tx (S n) = (ADone, ct)) as Htx.
  { intros n Hn. unfold S. rewrite fair_tx. cbn [s0 net_start n_tx]. apply Hnt; [now apply HN1|now left]. }
  (* upstream *)
  destruct (fair_up rs watch f s0 N1 (tx_out wt ops) Hfair) as (N2 & HN12 & HN2).
  { intros n Hn. fold (S n). rewrite (Htx n Hn). cbn [snd]. split; [exact Ho|].
    destruct (HD n) as (_ & _ & _ & _ & _ & _ & _ & _ & H & _). rewrite (Htx n Hn) in H. cbn [snd] in H. rewrite Ho in H. exact H. }
  (* the server *)
  destruct (HD N2) as (_ & e2 & _ & _ & D2 & _ & D4 & _ & _ & _ & D8 & _).
  rewrite (Htx N2 HN12) in D8. cbn [snd] in D8. rewrite Ho in D8. unfold S in D8. rewrite (HN2 N2 (le_n _)), firstn_all in D8.
  destruct (fed_finishes rs ws e2 _ _ _ ops Is Eu (echo_polite _ Hlim) En D4 Hpl H63 Ls D8) as [ns Hns].
  assert (exists N3, (N2 <= N3)%nat /\ forall n, (N3 <= n)%nat ->
    fst (n_srv (S n)) = AWait /\ transcript (w_log (c_world (snd (n_srv (S n))))) = flat_map received ops /\
    w_out (c_world (snd (n_srv (S n)))) = tx_out ws (flat_map answer ops)) as (N3 & HN23 & HN3).
  { destruct (fair_cnt f 1 (ns + cnt f 1 N2) Hfair ltac:(lia)) as [N3 HN3]. exists (Nat.max N2 N3). split; [lia|]. intros n Hn.
    pose proof (fair_srv rs watch f s0 N2) as HS. cbv zeta beta in HS. specialize (HS ltac:(intros n' Hn'; rewrite (HN2 n' Hn'); fold (S n'); rewrite (Htx n' ltac:(lia)); cbn [snd]; now rewrite Ho) n ltac:(lia)).
    fold (S n) in HS. fold (S N2) in HS. rewrite D2, <- run_app in HS. destruct (n_srv (S n)) as [st c]. symmetry in HS.
    apply Hns in HS; [|specialize (HN3 n ltac:(lia)); lia]. destruct HS as (H1 & H2 & H3). cbn [fst snd]. split; [exact H1|]. split; [exact H2|].
    rewrite H3. unfold rs. rewrite echo_obs. cbn [collect fold_left]. rewrite H2.
    rewrite <- (app_nil_r (flat_map received ops)), obs_replies_received by exact Hops. cbn [obs_replies]. now rewrite app_nil_r. }
  (* downstream *)
  destruct (fair_down rs watch f s0 N3 (tx_out ws (flat_map answer ops)) Hfair) as (N4 & HN34 & HN4).
  { intros n Hn. fold (S n). destruct (HN3 n Hn) as (_ & _ & H). split; [exact H|].
    destruct (HD n) as (_ & _ & _ & _ & _ & _ & _ & _ & _ & H' & _). now rewrite H in H'. }
  (* the client *)
  destruct (HD N4) as (_ & _ & e3 & _ & _ & D3 & _ & D5 & _ & _ & _ & D9).
  destruct (HN3 N4 HN34) as (_ & _ & Hso). rewrite Hso in D9. unfold S in D9. rewrite (HN4 N4 (le_n _)), firstn_all in D9.
  destruct (fed_finishes watch wr e3 _ _ _ _ Ir U1 U2 U3 D5 A1 A2 Lr D9) as [nr Hnr].
  destruct (fair_cnt f 2 (nr + cnt f 2 N4) Hfair ltac:(lia)) as [N5 HN5].
  exists (Nat.max N4 N5). intros n Hn s Es. change (S n = s) in Es.
  rewrite <- Es, (Htx n ltac:(lia)). destruct (HN3 n ltac:(lia)) as (B1 & B2 & _).
  pose proof (fair_rx rs watch f s0 N4) as HS. cbv zeta beta in HS.
  specialize (HS ltac:(intros n' Hn'; rewrite (HN4 n' Hn'); destruct (HN3 n' ltac:(lia)) as (_ & _ & H); fold (S n'); now rewrite H) n ltac:(lia)).
  fold (S n) in HS. fold (S N4) in HS. rewrite D3, <- run_app in HS. destruct (n_rx (S n)) as [st c]. symmetry in HS.
  apply Hnr in HS; [|specialize (HN5 n ltac:(lia)); lia]. destruct HS as (H1 & H2 & _). cbn [fst snd]. auto 6.
Qed.
Print Assumptions C57_fair.

(** Three messages over a network that delivers two bytes at a time, everybody in turn. *)
Definition round_robin (n : nat) : nev := match Nat.modulo n 5 with 0 => TickTx | 1 => TickSrv | 2 => TickRx | 3 => Up 1 | _ => Down 1 end%nat.
Example C57_nonvacuous :
  let ops := [SoText (Some [x68; x69]); SoPing (Some [x70]); SoBinary (Some [x01])] in
  let wt := demo_client [WAccept 3; WIo IoRetry] in
  let ws := aworld [] [WIo IoRetry; WAccept 1] in
  let wr := aworld [] [] in
  Forall (echoable 50) ops /\ Forall (fits true) ops /\ idle wt /\ idle ws /\ idle wr /\ fair round_robin /\
  map snd (w_log (c_world (snd (n_rx (nrun (SpecReply.echo 50) watch (upto round_robin 500) (net_start ops wt ws wr)))))) =
    [EvMsg 1 [x68; x69]; EvEnd 1; EvPong [x70]; EvMsg 2 [x01]; EvEnd 2].
Proof.
  cbv zeta. split; [repeat constructor; vm_compute; discriminate|]. split; [repeat constructor; vm_compute; discriminate|].
  split; [repeat constructor|]. split; [repeat constructor|]. split; [repeat constructor|].
  split.
  { intros k Hk n. exists (5 * n + k)%nat. split; [lia|]. unfold round_robin. replace (Nat.modulo (5 * n + k) 5) with k.
    - destruct k as [|[|[|[|[|k]]]]]; try reflexivity. lia.
    - rewrite Nat.add_comm, Nat.mul_comm, Nat.mod_add by lia. symmetry. now apply Nat.mod_small. }
  vm_compute. reflexivity.
Qed.
