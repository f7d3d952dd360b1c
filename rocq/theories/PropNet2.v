(** Property theorems: C59, the closing handshake of asynchronous endpoints over a network. *)
From Verif Require Import Bytes Frame World WebSocket AsyncWebSocket SpecFrame SpecSend SpecListen SpecApi SpecReply SpecAsync SpecNet
  ProofFrame ProofStream ProofSend ProofCodec ProofHeader ProofListen ProofReading ProofApi ProofInv ProofHistory ProofProps
  ProofAsync ProofAsync2 ProofAsync3 PropListen PropListen2 PropReply PropAsync PropAsync2 PropAsync3 PropNet.
From Coq Require Import ZifyBool ZifyNat ZifyN.
Local Open Scope N_scope.
Local Arguments takeN : simpl never.
Local Arguments dropN : simpl never.
Local Arguments lenN : simpl never.
Local Arguments be_enc : simpl never.
Local Arguments be_dec : simpl never.
Notation step := AsyncWebSocket.step.

(** The frames of plain sends and a Close. *)
Lemma closing_whole m rnd pos ops opc code reason : Forall plain_send ops -> Forall (fun op => lenN (req_payload op) < 2 ^ 63) ops ->
  close_request opc code reason ->
  stream_reading false (frames_of m rnd pos (ops ++ [opc])) = flat_map received ops ++ [OClose code reason] /\
  stream_ending false (frames_of m rnd pos (ops ++ [opc])) = Closed [].
Proof.
  intros H1 H2 Hcl. destruct (keyed_history m rnd pos ops H1 H2) as (A & B & C).
  set (k := key_at m rnd (pos + used m * length ops)).
  destruct (close_frame opc code reason k Hcl) as (Hlen & Hfr & Hobs).
  rewrite frames_of_app. cbn [frames_of]. fold k. rewrite app_nil_r. rewrite frames_of_keyed.
  destruct (stream_wires _ false (sent_wire k opc) A) as [S1 S2]. rewrite S1, S2, B, C.
  set (fc := RFrame true false false false 8 k (req_payload opc)) in *.
  assert (reading 1 false (sent_wire k opc) = ([OClose code reason], Closed [])) as HR.
  { unfold sent_wire. rewrite Hfr. change (req_payload opc) with (f_payload fc). rewrite <- (app_nil_r (wire _ fc)). rewrite reading_wire.
    - cbn [f_opcode fc N.eqb Pos.eqb]. unfold frame_shown, shown. cbn [f_opcode f_payload fc]. now rewrite Hobs.
    - cbn. lia.
    - apply lform_min_ok. cbn [f_payload fc]. lia.
    - cbn. unfold eff_len. destruct (_ <? _); lia. }
  destruct (reading_whole 1 false (sent_wire k opc)) as [R1 R2]; [now rewrite HR|]. rewrite HR in R1, R2. cbn [fst snd] in R1, R2.
  rewrite <- R1, <- R2. auto.
Qed.
Lemma stream_trunc_closed opn p q : stream_ending opn (p ++ q) = Closed [] -> stream_ending opn p = Blocked \/ stream_ending opn p = Closed [].
Proof.
  intros H. unfold stream_ending in *.
  assert (snd (reading (S (length (p ++ q))) opn p) = snd (reading (S (length p)) opn p)) as <-.
  { pose proof (stream_enough (S (length (p ++ q))) opn p) as H1. rewrite app_length in *. specialize (H1 ltac:(lia)).
    rewrite H1. reflexivity. }
  pose proof (reading_trunc_end (S (length (p ++ q))) opn p q) as H1. rewrite H in H1.
  destruct (snd (reading (S (length (p ++ q))) opn p)) as [|r|r|r]; try congruence; try (now left).
  right. injection H1 as H1. symmetry in H1. apply app_eq_nil in H1. now destruct H1 as [-> _].
Qed.

(** A listening coroutine fed with a stream that ends in a Close: never fails. *)
Definition calm_status (st : status) : Prop := st = ARun \/ st = AWait \/ st = ADone.
Lemma fed_calm react w evs st c :
  idle w -> user_react react -> polite_react react -> no_use react -> clean (arrivals evs) ->
  stream_ending false (bytes_of (arrivals evs)) = Blocked \/ stream_ending false (bytes_of (arrivals evs)) = Closed [] ->
  run react evs (ARun, start_listen w) = (st, c) -> calm_status st.
Proof.
  intros (Hin & Hout & Hlog & Hh & Hl & Hla & Hb) Hu Hp Hn Hc He E.
  assert (open_of (w_sock w) = false) as Ho by (unfold open_of; rewrite Hla; reflexivity).
  destruct (C53_delivery react w evs Hl Hu) as [n H].
  { split; [cbn; rewrite Hin; exact Hc|]. split; [exact Hh|]. split; [exact Hp|]. split; [|split; [exact Hb|now left]].
    intros l log. specialize (Hu l log). clear - Hu. induction Hu as [|x r Hx _ IH]; [reflexivity|]. cbn. rewrite IH. destruct x; cbn in *; try contradiction; reflexivity. }
  unfold calm_status.
  assert (st <> ARun -> st <> AWait -> st = AUb UbDangling \/ st = ADone) as Hst.
  { intros H1 H2. assert (run react (evs ++ ticks n) (ARun, start_listen w) = (st, c)) as E2.
    { rewrite run_app, E. apply run_ticks_stopped. unfold going. intros [?|?]; contradiction. }
    destruct (H n (le_n _) _ _ E2) as [Hd|(new & _ & _ & _ & Hx)]; [now left|].
    rewrite Hin, Ho in Hx. cbn [app] in Hx. destruct He as [He|He]; rewrite He in Hx; destruct Hx as [Hx _]; [contradiction|now right]. }
  destruct st as [| | |e|u]; auto; exfalso;
    (destruct (Hst ltac:(discriminate) ltac:(discriminate)) as [Hx|Hx]); try discriminate Hx.
  injection Hx as ->. destruct (C31_only_way _ _ _ _ E) as (log & l & op & d & _ & Hi).
  specialize (Hn l (w_log (c_world c))). rewrite Forall_forall in Hn. exact (Hn _ Hi eq_refl).
Qed.
Lemma idle_open w : idle w -> open_of (w_sock w) = false.
Proof. intros (_ & _ & _ & _ & _ & Hla & _). unfold open_of. rewrite Hla. reflexivity. Qed.
Lemma fed_shown react w evs st c : idle w -> user_react react -> clean (arrivals evs) ->
  run react evs (ARun, start_listen w) = (st, c) ->
  prefix (transcript (w_log (c_world c))) (stream_reading false (bytes_of (arrivals evs))).
Proof.
  intros Hi Hu Hc E. pose proof (idle_open w Hi) as Ho. destruct Hi as (Hin & Hout & Hlog & Hh & Hl & Hla & Hb).
  destruct (C53_only_a_prefix react w evs st c Hl) as (new & N1 & _ & N3);
    [rewrite Hin; constructor|now apply clean_io_only|exact Hu|now left|exact E|].
  rewrite Hlog in N1. cbn [app] in N1. rewrite N1. rewrite Hin, Ho in N3. exact N3.
Qed.
(** ... and finishes once everything has arrived. *)
Lemma fed_closes react w evs R : idle w -> user_react react -> polite_react react -> no_use react ->
  clean (arrivals evs) -> (exists l, s_listener (w_sock w) = Some l) ->
  stream_reading false (bytes_of (arrivals evs)) = R -> stream_ending false (bytes_of (arrivals evs)) = Closed [] ->
  exists n, forall k, (n <= k)%nat -> forall st c, run react (evs ++ ticks k) (ARun, start_listen w) = (st, c) ->
  st = ADone /\ transcript (w_log (c_world c)) = R /\
  w_out (c_world c) = tx_out w (replies react [] (w_log (c_world c))).
Proof.
  intros Hi Hu Hp Hn Hc [l0 Hls] S1 S2. pose proof (idle_open w Hi) as Ho. destruct Hi as (Hin & Hout & Hlog & Hh & Hl & Hla & Hb).
  assert (io_only (w_in w)) as Hio by (rewrite Hin; constructor).
  destruct (C53_delivery react w evs Hl Hu) as [n1 H1].
  { split; [cbn; rewrite Hin; exact Hc|]. split; [exact Hh|]. split; [exact Hp|]. split; [|split; [exact Hb|now left]].
    intros l log. specialize (Hu l log). clear - Hu. induction Hu as [|x r Hx _ IH]; [reflexivity|]. cbn. rewrite IH. destruct x; cbn in *; try contradiction; reflexivity. }
  destruct (C56_completion _ react w evs Hl Hio (clean_io_only _ Hc) Hu Hn eq_refl (polite_mask _ _ Hp) Hh) as [n2 H2].
  exists (n1 + n2)%nat. intros k Hk st c E.
  destruct (H1 k ltac:(lia) st c E) as [-> |(new & N1 & _ & N3 & N4)].
  { exfalso. destruct (C31_only_way _ _ _ _ E) as (log & l & op & d & _ & Hi).
    specialize (Hn l (w_log (c_world c))). rewrite Forall_forall in Hn. exact (Hn _ Hi eq_refl). }
  destruct (H2 k ltac:(lia) st c E) as (new' & N1' & R1). rewrite Hlog in N1, N1'. cbn [app] in N1, N1'. subst new'. rewrite N1 in R1.
  rewrite Hin, Ho in N3, N4. cbn [app] in N3, N4. rewrite S2 in N4. rewrite S1 in N3. unfold seen in N3. rewrite Hls in N3.
  rewrite N1. split; [apply N4|]. split; [exact N3|]. rewrite Hout, Hlog in R1. exact R1.
Qed.

(** The echo server's answer to the closing stream. *)
Lemma closing_replies lim ops code reason : Forall (echoable lim) ops -> lenN reason <= 123 ->
  obs_replies lim [] (flat_map received ops ++ [OClose code reason]) = flat_map answer ops ++ [SoClose code (Some reason)].
Proof.
  intros Hops Hr. rewrite obs_replies_received by exact Hops. cbn [obs_replies]. destruct (N.leb_spec (lenN reason) 123); [|lia]. reflexivity.
Qed.
Lemma close_small opc code reason : close_request opc code reason -> code < 65536 /\ lenN reason <= 123.
Proof. destruct opc; cbn; try contradiction; [intros (<- & _ & ? & ?); auto|]. intros [-> ->]. split; [reflexivity|discriminate]. Qed.

Section Closing.
Variables (lim : N) (ops : list sendop) (opc : sendop) (code : N) (reason : bytes) (wt ws wr : world).
Hypothesis (Hlim : lim < 2 ^ 31 - 2) (Hops : Forall (echoable lim) ops) (Hf : Forall (fits (s_mask (w_sock wt))) ops)
  (Hcl : close_request opc code reason) (It : idle wt) (Is : idle ws) (Ir : idle wr).
Let rs := SpecReply.echo lim.
Let back := flat_map answer ops ++ [SoClose code (Some reason)].

Lemma closing_fits : Forall (fits (s_mask (w_sock wt))) (ops ++ [opc]).
Proof.
  destruct (close_frame opc code reason None Hcl) as (Hlen & _). apply Forall_app. split; [exact Hf|].
  constructor; [|constructor]. split; intros; eapply N.le_lt_trans; try exact Hlen; reflexivity.
Qed.
Lemma closing_up : stream_reading false (tx_out wt (ops ++ [opc])) = flat_map received ops ++ [OClose code reason] /\
  stream_ending false (tx_out wt (ops ++ [opc])) = Closed [].
Proof.
  apply closing_whole; [| |exact Hcl].
  - eapply Forall_impl; [|exact Hops]; intros op []; assumption.
  - eapply Forall_impl; [|exact Hf]; intros op []; assumption.
Qed.
Lemma closing_down : stream_reading false (tx_out ws back) = flat_map received (flat_map answer ops) ++ [OClose code reason] /\
  stream_ending false (tx_out ws back) = Closed [].
Proof.
  destruct (answers_plain lim ops Hlim Hops) as [A1 A2]. destruct (close_small _ _ _ Hcl) as [C1 C2].
  apply closing_whole; [exact A1|exact A2|]. repeat split; assumption.
Qed.
Lemma closing_srv evs st c : clean (arrivals evs) -> prefix (bytes_of (arrivals evs)) (tx_out wt (ops ++ [opc])) ->
  run rs evs (ARun, start_listen ws) = (st, c) ->
  calm_status st /\ prefix (transcript (w_log (c_world c))) (flat_map received ops ++ [OClose code reason]) /\
  prefix (w_out (c_world c)) (tx_out ws back).
Proof.
  intros Hc [q Hq] E. destruct (echo_user lim Hlim) as [Hu Hn]. destruct closing_up as [U1 U2].
  pose proof (fed_shown rs ws evs st c Is Hu Hc E) as HS.
  split.
  { apply (fed_calm rs ws evs st c Is Hu (echo_polite _ Hlim) Hn Hc); [|exact E]. apply (stream_trunc_closed false _ q). rewrite <- Hq. exact U2. }
  assert (prefix (transcript (w_log (c_world c))) (flat_map received ops ++ [OClose code reason])) as HT.
  { eapply prefix_trans; [exact HS|]. rewrite <- U1, Hq. apply stream_trunc. }
  split; [exact HT|]. pose proof Is as (Hin & Hout & Hlog & Hh & Hl & Hla & Hb).
  assert (io_only (w_in ws)) as Hio by (rewrite Hin; constructor).
  destruct (C56_replies _ rs ws evs st c Hl Hio (clean_io_only _ Hc) Hu eq_refl (polite_mask _ _ (echo_polite _ Hlim)) Hh E)
    as (new & N1 & R1 & _).
  rewrite Hlog in N1. cbn [app] in N1. rewrite Hout, Hlog in R1. cbn [app] in R1.
  eapply prefix_trans; [exact R1|]. unfold rs. rewrite echo_obs. cbn [collect fold_left]. rewrite <- N1.
  destruct HT as [t Ht]. destruct (obs_replies_app lim (transcript (w_log (c_world c))) [] t) as [more Hm]. rewrite <- Ht in Hm.
  rewrite closing_replies in Hm by (try exact Hops; apply (close_small _ _ _ Hcl)).
  unfold tx_out. replace back with (obs_replies lim [] (transcript (w_log (c_world c))) ++ more) by (symmetry; exact Hm). apply frames_prefix.
Qed.
End Closing.

(** At any time, in any interleaving: nobody fails, the server has been shown a beginning of the messages and the Close,
    the client a beginning of the answers and the Close. *)
Theorem C59_any_time : forall lim ops opc code reason wt ws wr evs s,
  lim < 2 ^ 31 - 2 -> Forall (echoable lim) ops -> Forall (fits (s_mask (w_sock wt))) ops -> close_request opc code reason ->
  idle wt -> idle ws -> idle wr ->
  nrun (SpecReply.echo lim) watch evs (net_start (ops ++ [opc]) wt ws wr) = s ->
  Forall (fun st => st = ARun \/ st = AWait \/ st = ADone) [fst (n_tx s); fst (n_srv s); fst (n_rx s)] /\
  prefix (transcript (w_log (c_world (snd (n_srv s))))) (flat_map received ops ++ [OClose code reason]) /\
  prefix (transcript (w_log (c_world (snd (n_rx s))))) (flat_map received (flat_map answer ops) ++ [OClose code reason]).
Proof.
  intros lim ops opc code reason wt ws wr evs s Hlim Hops Hf Hcl It Is Ir Es.
  assert (driven (SpecReply.echo lim) watch (ops ++ [opc]) wt ws wr s) as (n & e2 & e3 & D1 & D2 & D3 & D4 & D5 & D6 & D7 & D8 & D9).
  { rewrite <- Es. apply driven_run, driven_start. }
  destruct (tx_prefix _ wt n It (closing_fits _ _ _ _ _ Hf Hcl)) as [T1 T2]. rewrite <- D1 in T1, T2.
  destruct (n_srv s) as [st2 c2] eqn:S2. destruct (n_rx s) as [st3 c3] eqn:S3. cbn [fst snd] in *. symmetry in D2, D3.
  destruct (closing_srv lim ops opc code reason wt ws Hlim Hops Hf Hcl Is e2 st2 c2 D4) as (G1 & G2 & G3); [|exact D2|].
  { rewrite D8. eapply prefix_trans; [apply prefix_firstn|exact T2]. }
  destruct watch_user as (U1 & U2 & U3).
  destruct (closing_down lim ops opc code reason ws Hlim Hops Hcl) as [B1 B2].
  assert (prefix (bytes_of (arrivals e3)) (tx_out ws (flat_map answer ops ++ [SoClose code (Some reason)]))) as [q Hq].
  { rewrite D9. eapply prefix_trans; [apply prefix_firstn|exact G3]. }
  assert (calm_status st3) as G4.
  { apply (fed_calm watch wr e3 st3 c3 Ir U1 U2 U3 D5); [|exact D3]. apply (stream_trunc_closed false _ q). now rewrite <- Hq. }
  split; [constructor; [exact T1|constructor; [exact G1|constructor; [exact G4|constructor]]]|]. split; [exact G2|].
  eapply prefix_trans; [exact (fed_shown watch wr e3 st3 c3 Ir U1 D5 D3)|]. rewrite <- B1, Hq. apply stream_trunc.
Qed.
Print Assumptions C59_any_time.

(** Under fairness: all three coroutines finish, and both listeners have been shown everything, onClose last. *)
Theorem C59_fair : forall lim ops opc code reason wt ws wr f,
  lim < 2 ^ 31 - 2 -> Forall (echoable lim) ops -> Forall (fits (s_mask (w_sock wt))) ops -> close_request opc code reason ->
  idle wt -> idle ws -> idle wr -> (exists ls, s_listener (w_sock ws) = Some ls) -> (exists ll, s_listener (w_sock wr) = Some ll) -> fair f ->
  exists N, forall n, (N <= n)%nat -> forall s, nrun (SpecReply.echo lim) watch (upto f n) (net_start (ops ++ [opc]) wt ws wr) = s ->
  fst (n_tx s) = ADone /\ fst (n_srv s) = ADone /\ fst (n_rx s) = ADone /\
  transcript (w_log (c_world (snd (n_srv s)))) = flat_map received ops ++ [OClose code reason] /\
  transcript (w_log (c_world (snd (n_rx s)))) = flat_map received (flat_map answer ops) ++ [OClose code reason].
Proof.
  intros lim ops opc code reason wt ws wr f Hlim Hops Hf Hcl It Is Ir Ls Lr Hfair.
  set (rs := SpecReply.echo lim). set (ops' := ops ++ [opc]). set (back := flat_map answer ops ++ [SoClose code (Some reason)]).
  set (s0 := net_start ops' wt ws wr). set (S := fun n => nrun rs watch (upto f n) s0).
  destruct (echo_user lim Hlim) as [Eu En]. destruct watch_user as (U1 & U2 & U3).
  destruct (closing_up lim ops opc code reason wt Hops Hf Hcl) as [Q1 Q2].
  destruct (closing_down lim ops opc code reason ws Hlim Hops Hcl) as [Q3 Q4]. fold ops' in Q1, Q2. fold back in Q3, Q4.
  assert (forall n, driven rs watch ops' wt ws wr (S n)) as HD by (intros n; apply driven_run, driven_start).
  (* the sends *)
  destruct (sends_halts ops' wt It (closing_fits _ _ _ _ _ Hf Hcl)) as (ct & Hh & Ho). fold (tx_out wt ops') in Ho.
  destruct (halts_ticks _ _ _ _ Hh) as [nt Hnt]; [destruct It as (Hin & _); cbn [start_sends c_world]; rewrite Hin; constructor|].
  destruct (fair_cnt f 0 nt Hfair ltac:(lia)) as [N1 HN1].
  assert (forall n, (N1 <= n)%nat -> n_tx (S n) = (ADone, ct)) as Htx.
  { intros n Hn. unfold S. rewrite fair_tx. cbn [s0 net_start n_tx]. apply Hnt; [now apply HN1|now left]. }
  (* upstream *)
  destruct (fair_up rs watch f s0 N1 (tx_out wt ops') Hfair) as (N2 & HN12 & HN2).
  { intros n Hn. fold (S n). rewrite (Htx n Hn). cbn [snd]. split; [exact Ho|].
    destruct (HD n) as (_ & _ & _ & _ & _ & _ & _ & _ & H & _). rewrite (Htx n Hn) in H. cbn [snd] in H. rewrite Ho in H. exact H. }
  (* the server *)
  destruct (HD N2) as (_ & e2 & _ & _ & D2 & _ & D4 & _ & _ & _ & D8 & _).
  rewrite (Htx N2 HN12) in D8. cbn [snd] in D8. rewrite Ho in D8. unfold S in D8. rewrite (HN2 N2 (le_n _)), firstn_all in D8.
  rewrite <- D8 in Q1, Q2.
  destruct (fed_closes rs ws e2 _ Is Eu (echo_polite _ Hlim) En D4 Ls Q1 Q2) as [ns Hns].
  assert (exists N3, (N2 <= N3)%nat /\ forall n, (N3 <= n)%nat ->
    fst (n_srv (S n)) = ADone /\ transcript (w_log (c_world (snd (n_srv (S n))))) = flat_map received ops ++ [OClose code reason] /\
    w_out (c_world (snd (n_srv (S n)))) = tx_out ws back) as (N3 & HN23 & HN3).
  { destruct (fair_cnt f 1 (ns + cnt f 1 N2) Hfair ltac:(lia)) as [N3 HN3]. exists (Nat.max N2 N3). split; [lia|]. intros n Hn.
    pose proof (fair_srv rs watch f s0 N2) as HS. cbv zeta beta in HS. specialize (HS ltac:(intros n' Hn'; rewrite (HN2 n' Hn'); fold (S n'); rewrite (Htx n' ltac:(lia)); cbn [snd]; now rewrite Ho) n ltac:(lia)).
    fold (S n) in HS. fold (S N2) in HS. rewrite D2, <- run_app in HS. destruct (n_srv (S n)) as [st c]. symmetry in HS.
    apply Hns in HS; [|specialize (HN3 n ltac:(lia)); lia]. destruct HS as (H1 & H2 & H3). cbn [fst snd]. split; [exact H1|]. split; [exact H2|].
    rewrite H3. unfold rs. rewrite echo_obs. cbn [collect fold_left]. rewrite H2.
    rewrite closing_replies by (try exact Hops; apply (close_small _ _ _ Hcl)). reflexivity. }
  (* downstream *)
  destruct (fair_down rs watch f s0 N3 (tx_out ws back) Hfair) as (N4 & HN34 & HN4).
  { intros n Hn. fold (S n). destruct (HN3 n Hn) as (_ & _ & H). split; [exact H|].
    destruct (HD n) as (_ & _ & _ & _ & _ & _ & _ & _ & _ & H' & _). now rewrite H in H'. }
  (* the client *)
  destruct (HD N4) as (_ & _ & e3 & _ & _ & D3 & _ & D5 & _ & _ & _ & D9).
  destruct (HN3 N4 HN34) as (_ & _ & Hso). rewrite Hso in D9. unfold S in D9. rewrite (HN4 N4 (le_n _)), firstn_all in D9.
  rewrite <- D9 in Q3, Q4.
  destruct (fed_closes watch wr e3 _ Ir U1 U2 U3 D5 Lr Q3 Q4) as [nr Hnr].
  destruct (fair_cnt f 2 (nr + cnt f 2 N4) Hfair ltac:(lia)) as [N5 HN5].
  exists (Nat.max N4 N5). intros n Hn s Es. change (S n = s) in Es.
  rewrite <- Es, (Htx n ltac:(lia)). destruct (HN3 n ltac:(lia)) as (B1 & B2 & _).
  pose proof (fair_rx rs watch f s0 N4) as HS. cbv zeta beta in HS.
  specialize (HS ltac:(intros n' Hn'; rewrite (HN4 n' Hn'); destruct (HN3 n' ltac:(lia)) as (_ & _ & H); fold (S n'); now rewrite H) n ltac:(lia)).
  fold (S n) in HS. fold (S N4) in HS. rewrite D3, <- run_app in HS. destruct (n_rx (S n)) as [st c]. symmetry in HS.
  apply Hnr in HS; [|specialize (HN5 n ltac:(lia)); lia]. destruct HS as (H1 & H2 & _). cbn [fst snd]. auto 6.
Qed.
Print Assumptions C59_fair.

Example C59_nonvacuous :
  let ops := [SoText (Some [x68; x69]); SoPing (Some [x70])] in
  let opc := SoClose 1000 (Some [x62]) in
  let wt := demo_client [WAccept 3; WIo IoRetry] in
  let ws := aworld [] [WIo IoRetry; WAccept 1] in
  let wr := aworld [] [] in
  let s := nrun (SpecReply.echo 50) watch (upto round_robin 500) (net_start (ops ++ [opc]) wt ws wr) in
  Forall (echoable 50) ops /\ Forall (fits true) ops /\ close_request opc 1000 [x62] /\ idle wt /\ idle ws /\ idle wr /\
  fst (n_tx s) = ADone /\ fst (n_srv s) = ADone /\ fst (n_rx s) = ADone /\
  map snd (w_log (c_world (snd (n_rx s)))) = [EvMsg 1 [x68; x69]; EvEnd 1; EvPong [x70]; EvClose 1000 [x62]].
Proof.
  cbv zeta. split; [repeat constructor; vm_compute; discriminate|]. split; [repeat constructor; vm_compute; discriminate|].
  split; [vm_compute; repeat split; discriminate|].
  split; [repeat constructor|]. split; [repeat constructor|]. split; [repeat constructor|].
  split; [vm_compute; reflexivity|]. split; [vm_compute; reflexivity|]. split; vm_compute; reflexivity.
Qed.
