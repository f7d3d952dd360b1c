(** Property theorems: C57 and C59 with the client's sending and listening coroutine on one socket. *)
From Verif Require Import Bytes Frame World WebSocket AsyncWebSocket SpecFrame SpecSend SpecListen SpecApi SpecReply SpecAsync SpecNet SpecDuplex
  ProofFrame ProofStream ProofSend ProofCodec ProofHeader ProofListen ProofReading ProofApi ProofInv ProofHistory ProofProps
  ProofAsync ProofAsync2 ProofAsync3 PropListen PropListen2 PropReply PropAsync PropAsync2 PropAsync3 PropNet PropNet2 PropDuplex.
Local Open Scope N_scope.

Definition split_snet (s : snet) (n : net) : Prop :=
  split_peer (o_client s) (n_tx n) (n_rx n) /\ o_srv s = n_srv n /\ o_up s = n_up n /\ o_down s = n_down n.
Lemma split_sstep rs s n e : split_snet s n -> split_snet (sstep rs s e) (nstep rs watch n e).
Proof.
  intros (H1 & H2 & H3 & H4). destruct e as [| | |k|k]; unfold split_snet; cbn [sstep nstep o_client o_srv o_up o_down n_tx n_rx n_srv n_up n_down].
  - split; [now apply split_tx|auto].
  - split; [exact H1|]. rewrite H2. auto.
  - split; [now apply split_rx|auto].
  - rewrite (split_out _ _ _ H1), H2, H3. auto.
  - rewrite H2, H4. split; [now apply split_receive|auto].
Qed.
Lemma split_srun rs evs ops wc ws : idle wc -> split_snet (srun rs evs ops wc ws) (nrun rs watch evs (net_start ops wc ws wc)).
Proof.
  intros Hi. unfold srun, nrun.
  assert (split_snet (SNet (peer_start ops wc) (ARun, start_listen ws) 0 0) (net_start ops wc ws wc)) as H.
  { split; [now apply split_start|]. repeat split. }
  revert H. generalize (SNet (peer_start ops wc) (ARun, start_listen ws) 0 0) (net_start ops wc ws wc).
  induction evs as [|e evs IH]; intros s n H; [exact H|]. cbn [fold_left]. apply IH. now apply split_sstep.
Qed.

Theorem C57_shared_any_time : forall lim ops wc ws evs s,
  lim < 2 ^ 31 - 2 -> Forall (echoable lim) ops -> Forall (fits (s_mask (w_sock wc))) ops -> idle wc -> idle ws ->
  srun (SpecReply.echo lim) evs ops wc ws = s ->
  (fst (p_tx (o_client s)) = ARun \/ fst (p_tx (o_client s)) = AWait \/ fst (p_tx (o_client s)) = ADone) /\
  (fst (o_srv s) = ARun \/ fst (o_srv s) = AWait) /\ (fst (p_rx (o_client s)) = ARun \/ fst (p_rx (o_client s)) = AWait) /\
  prefix (transcript (w_log (c_world (snd (o_srv s))))) (flat_map received ops) /\
  prefix (transcript (w_log (p_world (o_client s)))) (flat_map received (flat_map answer ops)).
Proof.
  intros lim ops wc ws evs s Hlim Hops Hf Ic Is <-. destruct (split_srun (SpecReply.echo lim) evs ops wc ws Ic) as (H1 & H2 & _).
  rewrite (split_log _ _ _ H1), H2. destruct H1 as ((-> & _) & (-> & _) & _).
  apply (C57_any_time lim ops wc ws wc evs _ Hlim Hops Hf Ic Is Ic eq_refl).
Qed.
Print Assumptions C57_shared_any_time.

Theorem C57_shared_fair : forall lim ops wc ws f,
  lim < 2 ^ 31 - 2 -> Forall (echoable lim) ops -> Forall (fits (s_mask (w_sock wc))) ops -> idle wc -> idle ws ->
  (exists l, s_listener (w_sock wc) = Some l) -> (exists l, s_listener (w_sock ws) = Some l) -> fair f ->
  exists N, forall n, (N <= n)%nat -> forall s, srun (SpecReply.echo lim) (upto f n) ops wc ws = s ->
  fst (p_tx (o_client s)) = ADone /\ fst (o_srv s) = AWait /\ fst (p_rx (o_client s)) = AWait /\
  transcript (w_log (c_world (snd (o_srv s)))) = flat_map received ops /\
  transcript (w_log (p_world (o_client s))) = flat_map received (flat_map answer ops).
Proof.
  intros lim ops wc ws f Hlim Hops Hf Ic Is Lc Ls Hfair.
  destruct (C57_fair lim ops wc ws wc f Hlim Hops Hf Ic Is Ic Ls Lc Hfair) as [N H]. exists N. intros n Hn s <-.
  specialize (H n Hn _ eq_refl). destruct (split_srun (SpecReply.echo lim) (upto f n) ops wc ws Ic) as (H1 & H2 & _).
  rewrite (split_log _ _ _ H1), H2. destruct H1 as ((-> & _) & (-> & _) & _). exact H.
Qed.
Print Assumptions C57_shared_fair.

Theorem C59_shared_any_time : forall lim ops opc code reason wc ws evs s,
  lim < 2 ^ 31 - 2 -> Forall (echoable lim) ops -> Forall (fits (s_mask (w_sock wc))) ops -> close_request opc code reason ->
  idle wc -> idle ws -> srun (SpecReply.echo lim) evs (ops ++ [opc]) wc ws = s ->
  Forall (fun st => st = ARun \/ st = AWait \/ st = ADone) [fst (p_tx (o_client s)); fst (o_srv s); fst (p_rx (o_client s))] /\
  prefix (transcript (w_log (c_world (snd (o_srv s))))) (flat_map received ops ++ [OClose code reason]) /\
  prefix (transcript (w_log (p_world (o_client s)))) (flat_map received (flat_map answer ops) ++ [OClose code reason]).
Proof.
  intros lim ops opc code reason wc ws evs s Hlim Hops Hf Hcl Ic Is <-.
  destruct (split_srun (SpecReply.echo lim) evs (ops ++ [opc]) wc ws Ic) as (H1 & H2 & _).
  rewrite (split_log _ _ _ H1), H2. destruct H1 as ((-> & _) & (-> & _) & _).
  apply (C59_any_time lim ops opc code reason wc ws wc evs _ Hlim Hops Hf Hcl Ic Is Ic eq_refl).
Qed.
Print Assumptions C59_shared_any_time.

Theorem C59_shared_fair : forall lim ops opc code reason wc ws f,
  lim < 2 ^ 31 - 2 -> Forall (echoable lim) ops -> Forall (fits (s_mask (w_sock wc))) ops -> close_request opc code reason ->
  idle wc -> idle ws -> (exists l, s_listener (w_sock wc) = Some l) -> (exists l, s_listener (w_sock ws) = Some l) -> fair f ->
  exists N, forall n, (N <= n)%nat -> forall s, srun (SpecReply.echo lim) (upto f n) (ops ++ [opc]) wc ws = s ->
  fst (p_tx (o_client s)) = ADone /\ fst (o_srv s) = ADone /\ fst (p_rx (o_client s)) = ADone /\
  transcript (w_log (c_world (snd (o_srv s)))) = flat_map received ops ++ [OClose code reason] /\
  transcript (w_log (p_world (o_client s))) = flat_map received (flat_map answer ops) ++ [OClose code reason].
Proof.
  intros lim ops opc code reason wc ws f Hlim Hops Hf Hcl Ic Is Lc Ls Hfair.
  destruct (C59_fair lim ops opc code reason wc ws wc f Hlim Hops Hf Hcl Ic Is Ic Ls Lc Hfair) as [N H]. exists N. intros n Hn s <-.
  specialize (H n Hn _ eq_refl). destruct (split_srun (SpecReply.echo lim) (upto f n) (ops ++ [opc]) wc ws Ic) as (H1 & H2 & _).
  rewrite (split_log _ _ _ H1), H2. destruct H1 as ((-> & _) & (-> & _) & _). exact H.
Qed.
Print Assumptions C59_shared_fair.

Example C59_shared_nonvacuous :
  let ops := [SoText (Some [x68; x69]); SoPing (Some [x70])] in
  let wc := World [] [WAccept 3; WIo IoRetry] [] (fun i => n2b (N.of_nat i)) 4 [] (set_listener (sock_new true) (Some 3%nat)) in
  let ws := aworld [] [WIo IoRetry; WAccept 1] in
  let s := srun (SpecReply.echo 50) (upto round_robin 500) (ops ++ [SoClose 1000 (Some [x62])]) wc ws in
  idle wc /\ idle ws /\ fst (p_tx (o_client s)) = ADone /\ fst (o_srv s) = ADone /\ fst (p_rx (o_client s)) = ADone /\
  map snd (w_log (p_world (o_client s))) = [EvMsg 1 [x68; x69]; EvEnd 1; EvPong [x70]; EvClose 1000 [x62]].
Proof.
  cbv zeta. split; [repeat constructor|]. split; [repeat constructor|]. split; [vm_compute; reflexivity|].
  split; [vm_compute; reflexivity|]. split; vm_compute; reflexivity.
Qed.
