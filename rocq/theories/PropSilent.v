(** C27 for listenAsync. *)
From Verif Require Import Bytes Frame World WebSocket AsyncWebSocket SpecFrame SpecSend SpecListen SpecApi SpecAsync
  ProofFrame ProofStream ProofSend ProofHeader ProofListen ProofInv ProofRel ProofSilent ProofAsync ProofAsync2 PropAsync PropAsync2 PropAsync3 PropAsyncHeader PropNet.
From Coq Require Import Lia.
Local Open Scope N_scope.

Lemma quiet_script s : io_only s -> script_ok no_install any_err s.
Proof. apply Forall_impl. intros [b bs|e|x]; cbn; auto. intros []. Qed.

Lemma msim_listen_try react l : (forall log, react l log = []) -> msim l (listen_try react) (listen_try react).
Proof.
  intros Hr. unfold listen_try. apply msim_bind; [apply msim_modify; reflexivity|]. intros _.
  apply msim_get. intros w1 w2 Hw. replace (w_in w2) with (w_in w1) by apply Hw. now apply msim_listen_loop.
Qed.

Lemma quiet_notify react : (forall l log, react l log = []) -> forall ev w o w', notify react ev w = (o, w') -> w_out w' = w_out w.
Proof.
  intros Hr ev w o w' E. unfold notify in E. destruct (s_listener (w_sock w)); [|injection E as <- <-; reflexivity].
  rewrite Hr in E. cbn in E. injection E as <- <-. reflexivity.
Qed.
Lemma listen_same_world react w o w' : listen_try react w = (o, w') -> exists o', listen react w = (o', w').
Proof.
  intros E. unfold listen_try, listen, bind, modify_sock, get, try_ in *. rewrite E. destruct o; eexists; reflexivity.
Qed.
Lemma quiet_listen_out react w o w' : (forall l log, react l log = []) -> io_only (w_in w) -> listen_try react w = (o, w') -> w_out w' = w_out w.
Proof.
  intros Hr Hio E. apply listen_same_world in E. destruct E as [o' E].
  eapply (rel_listen react no_install (fun _ a b => w_out b = w_out a)) in E; [exact (proj2 E)|..]; cbv beta; try (intros; reflexivity || congruence || assumption).
  - intros ev x ox x' Ex. eapply quiet_notify; eassumption.
  - apply quiet_script. exact Hio.
Qed.
Lemma run_grows_out react evs : forall st c st' c', run react evs (st, c) = (st', c') -> prefix (w_out (c_world c)) (w_out (c_world c')).
Proof.
  induction evs as [|[|s] evs IH]; intros st c st' c' E; cbn [run] in E.
  - injection E as <- <-. apply prefix_refl.
  - destruct (tick react (st, c)) as [st1 c1] eqn:Et. apply IH in E. eapply prefix_trans; [|exact E].
    unfold tick in Et. destruct st; try (injection Et as <- <-; apply prefix_refl); apply step_grows in Et; apply Et.
  - apply IH in E. exact E.
Qed.

(** Without a listener no call is made at any time of any schedule; and once the executor has taken enough steps, the coroutine has ended
    (finished, failed) or waits like one with a listener that does nothing, with the same input consumed and nothing sent. *)
Theorem C27_async : forall react l w1 w2 evs,
  (forall l log, react l log = []) ->
  s_listening (w_sock w1) = false -> io_only (w_in w1) -> io_only (arrivals evs) -> same_but l w1 w2 ->
  (forall st c, run react evs (ARun, start_listen w1) = (st, c) -> w_log (c_world c) = w_log w1 /\ w_out (c_world c) = w_out w1) /\
  exists n, forall m1 m2, (n <= m1)%nat -> (n <= m2)%nat -> forall st1 c1 st2 c2,
    run react (evs ++ ticks m1) (ARun, start_listen w1) = (st1, c1) ->
    run react (evs ++ ticks m2) (ARun, start_listen w2) = (st2, c2) ->
    ((st1 = ADone /\ st2 = ADone) \/ ((exists e, st1 = AFail e) /\ exists e, st2 = AFail e) \/ (st1 = AWait /\ st2 = AWait)) /\
    w_in (c_world c1) = w_in (c_world c2) /\ w_out (c_world c1) = w_out w1 /\ w_out (c_world c2) = w_out w2 /\
    s_last (w_sock (c_world c1)) = s_last (w_sock (c_world c2)) /\ w_log (c_world c1) = w_log w1.
Proof.
  intros react l w1 w2 evs Hr Hl Hio Har Hsb.
  assert (async_react true react) as Ha by (intros k lg; rewrite Hr; constructor).
  assert (user_react react) as Hu by (intros k lg; rewrite Hr; constructor).
  assert (s_listening (w_sock w2) = false) as Hl2 by (rewrite <- (same_listening l w1 w2 Hsb); exact Hl).
  assert (io_only (w_in w2)) as Hio2 by (destruct Hsb as [<- _]; exact Hio).
  assert (same_but l (give w1 (arrivals evs)) (give w2 (arrivals evs))) as Hg.
  { destruct Hsb as (S1 & S2 & S3 & S4 & S5 & S6). unfold same_but, give. cbn. now rewrite S1. }
  assert (io_only (w_in (give w1 (arrivals evs)))) as Hgio by (apply io_only_app; assumption).
  assert (io_only (w_in (give w2 (arrivals evs)))) as Hgio2 by (apply io_only_app; assumption).
  destruct (listen_try react (give w1 (arrivals evs))) as [o w1'] eqn:E1.
  destruct (msim_listen_try react l (Hr l) _ _ _ _ (quiet_script _ Hgio) Hg E1) as (w2' & E2 & (S1 & S2 & S3 & S4 & S5 & S6) & Hlog & _).
  pose proof (quiet_listen_out react _ _ _ Hr Hgio E1) as Ho1. pose proof (quiet_listen_out react _ _ _ Hr Hgio2 E2) as Ho2.
  split.
  - intros st c E.
    pose proof (C28_any_schedule_partial true react w1 evs st c o w1' Hl Hio Har Ha ltac:(discriminate) E E1) as H.
    assert (prefix (w_log (c_world c)) (w_log w1') /\ prefix (w_out (c_world c)) (w_out w1')) as [P1 P2].
    { destruct st; try exact H; destruct H as [_ (_ & _ & Q1 & _ & Q2 & _)]; rewrite Q1, Q2; split; apply prefix_refl. }
    rewrite Hlog in P1. rewrite Ho1 in P2.
    pose proof (run_grows _ _ _ _ _ _ E) as P3. pose proof (run_grows_out _ _ _ _ _ _ E) as P4.
    split; apply prefix_antisym; assumption.
  - destruct (C28_completion_partial true react w1 evs o w1' Hl Hio Har Ha ltac:(discriminate) E1) as [n1 H1].
    destruct (C28_completion_partial true react w2 evs o w2' Hl2 Hio2 Har Ha ltac:(discriminate) E2) as [n2 H2].
    exists (Nat.max n1 n2). intros m1 m2 Hm1 Hm2 st1 c1 st2 c2 R1 R2.
    destruct (H1 m1 ltac:(lia) _ _ R1) as [A1 (B1 & _ & B3 & _ & B5 & B6 & _)].
    destruct (H2 m2 ltac:(lia) _ _ R2) as [A2 (D1 & _ & D3 & _ & D5 & D6 & _)].
    split; [|split; [congruence|]; split; [rewrite B3; exact Ho1|]; split; [rewrite D3; exact Ho2|]; split].
    + assert (io_only (arrivals (evs ++ ticks m1))) as Har1 by (now rewrite arrivals_app, arrivals_ticks, app_nil_r).
      assert (forall u, st1 <> AUb u) as Hn.
      { intros u Hst. destruct (C54_no_ub react w1 _ _ _ u Hl Hio Har1 Hu R1 Hst) as [[_ H]|[_ H]]; apply H; intros k lg; rewrite Hr; constructor. }
      destruct st1, o; try contradiction; try (destruct st2; try contradiction); eauto 8.
      exfalso. eapply Hn. reflexivity.
    + rewrite B6, D6. destruct S6 as [-> _]. reflexivity.
    + rewrite B5, Hlog. reflexivity.
Qed.
Print Assumptions C27_async.

(** A text frame in pieces, a ping and the end of the stream: with the listener four calls, without it none, and the same end. *)
Example C27_async_nonvacuous :
  let w2 := World [RData x81 [x02; x61]; RIo IoRetry] [] [] (fun i => n2b (N.of_nat i)) 0 [] (set_listener (sock_new false) (Some 7%nat)) in
  let w1 := set_sock w2 (sock_new false) in
  let evs := ticks 2 ++ [Arrive [RData x62 [x89; x00]]; Tick; Arrive [RData x83 [x00]]] ++ ticks 60 in
  let quiet : react_t := fun _ _ => [] in
  same_but 7 w1 w2 /\ s_listening (w_sock w1) = false /\ io_only (w_in w1) /\ io_only (arrivals evs) /\
  (exists e, fst (run quiet evs (ARun, start_listen w1)) = AFail e) /\ (exists e, fst (run quiet evs (ARun, start_listen w2)) = AFail e) /\
  w_log (c_world (snd (run quiet evs (ARun, start_listen w1)))) = [] /\
  map snd (w_log (c_world (snd (run quiet evs (ARun, start_listen w2))))) = [EvMsg 1 [x61]; EvMsg 1 [x62]; EvEnd 1; EvPing []].
Proof.
  cbv zeta. split; [repeat constructor|]. split; [reflexivity|]. split; [repeat constructor|]. split; [repeat constructor|].
  split; [eexists; vm_compute; reflexivity|]. split; [eexists; vm_compute; reflexivity|]. split; vm_compute; reflexivity.
Qed.
