(** C28 for every listener that sends and throws, whatever it does about failures: both sockets agree until a write fails. *)
From Verif Require Import Bytes Frame World WebSocket AsyncWebSocket SpecFrame SpecSend SpecListen SpecAsync
  ProofFrame ProofStream ProofSend ProofCodec ProofInv ProofAsync ProofAsync2 ProofHeld PropAsync.
From Coq Require Import ZifyBool ZifyNat ZifyN.
Local Open Scope N_scope.
Local Arguments until_failure : simpl never.

Lemma cut_app u x : never_fails u -> before_failure (u ++ x) = u ++ before_failure x.
Proof.
  induction 1 as [|[n|[]|] u He _ IH]; cbn [before_failure app] in *; try (rewrite IH; reflexivity); try reflexivity; cbn in He; tauto.
Qed.
Lemma cut_failing q : Exists failure q -> before_failure q <> [WBlock].
Proof.
  induction 1 as [[n|[]|] q He|[n|[]|] q Hq _]; cbn in *; try tauto; try discriminate.
  intros E. injection E as E. destruct q as [|[n|[]|] q]; try discriminate E. inversion Hq.
Qed.
Lemma not_blocked a b x : sound a b -> write_failed a x -> w_wr (until_failure b) <> [WBlock].
Proof.
  intros (u & H1 & H2) (v & H3 & H4). apply cut_failing.
  assert (Exists failure (w_wr a)) as Hf by (rewrite H3; apply Exists_app; now left).
  rewrite H1 in Hf. apply Exists_app in Hf. destruct Hf as [Hf|Hf]; [|exact Hf].
  exfalso. clear -H2 Hf. induction Hf; inversion H2; subst; auto.
Qed.
Lemma cut_eq a b c : sound a b -> sound a c -> w_wr (until_failure b) = w_wr (until_failure c) -> w_wr b = w_wr c.
Proof.
  intros (u & H1 & H2) (v & H3 & H4) E. unfold until_failure in E. cbn [w_wr set_wr] in E.
  assert (u ++ before_failure (w_wr b) = v ++ before_failure (w_wr c)) as Eu.
  { rewrite <- !cut_app by assumption. congruence. }
  rewrite E in Eu. apply app_inv_tail in Eu. subst v. rewrite H1 in H3. now apply app_inv_head in H3.
Qed.
Lemma effects_back a x y : sound a x -> sound a y -> same_effects (until_failure x) (until_failure y) -> same_effects x y.
Proof.
  intros Hx Hy (H1 & H2 & H3 & H4 & H5 & H6 & H7 & H8 & H9). unfold same_effects. repeat split; try assumption.
  eapply cut_eq; eassumption.
Qed.
Lemma held_env w : env_ok false (until_failure w).
Proof.
  intros _. unfold until_failure. cbn [w_wr set_wr]. apply cut_never.
Qed.

(** As long as no write of the coroutine has failed, it is where the blocking loop is. *)
Theorem C28_before_failure_partial : forall react w evs st c o w',
  s_listening (w_sock w) = false -> io_only (w_in w) -> io_only (arrivals evs) ->
  async_react false react ->
  run react evs (ARun, start_listen w) = (st, c) ->
  listen_try react (give w (arrivals evs)) = (o, w') ->
  write_failed w (c_world c) \/
  match st with
  | ARun | AWait => prefix (w_log (c_world c)) (w_log w') /\ prefix (w_out (c_world c)) (w_out w')
  | _ => same_end st o /\ same_effects (c_world c) w'
  end.
Proof.
  intros react w evs st c o w' Hl Hio Har Hre E ES.
  destruct (run_held react _ _ _ _ _ E) as (sth & ch & Er & [(-> & -> & Hs)|(_ & _ & Hf & _)]); [|now left].
  right. destruct (listen_try react (until_failure (give w (arrivals evs)))) as [oh wh] eqn:Eh.
  destruct (stall_listen_try react _ _ _ _ _ ES Eh) as [_ Ha].
  pose proof (C28_any_schedule_partial false react (until_failure w) evs st (hc c) oh wh Hl Hio Har Hre (held_env w) Er Eh) as HC.
  destruct st.
  1,2: destruct HC as [H1 H2]; destruct Ha as [(_ & -> & _)|(_ & [H3 H4] & _)]; [split; assumption|split; eapply prefix_trans; eassumption].
  all: destruct HC as [H1 H2]; destruct Ha as [(-> & -> & Hs2)|(-> & _)]; [|destruct H1];
    (split; [exact H1|]); eapply (effects_back w); eassumption.
Qed.
Print Assumptions C28_before_failure_partial.

(** After any schedule, if nothing more arrives, the coroutine gets within finitely many steps to the very state in which
    listen() ends or blocks; or both have had a write fail, and what they did before it is the same: all that both do on the
    same connection when the peer just stops taking data at that moment. *)
Theorem C28_up_to_failure_partial : forall react w evs o w',
  s_listening (w_sock w) = false -> io_only (w_in w) -> io_only (arrivals evs) ->
  async_react false react ->
  listen_try react (give w (arrivals evs)) = (o, w') ->
  exists n, forall m, (n <= m)%nat -> forall st c, run react (evs ++ ticks m) (ARun, start_listen w) = (st, c) ->
  (same_end st o /\ same_effects (c_world c) w') \/
  (write_failed w (c_world c) /\ write_failed w w' /\
   exists both, listen_try react (give (until_failure w) (arrivals evs)) = (Wait, both) /\
     prefix (w_log both) (w_log (c_world c)) /\ prefix (w_out both) (w_out (c_world c)) /\
     prefix (w_log both) (w_log w') /\ prefix (w_out both) (w_out w')).
Proof.
  intros react w evs o w' Hl Hio Har Hre ES.
  destruct (listen_try react (until_failure (give w (arrivals evs)))) as [oh wh] eqn:Eh.
  destruct (stall_listen_try react _ _ _ _ _ ES Eh) as [_ Ha].
  destruct (C28_completion_partial false react (until_failure w) evs oh wh Hl Hio Har Hre (held_env w) Eh) as [n Hn].
  exists n. intros m Hm st c E. destruct (run_held react _ _ _ _ _ E) as (sth & ch & Er & Hc).
  destruct (Hn m Hm _ _ Er) as [H1 H2].
  destruct Hc as [(-> & -> & Hs)|(Hg & [Hm1 Hm2] & Hf & Hb)].
  - left. destruct Ha as [(-> & -> & Hs2)|(_ & _ & Hf & Hb)].
    + split; [exact H1|]. eapply (effects_back w); eassumption.
    + exfalso. destruct H2 as (_ & H2 & _). rewrite Hb in H2. exact (not_blocked _ _ _ Hs Hf H2).
  - destruct H2 as (_ & H2 & H3 & _ & H5 & _). rewrite Hb in H2. destruct Ha as [(_ & -> & Hs2)|(-> & [Hm3 Hm4] & Hf2 & _)].
    + exfalso. symmetry in H2. exact (not_blocked (give w (arrivals evs)) _ _ Hs2 Hf H2).
    + right. split; [exact Hf|]. split; [exact Hf2|]. exists wh. split; [exact Eh|]. rewrite H5 in Hm1. rewrite H3 in Hm2. repeat split; assumption.
Qed.
Print Assumptions C28_up_to_failure_partial.

(** A listener that answers every call by two sends whose failures it ignores: the first answer is written, the second fails. *)
Example C28_up_to_failure_nonvacuous :
  let react : react_t := fun _ _ => [CSend true (SoText (Some [x61])); CSend true (SoPong (Some [x62]))] in
  let w := aworld [RData x89 [x00; x89; x00]] [WAccept 2; WAccept 1; WAccept 2; WIo IoBroken] in
  async_react false react /\ ~ healthy (w_wr w) /\
  match run react (ticks 100) (ARun, start_listen w), listen_try react w, listen_try react (until_failure w) with
  | (st, c), (o, w'), (oH, both) =>
    st = AWait /\ o = Ret tt /\ oH = Wait /\ w_out both = [x81; x01; x61; x8a; x01] /\ w_out w' = w_out both /\
    map snd (w_log both) = [EvPing []] /\ map snd (w_log w') = [EvPing []] /\
    map snd (w_log (c_world c)) = [EvPing []; EvPing []] /\
    w_out (c_world c) = w_out both ++ [x81; x01; x61; x8a; x01; x62]
  end.
Proof.
  cbv zeta. split; [intros l log; repeat (apply Forall_cons || apply Forall_nil); discriminate|]. split.
  - intros H. repeat match goal with H : Forall _ (_ :: _) |- _ => inversion H; clear H; subst | H : healthy _ |- _ => unfold healthy in H; cbn in H end; cbn in *; tauto.
  - vm_compute. repeat split.
Qed.
