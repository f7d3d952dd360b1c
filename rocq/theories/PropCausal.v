(** Property theorems about input that arrives later (C48) and listeners installed by other threads (C45). *)
From Verif Require Import Bytes Frame World WebSocket SpecFrame SpecSend SpecListen SpecApi SpecCausal
  ProofFrame ProofStream ProofSend ProofHeader ProofListen ProofInv ProofRel ProofCausal.
From Coq Require Import ZifyBool ZifyNat ZifyN.
Local Open Scope N_scope.
Local Arguments takeN : simpl never.
Local Arguments dropN : simpl never.
Local Arguments lenN : simpl never.
Local Arguments be_enc : simpl never.
Local Arguments be_dec : simpl never.

Lemma prefix_trans' {A} (a b c : list A) : prefix a b -> prefix b c -> prefix a c.
Proof. intros [r ->] [s ->]. exists (r ++ s). now rewrite app_assoc. Qed.

Definition grow_rel (_ : bool) (w w' : world) : Prop := prefix (w_log w) (w_log w') /\ prefix (w_out w) (w_out w').
Lemma grow_same c w w' : w_log w' = w_log w -> w_out w' = w_out w -> grow_rel c w w'.
Proof. intros H1 H2. split; [rewrite H1|rewrite H2]; exists []; now rewrite app_nil_r. Qed.
Lemma grow_cmds cs : forall w o w', exec_cmds cs w = (o, w') -> grow_rel true w w'.
Proof.
  induction cs as [|c cs IH]; intros w o w' E; cbn [exec_cmds] in E.
  - injection E as <- <-. now apply grow_same.
  - unfold bind in E. destruct (exec_cmd c w) as [o1 w1] eqn:E1.
    assert (grow_rel true w w1) as H1.
    { destruct c as [|l|m b|catch op| | |fin0 opc0 msg0]; cbn [exec_cmd] in E1; try (injection E1 as <- <-; now apply grow_same).
      all: match type of E1 with (?p = _) => match p with (?mm ?ww) => assert (keeps mm) as K by (first [exact (keeps_send_cmd (CSend catch op) I)|auto with keeps]) end end; apply K in E1. all: destruct E1 as [Hw _];
      destruct Hw as (_ & Hl & _ & _ & _ & Hout); split; [rewrite Hl; exists []; now rewrite app_nil_r|exact Hout]. }
    destruct o1; try (injection E as <- <-; exact H1).
    apply IH in E. destruct H1, E. split; eapply prefix_trans'; eassumption.
Qed.
Lemma grow_notify react ev w o w' : notify react ev w = (o, w') -> grow_rel (is_ret o) w w'.
Proof.
  intros E. unfold notify in E. destruct (s_listener (w_sock w)) as [l|].
  - apply grow_cmds in E. destruct E as [H1 H2]. split; [|exact H2]. cbn [w_log set_log] in H1.
    eapply prefix_trans'; [|exact H1]. exists [(l, ev)]. reflexivity.
  - injection E as <- <-. now apply grow_same.
Qed.

(** * C48: causality *)
(** [more t w] is [w] with the further connection behaviour [t] after that of [w]. With it, the same listener calls and
    the same output come first. Unless listen() was waiting for input, nothing at all is different: same outcome, same
    state, and [t] is left untouched. For every listener, socket state, input, failures and calls of other threads. *)
Theorem C48_causality : forall react w t o1 w1 o2 w2,
  listen react w = (o1, w1) -> listen react (more t w) = (o2, w2) ->
  prefix (w_log w1) (w_log w2) /\ prefix (w_out w1) (w_out w2) /\
  (o1 <> Wait \/ w_in w1 <> [] -> o2 = o1 /\ w2 = more t w1).
Proof.
  intros react w t o1 w1 o2 w2 E1 E2.
  assert (script_ok (fun _ => True) any_err t) as Ht by (apply Forall_forall; intros [] _; exact I).
  destruct (listen_two react (fun _ => True) grow_rel) with (xs := @nil ext) (s2 := t) (w := w) (o := o1) (w1 := w1)
    as [H|(-> & Hin & o3 & w3 & H3 & _ & HR)]; try assumption; try (intros; now apply grow_same).
  - intros c a b d [] []; split; eapply prefix_trans'; eassumption.
  - intros c a b H; exact H.
  - intros ev w0 o0 w0' E0. eapply grow_notify; eassumption.
  - unfold tail in H. cbn [map app] in H. rewrite H in E2. injection E2 as <- <-.
    split; [exists []; now rewrite app_nil_r|]. split; [exists []; now rewrite app_nil_r|]. auto.
  - unfold tail in H3. cbn [map app] in H3. rewrite H3 in E2. injection E2 as <- <-.
    destruct HR as [H1 H2]. split; [exact H1|]. split; [exact H2|]. intros [?|?]; congruence.
Qed.
Print Assumptions C48_causality.

(** * C45, blocking mode, listeners installed by another thread *)
(** The connection behaves as in [w]; then another thread installs [l] (or removes the listener), then [s2] follows. All
    calls beyond those of the run on [w] alone go to [l], or to the listener that callbacks installed after it. *)
Theorem C45_other_thread : forall react w l s2 o1 w1 o2 w2,
  script_ok no_install any_err s2 ->
  listen react w = (o1, w1) ->
  listen react (more (RExt (XSetListener l) :: s2) w) = (o2, w2) ->
  exists new, w_log w2 = w_log w1 ++ new /\ well_addressed react l (w_log w1) new.
Proof.
  intros react w l s2 o1 w1 o2 w2 Hs2 E1 E2.
  destruct (listen_two react no_install (addr_rel react)) with (xs := [XSetListener l]) (s2 := s2) (w := w) (o := o1) (w1 := w1)
    as [H|(-> & Hin & o3 & w3 & H3 & _ & HR)]; try assumption; try (intros; apply addr_nil; reflexivity).
  - intros c a b d; apply addr_trans.
  - intros c a b (n & H1 & H2 & H3). exists n. auto.
  - intros w0 x Hx. apply addr_nil; [reflexivity|]. destruct x; cbn in *; tauto.
  - intros ev w0 o0 w0' E0. eapply addr_notify; eassumption.
  - unfold tail in H. cbn [map app] in H. rewrite H in E2. injection E2 as <- <-.
    exists []. rewrite app_nil_r. cbn. auto.
  - unfold tail in H3. cbn [map app] in H3. rewrite H3 in E2. injection E2 as <- <-.
    destruct HR as (new & H1 & H2 & _). cbn in H1, H2. eauto.
Qed.
Print Assumptions C45_other_thread.

Definition cw (s : list rev) (l : option nat) : world := World s [] [] (fun _ => x00) 0 [] (set_listener (sock_new false) l).
Definition ponging : react_t := fun _ log => match last log (0%nat, EvEnd 0) with (_, EvPing m) => [CSend false (SoPong (Some m))] | _ => [] end.

(** A text frame cut in two: after the first part one byte was shown; the rest, and a ping answered by a pong, follow. *)
Example C48_nonvacuous :
  let w := cw [RData x81 [x02; x61]] (Some 7%nat) in
  let t := [RData x62 [x89; x00]] in
  fst (listen ponging w) = Wait /\ w_log (snd (listen ponging w)) = [(7%nat, EvMsg 1 [x61])] /\
  w_log (snd (listen ponging (more t w))) = [(7%nat, EvMsg 1 [x61]); (7%nat, EvMsg 1 [x62]); (7%nat, EvEnd 1); (7%nat, EvPing [])] /\
  w_out (snd (listen ponging (more t w))) = [x8a; x00].
Proof. cbv zeta. repeat split; vm_compute; reflexivity. Qed.

(** Listener 8 is installed by another thread in the middle of a message and gets the rest of it. *)
Example C45_other_thread_nonvacuous :
  let w := cw [RData x81 [x02; x61]] (Some 7%nat) in
  let s2 := [RData x62 [x89; x00]] in
  script_ok no_install any_err s2 /\
  w_log (snd (listen ponging (more (RExt (XSetListener (Some 8%nat)) :: s2) w))) =
    [(7%nat, EvMsg 1 [x61]); (8%nat, EvMsg 1 [x62]); (8%nat, EvEnd 1); (8%nat, EvPing [])].
Proof. cbv zeta. split; [repeat constructor|]. vm_compute. reflexivity. Qed.
