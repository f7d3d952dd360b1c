(** C76-C77: one thread listens on a blocking socket while others send and call stopListening and setListener (Process.v). *)
From Verif Require Import Bytes Frame World WebSocket AsyncWebSocket SpecFrame SpecSend SpecListen SpecApi SpecConfig SpecAsync SpecReply Threads SpecThreads
  Concurrent SpecConcurrent Process SpecProcess ProofFrame ProofStream ProofSend ProofHeader ProofListen ProofInv ProofAsync ProofThreads PropReply
  ProofThreads2 PropThreads PropThreads2 ProofConcurrent ProofProcess ProofProcess2 ProofProcess3 ProofProcess4.
From Coq Require Import ZifyBool ZifyNat ZifyN.
Local Open Scope N_scope.
Local Arguments takeN : simpl never.
Local Arguments dropN : simpl never.
Local Arguments lenN : simpl never.
Local Arguments be_enc : simpl never.
Local Arguments be_dec : simpl never.

(** ** Notifications received *)
Lemma told_calls react w xss o t' :
  io_only (w_in w) -> s_listener (w_sock w) <> None -> others no_null xss -> (forall l log, Forall kind_cmd (react l log)) ->
  tlisten react (TWorld w xss []) = (o, t') ->
  exists new, w_log (t_world t') = w_log w ++ new /\ map snd new = calls (t_trace t').
Proof.
  intros Hio Hl Hx Hr E.
  set (I := fun t => io_only (w_in (t_world t)) /\ s_listener (w_sock (t_world t)) <> None /\ others no_null (t_calls t) /\
    exists new, w_log (t_world t) = w_log w ++ new /\ map snd new = calls (t_trace t)).
  assert (forall t o t', I t -> interleave t = (o, t') -> I t') as HI.
  { intros t o1 t1 (G1 & G2 & G3 & new & G4 & G5) E0. pose proof (nonnull_stays _ _ _ G3 G2 E0) as G2'. apply interleave_inv in E0.
    destruct E0 as [[_ ->]|(xs & r & Ec & ->)]; [repeat split; eauto|]. rewrite Ec in G3. apply Forall_cons_iff in G3.
    split; [exact G1|]. split; [exact G2'|]. split; [apply G3|]. exists new. split; [exact G4|]. cbn [t_trace]. now rewrite calls_app, calls_others, app_nil_r. }
  unfold tlisten in E. unfold tbind at 1 in E. destruct (interleave (TWorld w xss [])) as [o0 t0] eqn:E0. pose proof (PropThreads2.interleave_ret _ _ _ E0) as ->.
  apply HI in E0. 2: { split; [exact Hio|]. split; [exact Hl|]. split; [exact Hx|]. exists []. cbn. now rewrite app_nil_r. }
  unfold tbind, mark, local, modify_sock, tget in E. cbn [t_world t_calls t_trace] in E. unfold ttry in E.
  destruct (tlisten_loop _ _ _ _) as [o1 t1] eqn:E1.
  assert (I t1) as HT; [|destruct o1; injection E as <- <-; apply HT].
  eapply (kept_listen_loop react I (fun _ => True)) with (B := 0%Z) in E1; [apply E1|..]; try tauto.
  - intros t H. apply H.
  - intros l log c t o2 t2 Hin Ht E2. split; [|intros; exact Logic.I]. apply texec_cmd_inv in E2. destruct E2 as (t3 & w3 & E3 & E4 & ->).
    apply (HI _ _ _ Ht) in E3. destruct E3 as (G1 & G2 & G3 & new & G4 & G5).
    destruct (exec_cmd_effect _ _ _ _ E4) as (F1 & F2 & _ & _ & F5 & _). unfold I. cbn [t_world t_trace t_calls]. rewrite F1, F2, F5.
    split; [exact G1|]. split. { specialize (Hr l log). rewrite Forall_forall in Hr. specialize (Hr _ Hin). destruct c as [|[]| | | | |]; cbn in *; auto; try contradiction. discriminate. }
    split; [exact G3|]. exists new. split; [exact G4|]. rewrite calls_app, G5. destruct c; cbn; now rewrite app_nil_r.
  - intros w0 s xs tr (G1 & G2 & G3) Hs. split; [exact Hs|]. split; [exact G2|exact G3].
  - intros w0 xs tr ev (G1 & G2 & G3 & new & G4 & G5). cbn [t_world] in G2. destruct (s_listener (w_sock w0)) as [l|] eqn:El; [|contradiction].
    split; [exact G1|]. split; [cbn; congruence|]. split; [exact G3|]. exists (new ++ [(l, ev)]). cbn [t_world w_log set_log t_trace] in *.
    rewrite G4, app_assoc. split; [reflexivity|]. rewrite map_app, calls_app, G5. reflexivity.
  - intros w0 xs tr (G1 & G2 & G3 & new & G4 & G5) _. split; [exact G1|]. split; [exact G2|]. split; [exact G3|]. exists new. split; [exact G4|].
    cbn [t_trace] in *. rewrite calls_app, G5. cbn. now rewrite app_nil_r.
  - destruct E0 as (G1 & G2 & G3 & new & G4 & G5). split; [exact G1|]. split; [exact G2|]. split; [exact G3|]. exists new. split; [exact G4|].
    cbn [t_trace] in *. rewrite calls_app, G5. cbn. now rewrite app_nil_r.
Qed.

(** The undisturbed socket, frame by frame and as a whole. *)
Lemma notes_grow h p o p' : iterateFrame taking_notes h p = (o, p') -> prefix (w_log p) (w_log p').
Proof.
  assert (forall l log, Forall no_config_cmd (taking_notes l log)) as H by (intros; constructor).
  exact (proj1 (fsim_iterate taking_notes True True H (or_introl Logic.I) (or_introl Logic.I) true h) p o p').
Qed.
Definition noting (p : world) : Prop := io_only (w_in p) /\ s_listener (w_sock p) = Some 0%nat /\ s_listening (w_sock p) = true.
Lemma notes_step h p o p' : noting p -> iterateFrame taking_notes h p = (o, p') ->
  noting p' /\ o <> OutOfFuel /\ (forall h', o = Ret h' -> (script_size (w_in p') < script_size (w_in p))%nat).
Proof.
  intros (Hio & Hl & Hg) Ei.
  assert (o <> OutOfFuel /\ forall h', o = Ret h' -> (script_size (w_in p') < script_size (w_in p))%nat) as (F1 & F3).
  { unfold iterateFrame, bind in Ei. destruct (readFrameHeader h p) as [o1 p1] eqn:Eh.
    apply readFrameHeader_fin in Eh. destruct Eh as (G1 & G2 & _).
    destruct o1 as [h1| | | |]; try (injection Ei as <- <-; repeat split; [discriminate|intros; discriminate]); [|congruence].
    specialize (G2 _ eq_refl). destruct (handleFrame taking_notes h1 p1) as [o2 p2] eqn:E2. apply handleFrame_fin in E2. destruct E2 as [G3 G4].
    destruct o2; injection Ei as <- <-; repeat split; try discriminate; try lia; try (intros; discriminate); congruence. }
  split; [|split; [exact F1|exact F3]].
  assert (forall l log, Forall no_config_cmd (taking_notes l log)) as H by (intros; constructor).
  assert (forall l log, Forall harmless_cmd (taking_notes l log)) as H' by (intros; constructor).
  assert (never_stops taking_notes) as H'' by (intros ? ?; reflexivity).
  pose proof (fsim_iterate taking_notes False False H (or_intror H') (or_intror (conj H' H'')) true h) as [_ HS].
  set (t := TWorld (set_wr p [] []) [] (map (fun e => TCall None (snd e)) (w_log p))).
  assert (insync False False true t p) as HI.
  { assert (calls (map (fun e : nat * event => TCall None (snd e)) (w_log p)) = map snd (w_log p)) as HC.
    { clear. induction (w_log p) as [|[l e] r IH]; [reflexivity|]. cbn. f_equal. exact IH. }
    unfold insync, t. cbn [t_world t_calls t_trace set_wr w_in w_sock w_wr].
    split; [reflexivity|]. split; [exact Hio|]. split; [reflexivity|]. split; [reflexivity|]. split; [exact Hl|]. split; [exact Hg|]. split; [exact HC|].
    split; [constructor|]. split; right; [constructor|]. split; [constructor|exact Hg]. }
  destruct ((h' <- local (readFrameHeader h) ;; thandleFrame taking_notes h' ;;; tret h')%t t) as [o1 t1] eqn:E1.
  destruct (HS _ _ _ _ _ _ HI E1 Ei) as [[_ (G1 & G2 & _ & _ & G5 & G6 & _)]|[[] _]]. split; [exact G2|]. split; [exact G5|exact G6].
Qed.
Lemma notes_frames n : forall h p h1 p1 fuel, noting p -> (script_size (w_in p) < fuel)%nat -> read_frames n h p = (Ret h1, p1) ->
  noting p1 /\ (script_size (w_in p1) <= script_size (w_in p))%nat /\
  ((n <> O /\ h_opcode h1 = OPCODE_CLOSE /\ listen_loop taking_notes fuel h p = (Ret tt, p1)) \/
   ((n = O \/ h_opcode h1 <> OPCODE_CLOSE) /\ exists fuel', (script_size (w_in p1) < fuel')%nat /\ listen_loop taking_notes fuel h p = listen_loop taking_notes fuel' h1 p1)).
Proof.
  induction n as [|n IH]; intros h p h1 p1 fuel Hn Hf E; cbn [read_frames] in E.
  - injection E as <- <-. split; [exact Hn|]. split; [lia|]. right. split; [auto|]. eauto.
  - unfold bind in E. destruct (iterateFrame taking_notes h p) as [o2 p2] eqn:E2. destruct (notes_step _ _ _ _ Hn E2) as (Hn2 & _ & Hs).
    destruct o2 as [h2|e| |u|]; try discriminate. specialize (Hs _ eq_refl). destruct fuel as [|fuel]; [lia|].
    assert (listen_loop taking_notes (S fuel) h p = if (negb (h_opcode h2 =? OPCODE_CLOSE) && true)%bool then listen_loop taking_notes fuel h2 p2 else (Ret tt, p2)) as EL.
    { cbn [listen_loop]. unfold iterateFrame, bind in E2. unfold bind, get. destruct (readFrameHeader h p) as [[h3| | | |] p3]; try discriminate.
      destruct (handleFrame taking_notes h3 p3) as [[[]| | | |] p4]; try discriminate. injection E2 as <- <-. destruct Hn2 as (_ & _ & ->).
      destruct (_ && _)%bool; reflexivity. }
    change (h_opcode h2 =? 8) with (h_opcode h2 =? OPCODE_CLOSE) in E. rewrite EL. destruct (N.eqb_spec (h_opcode h2) OPCODE_CLOSE) as [Ec|Ec]; cbn [negb andb].
    + injection E as <- <-. split; [exact Hn2|]. split; [lia|]. left. auto.
    + destruct (IH h2 p2 h1 p1 fuel Hn2 ltac:(lia) E) as (G1 & G2 & G3). split; [exact G1|]. split; [lia|].
      destruct G3 as [(G3 & G4 & G5)|([->|G3] & G4)]; [left; auto| |]; right; (split; [|exact G4]); [right|auto].
      cbn in E. injection E as <- <-. exact Ec.
Qed.
Lemma loop_grow fuel : forall h p o p', noting p -> listen_loop taking_notes fuel h p = (o, p') -> prefix (w_log p) (w_log p').
Proof.
  induction fuel as [|fuel IH]; intros h p o p' Hn E; [injection E as <- <-; apply prefix_refl|].
  destruct (iterateFrame taking_notes h p) as [o2 p2] eqn:E2. pose proof (notes_grow _ _ _ _ E2) as G. destruct (notes_step _ _ _ _ Hn E2) as (Hn2 & _ & _).
  cbn [listen_loop] in E. unfold iterateFrame, bind in E2. unfold bind, get in E. destruct (readFrameHeader h p) as [[h3| | | |] p3]; try (injection E as <- <-; injection E2 as <- <-; exact G).
  destruct (handleFrame taking_notes h3 p3) as [[[]| | | |] p4]; try (injection E as <- <-; injection E2 as <- <-; exact G). injection E2 as <- <-.
  destruct (_ && _)%bool; [|injection E as <- <-; exact G]. eapply prefix_trans; [exact G|]. eapply IH; [exact Hn2|exact E].
Qed.
Lemma loop_next fuel h p o p' : noting p -> (script_size (w_in p) < fuel)%nat -> iterateFrame taking_notes h p = (o, p') ->
  prefix (w_log p') (w_log (snd (listen_loop taking_notes fuel h p))).
Proof.
  intros Hn Hf E2. destruct fuel as [|fuel]; [lia|]. destruct (notes_step _ _ _ _ Hn E2) as (Hn2 & _ & _).
  cbn [listen_loop]. unfold iterateFrame, bind in E2. unfold bind, get. destruct (readFrameHeader h p) as [[h3| | | |] p3]; try (injection E2 as <- <-; apply prefix_refl).
  destruct (handleFrame taking_notes h3 p3) as [[[]| | | |] p4]; try (injection E2 as <- <-; apply prefix_refl). injection E2 as <- <-.
  destruct (_ && _)%bool; [|apply prefix_refl]. destruct (listen_loop taking_notes fuel h3 p4) as [o5 p5] eqn:E5. eapply loop_grow; [exact Hn2|exact E5].
Qed.
Lemma noting_own w : io_only (w_in w) -> noting (on_its_own w).
Proof. intros H. split; [exact H|]. split; reflexivity. Qed.
Lemma listen_notes w : w_log (snd (listen taking_notes (on_its_own w))) = w_log (snd (listen_loop taking_notes (S (script_size (w_in w))) header_init (on_its_own w))).
Proof.
  unfold listen, bind, modify_sock, get, try_. cbn [on_its_own w_sock w_in set_sock].
  match goal with |- context [listen_loop _ _ _ ?q] => change q with (on_its_own w) end.
  destruct (listen_loop _ _ _ (on_its_own w)) as [[] p]; reflexivity.
Qed.
(** However listening ended: the notifications are a beginning of the undisturbed ones. *)
Lemma ended_prefix free o t n h p w : io_only (w_in w) -> read_frames n header_init (on_its_own w) = (Ret h, p) -> ended free o t n h p ->
  prefix (calls (t_trace t)) (map snd (w_log (snd (listen taking_notes (on_its_own w))))).
Proof.
  intros Hio E He. rewrite listen_notes.
  destruct (notes_frames n header_init (on_its_own w) h p (S (script_size (w_in w))) (noting_own w Hio) ltac:(cbn; lia) E) as (Hn & Hs & HL).
  destruct He as [(_ & Hn0 & [Hd _] & _)|(Hcl & o' & p' & Ei & He)].
  - rewrite Hd. apply prefix_map. destruct HL as [(_ & _ & ->)|(_ & fuel & Hf & ->)]; [apply prefix_refl|].
    destruct (listen_loop taking_notes fuel h p) as [o5 p5] eqn:E5. eapply loop_grow; [exact Hn|exact E5].
  - destruct HL as [(L1 & L2 & _)|(_ & fuel & Hf & ->)]; [tauto|]. pose proof (loop_next _ _ _ _ _ Hn Hf Ei) as Hp.
    destruct He as [[[Hd _] _]|(_ & _ & Hd)].
    + rewrite Hd. now apply prefix_map.
    + eapply prefix_trans; [exact Hd|]. now apply prefix_map.
Qed.

(** * Everything thread 0 does *)
Lemma thread0 react work w okr okw hh sch :
  (forall l log, Forall (cmd_ok okr hh) (react l log)) -> (forall i, Forall (cmd_ok okw hh) (work i)) -> (hh -> healthy (w_wr w)) -> io_only (w_in w) ->
  let s := srun sch (system_init react work w) in
  exists a C fn o t, tlisten react (TWorld (World (w_in w) a [] fn 0 (w_log w) (w_sock w)) C []) = (o, t) /\
    others okw C /\ (hh -> healthy a) /\ prefix (told s) (w_log (t_world t)) /\
    forall o', finished s 0 o' -> o' = o /\ told s = w_log (t_world t) /\ v_in (snd (fst s 0%nat)) = w_in (t_world t).
Proof.
  intros Hr Hw Hh Hio s. destruct (each_alone react work w okr okw hh sch Hr Hw Hh) as (lab & rlab & _ & _ & Hi). specialize (Hi (fun _ => x00) 0%nat).
  set (fn := fun n => nth n (from 0 rlab) x00) in *. destruct Hi as (a & C & o & t & E & HC & Ha & Hl & _ & _ & Hf). cbn [start_of priv0 sock0 seen_by] in *. unfold alone in E. cbn [v_in v_log priv_of] in E.
  destruct (lsame_listen react (TWorld (World (w_in w) a [] fn 0 (w_log w) (w_sock w)) C []) Hio) as [E' _]. rewrite E' in E.
  exists a, C, fn, o, t. split; [exact E|]. split; [exact HC|]. split; [exact Ha|]. split; [exact Hl|]. intros o' Ho. apply Hf in Ho. tauto.
Qed.
Lemma prefix_app_inv {A} (a b c : list A) : prefix a b -> prefix a (b ++ c).
Proof. intros [r ->]. exists (r ++ c). now rewrite app_assoc. Qed.
Lemma prefix_app_cut {A} (x a b : list A) : prefix (x ++ a) (x ++ b) -> prefix a b.
Proof. intros [r E]. exists r. rewrite <- app_assoc in E. eapply app_inv_head. exact E. Qed.
Definition quiet_ext (x : ext) : Prop := no_config x /\ no_null x.
Lemma kind_ok c : kind_cmd c -> cmd_ok quiet_ext False c.
Proof. destruct c as [|[]| |? []| | |]; cbn; try contradiction; repeat split; auto; right; split; constructor. Qed.
Lemma any_ok hh c : cmd_ok (fun _ => True) hh c.
Proof. destruct c as [| | |? []| | |]; cbn; auto. Qed.

Lemma step_log ok lis bg hh (p : prog unit) v g p' v' g' : pok ok lis bg hh p -> pstep p v g = Some (p', v', g') -> prefix (v_log v) (v_log v').
Proof.
  intros Hp E. destruct p as [o|u k|k|x k|k|k|n k|d got k|e k]; cbn [pstep pok] in *; try discriminate; try (injection E as <- <- <-; apply prefix_refl).
  - injection E as <- <- <-. exact (proj1 Hp v).
  - destruct d as [|c d]; [injection E as <- <- <-; apply prefix_refl|]. destruct (g_wr g) as [|[n|[]|] q]; try discriminate; injection E as <- <- <-; apply prefix_refl.
Qed.
Lemma told_grows react work w okr okw hh sch : (forall l log, Forall (cmd_ok okr hh) (react l log)) -> (forall i, Forall (cmd_ok okw hh) (work i)) ->
  forall s, sys_inv react work w okr okw hh s -> prefix (told s) (told (srun sch s)).
Proof.
  intros Hr Hw. induction sch as [|i r IH]; intros s Hs; cbn [srun]; [apply prefix_refl|]. eapply prefix_trans; [|apply IH, sys_step, Hs].
  unfold sstep, told. destruct (pstep (fst (fst s i)) (snd (fst s i)) (snd s)) as [[[p' v'] g']|] eqn:E; [|apply prefix_refl].
  destruct Hs as (_ & lab & rlab & _ & _ & _ & _ & Hi). destruct (Hi i) as [Hp _]. cbn [fst snd]. destruct i as [|i]; cbn [Nat.eqb snd]; [|apply prefix_refl].
  eapply step_log; [exact Hp|exact E].
Qed.
Lemma told_start react work w sch : exists new, told (srun sch (system_init react work w)) = w_log w ++ new.
Proof.
  pose proof (told_grows react work w (fun _ => True) (fun _ => True) False sch) as H.
  apply H; [intros l log|intros i|apply sys_start; [intros l log|intros i|intros []]]; apply Forall_forall; intros c _; apply any_ok.
Qed.

(** ** C76 *)
Theorem C76_notifications : forall react work w sch,
  io_only (w_in w) -> s_listener (w_sock w) <> None ->
  (forall l log, Forall kind_cmd (react l log)) -> (forall i, Forall kind_cmd (work i)) ->
  let s := srun sch (system_init react work w) in
  exists new, told s = w_log w ++ new /\
    prefix (map snd new) (map snd (w_log (snd (listen taking_notes (on_its_own w))))).
Proof.
  intros react work w sch Hio Hl Hr Hw s.
  destruct (thread0 react work w (fun _ => True) quiet_ext False sch) as (a & C & fn & o & t & E & HC & _ & Hp & _).
  { intros l log. apply Forall_forall. intros c _. apply any_ok. }
  { intros i. eapply Forall_impl; [|apply Hw]. intros c. apply kind_ok. }
  { intros []. }
  { exact Hio. }
  set (w0 := World (w_in w) a [] fn 0 (w_log w) (w_sock w)) in *.
  assert (others no_null C /\ others no_config C) as [Hn Hc].
  { split; (eapply Forall_impl; [|exact HC]); intros xs Hxs; (eapply Forall_impl; [|exact Hxs]); intros x [? ?]; assumption. }
  destruct (told_calls react w0 C o t Hio Hl Hn Hr E) as (all & G1 & G2).
  destruct (C69_delivery react w0 C o t) as (n & h & p & F1 & F2); [|exact Hc|exact Hio|exact E|].
  { intros l log. eapply Forall_impl; [|apply Hr]. intros [] Hx; cbn in *; tauto. }
  change (on_its_own w0) with (on_its_own w) in F1. pose proof (ended_prefix True o t n h p w Hio F1 F2) as Hq.
  destruct (told_start react work w sch) as [new Hnew]. fold s in Hnew, Hp. exists new. split; [exact Hnew|].
  eapply prefix_trans; [|exact Hq]. rewrite <- G2. apply prefix_map. apply (prefix_app_cut (w_log w)). rewrite <- Hnew. 
  change (w_log w) with (w_log w0). rewrite <- G1. exact Hp.
Qed.
Print Assumptions C76_notifications.

(** With code that cannot fail and nobody calling stopListening, listen() of thread 0 does exactly what it does undisturbed. *)
Lemma gentle_ok c : gentle_cmd c -> is_stop_cmd c = false -> cmd_ok (fun x => quiet_ext x /\ x <> XStop) True c.
Proof. intros [H H1]. destruct c as [|[]| |? []| | |]; cbn in *; try contradiction; try discriminate; repeat split; auto; discriminate. Qed.
Lemma gentle_ok' c : gentle_cmd c -> cmd_ok quiet_ext True c.
Proof. intros [H H1]. destruct c as [|[]| |? []| | |]; cbn in *; try contradiction; repeat split; auto. Qed.
Theorem C76_everything : forall react work w sch o,
  io_only (w_in w) -> s_listener (w_sock w) <> None -> healthy (w_wr w) ->
  (forall l log, Forall gentle_cmd (react l log)) -> (forall i, Forall gentle_cmd (work i)) -> never_stops react -> no_stop work ->
  let s := srun sch (system_init react work w) in finished s 0 o ->
  exists new p, listen taking_notes (on_its_own w) = (o, p) /\ told s = w_log w ++ new /\ map snd new = map snd (w_log p).
Proof.
  intros react work w sch o Hio Hl Hh Hr Hw Hs Hs' s Hfin.
  destruct (thread0 react work w (fun _ => True) (fun x => quiet_ext x /\ x <> XStop) True sch) as (a & C & fn & o1 & t & E & HC & Ha & _ & Hf).
  { intros l log. apply Forall_forall. intros c _. apply any_ok. }
  { intros i. specialize (Hs' i). specialize (Hw i). rewrite Forall_forall in *. intros c Hc. apply gentle_ok; [now apply Hw|].
    destruct (is_stop_cmd c) eqn:Es; [|reflexivity]. rewrite (proj2 (existsb_exists _ _)) in Hs'; [discriminate|eauto]. }
  { auto. }
  { exact Hio. }
  destruct (Hf o Hfin) as (<- & Ht & _). specialize (Ha Logic.I).
  set (w0 := World (w_in w) a [] fn 0 (w_log w) (w_sock w)) in *.
  assert (others no_null C /\ others no_config C /\ others (fun x => x <> XStop) C) as (Hn & Hc & Hx).
  { split; [|split]; (eapply Forall_impl; [|exact HC]); intros xs Hxs; (eapply Forall_impl; [|exact Hxs]); intros x [[? ?] ?]; assumption. }
  destruct (told_calls react w0 C o t Hio Hl Hn) as (all & G1 & G2); [|exact E|].
  { intros l log. eapply Forall_impl; [|apply Hr]. intros c [? _]; assumption. }
  destruct (C69_undisturbed react w0 C o t) as (p & F1 & F2 & _); try assumption.
  { intros l log. eapply Forall_impl; [|apply Hr]. intros c [_ ?]; assumption. }
  change (on_its_own w0) with (on_its_own w) in F1. exists all, p. split; [exact F1|]. split; [etransitivity; [exact Ht|exact G1]|]. now rewrite G2.
Qed.
Print Assumptions C76_everything.

(** stopListening may be called: listening then ends between two frames, and every notification of every frame begun is made. *)
Theorem C76_whole_frames : forall react work w sch o,
  io_only (w_in w) -> s_listener (w_sock w) <> None -> healthy (w_wr w) ->
  (forall l log, Forall gentle_cmd (react l log)) -> (forall i, Forall gentle_cmd (work i)) ->
  let s := srun sch (system_init react work w) in finished s 0 o ->
  exists n h p new, read_frames n header_init (on_its_own w) = (Ret h, p) /\ told s = w_log w ++ new /\
    ((o = Ret tt /\ n <> O /\ map snd new = map snd (w_log p)) \/
     exists o' p', iterateFrame taking_notes h p = (o', p') /\ map snd new = map snd (w_log p') /\
       ((exists e, o' = Throw e /\ o = Ret tt) \/ (o' = Wait /\ o = Wait))).
Proof.
  intros react work w sch o Hio Hl Hh Hr Hw s Hfin.
  destruct (thread0 react work w (fun _ => True) quiet_ext True sch) as (a & C & fn & o1 & t & E & HC & Ha & _ & Hf).
  { intros l log. apply Forall_forall. intros c _. apply any_ok. }
  { intros i. eapply Forall_impl; [|apply Hw]. apply gentle_ok'. }
  { auto. }
  { exact Hio. }
  destruct (Hf o Hfin) as (<- & Ht & _). specialize (Ha Logic.I).
  set (w0 := World (w_in w) a [] fn 0 (w_log w) (w_sock w)) in *.
  assert (others no_null C /\ others no_config C) as (Hn & Hc).
  { split; (eapply Forall_impl; [|exact HC]); intros xs Hxs; (eapply Forall_impl; [|exact Hxs]); intros x [? ?]; assumption. }
  destruct (told_calls react w0 C o t Hio Hl Hn) as (all & G1 & G2); [|exact E|].
  { intros l log. eapply Forall_impl; [|apply Hr]. intros c [? _]; assumption. }
  destruct (C69_whole_frames react w0 C o t) as (n & h & p & F1 & F2); try assumption.
  { intros l log. eapply Forall_impl; [|apply Hr]. intros c [_ ?]; assumption. }
  change (on_its_own w0) with (on_its_own w) in F1. exists n, h, p, all. split; [exact F1|]. split; [etransitivity; [exact Ht|exact G1]|].
  destruct F2 as [(-> & Hn0 & [Hd _] & _)|(_ & o' & p' & Ei & [[[Hd _] Ho]|([] & _)])].
  - left. rewrite G2. auto.
  - right. exists o', p'. rewrite G2. auto.
Qed.
Print Assumptions C76_whole_frames.

(** ** C77 *)
Lemma prefix_whole {A} (a b c : list A) : prefix a b -> b = c -> prefix a c.
Proof. intros H <-. exact H. Qed.
Lemma mask_cmd_ok m hh react work w : masks_as m react work w ->
  (forall l log, Forall (cmd_ok (mask_ok m) hh) (react l log)) /\ (forall i, Forall (cmd_ok (mask_ok m) hh) (work i)) /\
  (forall l log, Forall (cmask_ok m) (react l log)) /\ (forall i, Forall (cmask_ok m) (work i)).
Proof.
  intros Hm.
  assert (forall cs, (forall b, m = Some b -> Forall (mask_cmd b) cs) -> Forall (cmd_ok (mask_ok m) hh) cs /\ Forall (cmask_ok m) cs) as H.
  { intros cs H. rewrite !Forall_forall. split; intros c Hc.
    - destruct c as [| |m' b'|? []| | |]; cbn; auto; try (intros b Hb; exact Logic.I); try (right; intros b Hb; exact Logic.I).
      intros b Hb. specialize (H b Hb). rewrite Forall_forall in H. exact (H _ Hc).
    - intros b m' d Hb ->. specialize (H b Hb). rewrite Forall_forall in H. exact (H _ Hc). }
  repeat split; intros; apply H; intros b Hb; apply Hm, Hb.
Qed.
Lemma taken_le l : (taken l <= 4 * length l)%nat.
Proof. induction l as [|[k|] l IH]; cbn [taken length]; lia. Qed.
Lemma put_taken mm whole sent ops : Forall2 (put mm whole) sent ops -> (taken (map fst sent) <= 4 * length ops)%nat.
Proof. intros H. assert (length sent = length ops) as <- by (induction H; cbn [length]; congruence). rewrite <- (map_length fst sent). apply taken_le. Qed.
Lemma wput_all mm whole w w' ops : w_out w = [] -> w_rpos w = 0%nat -> wput mm whole w w' ops ->
  put_all mm whole (w_rnd w) (w_out w') ops /\ (w_rpos w' <= 4 * length ops)%nat.
Proof.
  intros H1 H2 (sent & P1 & _ & P3 & P4 & P5). rewrite H1, H2 in *. cbn [app Nat.add] in *. split; [exists sent; auto|]. rewrite P3. eapply put_taken, P5.
Qed.
Lemma drawn_back (rlab : list (nat * byte)) rnd pos : map snd rlab = map rnd (seq pos (length rlab)) ->
  combine (map fst rlab) (map rnd (seq pos (length (map fst rlab)))) = rlab.
Proof.
  intros H. rewrite map_length, <- H. clear H. induction rlab as [|[i b] r IH]; cbn [map combine fst snd]; [reflexivity|]. now rewrite IH.
Qed.
Lemma count_from i (rlab : list (nat * byte)) : count_occ Nat.eq_dec (map fst rlab) i = length (from i rlab).
Proof.
  unfold from. rewrite map_length. induction rlab as [|[j b] r IH]; cbn [map fst count_occ filter]; [reflexivity|].
  destruct (Nat.eq_dec j i) as [->|Hne]; [rewrite Nat.eqb_refl; cbn [length]; now rewrite IH|]. apply Nat.eqb_neq in Hne. now rewrite Hne.
Qed.
Theorem C77_bytes : forall m react work w sch,
  io_only (w_in w) -> small_react react -> small_work work -> masks_as m react work w ->
  let s := srun sch (system_init react work w) in
  exists lab drawn, wire_out s = w_out w ++ map snd lab /\ forall later, let rnd := own_random (w_rnd w) (w_rpos w) drawn later in
    (forall i, i <> 0%nat -> exists ops b,
       put_all m (healthy (w_wr w)) (rnd i) b ops /\ prefix ops (sends_of (work i)) /\ (healthy (w_wr w) -> ops = sends_of (work i)) /\
       (count_occ Nat.eq_dec drawn i <= 4 * length ops)%nat /\
       prefix (from i lab) b /\ forall o, finished s i o -> from i lab = b /\ (o = Ret tt -> ops = sends_of (work i))) /\
    exists new ops b,
       put_all m (healthy (w_wr w)) (rnd 0%nat) b ops /\ prefix ops (replies react (w_log w) new) /\ (healthy (w_wr w) -> ops = replies react (w_log w) new) /\
       (count_occ Nat.eq_dec drawn 0 <= 4 * length ops)%nat /\
       prefix (told s) (w_log w ++ new) /\ prefix (from 0 lab) b /\ forall o, finished s 0 o -> told s = w_log w ++ new /\ from 0 lab = b.
Proof.
  intros m react work w sch Hio Hsr Hsw Hm s.
  destruct (mask_cmd_ok m (healthy (w_wr w)) _ _ _ Hm) as (M1 & M2 & M3 & M4).
  destruct (each_alone react work w (mask_ok m) (mask_ok m) (healthy (w_wr w)) sch M1 M2 (fun H => H)) as (lab & rlab & Ho & Hr & Hi).
  exists lab, (map fst rlab). split; [exact Ho|]. intros later rnd.
  assert (forall i, rnd i = fun n => nth n (from i rlab) (later n)) as Hrnd by (intros i; unfold rnd, own_random; now rewrite (drawn_back _ _ _ Hr)).
  split.
  - intros i Hi0. rewrite count_from, Hrnd. destruct (Hi later i) as (a & C & o & t & E & HC & Ha & _ & Hp & Hq & Hf). set (fn := fun n => nth n (from i rlab) (later n)) in *.
    destruct i as [|i]; [congruence|].
    cbn [start_of priv0 sock0 seen_by] in *. rewrite interp_cmds in E.
    assert (pre_put m (healthy (w_wr w)) (alone nothing (set_last (w_sock w) (-1)) a C fn)) as HP.
    { split; [intros b Hb; apply Hm, Hb|]. split; [exact Ha|]. split; [|constructor].
      eapply Forall_impl; [|exact HC]. intros xs Hxs. eapply Forall_impl; [|exact Hxs]. intros x [?|?]; assumption. }
    destruct (tcmds_put _ _ _ (Hsw (S i)) (M4 (S i)) _ _ _ HP E) as (_ & _ & ops & G2 & G3 & G4). apply wput_all in G2; [|reflexivity..]. destruct G2 as [G1 G2].
    cbn [alone t_world w_rnd] in G1.
    exists ops, (w_out (t_world t)). split; [exact G1|]. split; [exact G3|]. split; [auto|]. split; [lia|]. split; [exact Hp|].
    intros o' Hfin. destruct (Hf o' Hfin) as (-> & _ & _ & G5). auto.
  - rewrite count_from, Hrnd. destruct (Hi later 0%nat) as (a & C & o & t & E & HC & Ha & Hl & Hp & Hq & Hf). set (fn := fun n => nth n (from 0 rlab) (later n)) in *.
    cbn [start_of priv0 sock0 seen_by] in *. unfold alone in E. cbn [v_in v_log priv_of] in E.
    destruct (lsame_listen react (TWorld (World (w_in w) a [] fn 0 (w_log w) (w_sock w)) C []) Hio) as [E' _]. rewrite E' in E.
    assert (pre_put m (healthy (w_wr w)) (TWorld (World (w_in w) a [] fn 0 (w_log w) (w_sock w)) C [])) as HP.
    { split; [intros b Hb; apply Hm, Hb|]. split; [exact Ha|]. split; [exact HC|exact Hio]. }
    destruct (tlisten_put _ _ _ Hsr M3 _ _ _ HP E) as (new & ops & G1 & G3 & G4 & G5). apply wput_all in G3; [|reflexivity..]. destruct G3 as [G2 G3]. cbn [t_world w_rnd w_log] in *.
    exists new, ops, (w_out (t_world t)). split; [exact G2|]. split; [exact G4|]. split; [exact G5|]. split; [lia|]. rewrite <- G1. split; [exact Hl|]. split; [exact Hp|].
    intros o' Hfin. destruct (Hf o' Hfin) as (_ & H1 & _ & H2). auto.
Qed.
Print Assumptions C77_bytes.
