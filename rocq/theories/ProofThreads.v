(** Lemmas about a blocking socket used by several threads (Threads.v). *)
From Verif Require Import Bytes Frame World WebSocket SpecFrame SpecSend SpecListen SpecApi SpecConfig SpecAsync Threads SpecThreads
  ProofFrame ProofStream ProofSend ProofHeader ProofListen ProofInv ProofAsync.
From Coq Require Import ZifyBool ZifyNat ZifyN.
Local Open Scope N_scope.
Local Arguments takeN : simpl never.
Local Arguments dropN : simpl never.
Local Arguments lenN : simpl never.
Local Arguments be_enc : simpl never.
Local Arguments be_dec : simpl never.

(** * Listener code *)
Lemma exec_cmd_effect c w o w' : exec_cmd c w = (o, w') ->
  w_in w' = w_in w /\ w_log w' = w_log w /\ s_last (w_sock w') = s_last (w_sock w) /\
  (no_config_cmd c -> s_buf (w_sock w') = s_buf (w_sock w)) /\
  s_listener (w_sock w') = (match c with CSetListener l => l | _ => s_listener (w_sock w) end) /\
  (s_listening (w_sock w') = true -> s_listening (w_sock w) = true /\ c <> CStop) /\ o <> OutOfFuel.
Proof.
  intros E.
  assert (is_send_cmd c \/ c = CStop \/ (exists l, c = CSetListener l) \/ (exists m b, c = CSetConfig m b) \/ c = CUseData \/ c = CThrow) as H
    by (destruct c; cbn; eauto 7).
  destruct H as [H|[->|[[l ->]|[[m [b ->]]|[->| -> ]]]]]; try (injection E as <- <-; cbn; repeat split; try discriminate; try tauto; try (intros []); fail).
  apply (keeps_send_cmd c H) in E. destruct E as [(H1 & H2 & _ & (T1 & T2 & T3 & T4 & T5) & _) Ho].
  repeat split; auto.
  - destruct c; try contradiction; exact T3.
  - intros ->. exact H.
  - intros ->. exact Ho.
Qed.
Lemma exec_cmd_harmless c w o w' : harmless_cmd c -> healthy (w_wr w) -> exec_cmd c w = (o, w') ->
  o = Ret tt /\ healthy (w_wr w') /\ s_listening (w_sock w') = (s_listening (w_sock w) && negb (is_stop_cmd c))%bool.
Proof.
  intros Hc Hh E. destruct c as [|l|m b|catch op| | |fin opc m]; cbn [harmless_cmd] in Hc; try contradiction.
  2: { injection E as <- <-. cbn. rewrite Bool.andb_true_r. auto. }
  all: match type of E with exec_cmd ?c _ = _ =>
    assert (exec_cmds [c] w = (o, w')) as E' by (cbn [exec_cmds]; unfold bind; rewrite E; destruct o as [[]| | | |]; reflexivity);
    apply exec_cmds_polite in E'; [|constructor; [exact Hc|constructor]|exact Hh]; destruct E' as [-> E'];
    cbn [existsb] in E'; rewrite Bool.orb_false_r in E'; split; [reflexivity|split; [|exact E']] end.
  - injection E as <-. exact Hh.
  - apply (keeps_send_cmd (CSend catch op) I) in E. apply E, Hh.
  - injection E as <-. exact Hh.
  - apply (keeps_send_cmd (CDemand fin opc m) I) in E. apply E, Hh.
Qed.

(** * Calls of other threads *)
Lemma apply_exts_last xs k : s_last (fold_left (fun k x => apply_ext x k) xs k) = s_last k.
Proof. revert k; induction xs as [|x xs IH]; intros k; [reflexivity|]. cbn [fold_left]. rewrite IH. now destruct x. Qed.
Lemma apply_exts_inv (I : sock -> Prop) (P : ext -> Prop) xs k :
  (forall x y, P x -> I y -> I (apply_ext x y)) -> Forall P xs -> I k -> I (fold_left (fun k x => apply_ext x k) xs k).
Proof. intros HI H. revert k; induction H as [|x xs Hx _ IH]; intros k Hk; [exact Hk|]. cbn [fold_left]. apply IH. now apply HI. Qed.

Lemma calls_app a b : calls (a ++ b) = calls a ++ calls b.
Proof. unfold calls. apply flat_map_app. Qed.
Lemma calls_others xs : calls (map TOther xs) = [].
Proof. induction xs; [reflexivity|]. cbn. exact IHxs. Qed.

(** * In step with a socket on its own *)
Section Sim.
Variable react : react_t.
(** [K]: listener code may fail, the listener may be taken away; [L]: somebody may stop. *)
Variables K L : Prop.
Hypothesis Hconf : forall l log, Forall no_config_cmd (react l log).
Hypothesis Hk : K \/ forall l log, Forall harmless_cmd (react l log).
Hypothesis Hl : L \/ ((forall l log, Forall harmless_cmd (react l log)) /\ never_stops react).
Variable lf : bool.

Definition ok_ext (x : ext) : Prop := no_config x /\ (K \/ no_null x) /\ (L \/ x <> XStop).
Definition insync (t : tworld) (p : world) : Prop :=
  w_in (t_world t) = w_in p /\ io_only (w_in p) /\ s_last (w_sock (t_world t)) = s_last (w_sock p) /\
  s_buf (w_sock (t_world t)) = s_buf (w_sock p) /\ s_listener (w_sock p) = Some 0%nat /\ s_listening (w_sock p) = lf /\
  calls (t_trace t) = map snd (w_log p) /\ others ok_ext (t_calls t) /\
  (K \/ healthy (w_wr (t_world t))) /\ (L \/ (healthy (w_wr (t_world t)) /\ s_listening (w_sock (t_world t)) = true)).

(** The socket was left in the middle of things. *)
Definition cut {A} (o : outcome A) (t : tworld) (p p' : world) : Prop :=
  K /\ (forall a, o <> Ret a) /\ o <> OutOfFuel /\
  prefix (map snd (w_log p)) (calls (t_trace t)) /\ prefix (calls (t_trace t)) (map snd (w_log p')).
Definition fsim {A} (m : TM A) (n : M A) : Prop :=
  (forall w o w', n w = (o, w') -> prefix (w_log w) (w_log w')) /\
  forall t p o t' o' p', insync t p -> m t = (o, t') -> n p = (o', p') -> (o = o' /\ insync t' p') \/ cut o t' p p'.

Lemma prefix_map {A B} (f : A -> B) a b : prefix a b -> prefix (map f a) (map f b).
Proof. intros [r ->]. exists (map f r). apply map_app. Qed.

Lemma fsim_bind {A B} (m : TM A) (n : M A) (f : A -> TM B) (g : A -> M B) :
  fsim m n -> (forall a, fsim (f a) (g a)) -> fsim (tbind m f) (bind n g).
Proof.
  intros [Hn Hm] Hf. split.
  { intros w o w' E. unfold bind in E. destruct (n w) as [o1 w1] eqn:E1. apply Hn in E1.
    destruct o1 as [a|e| |u|]; try (injection E as <- <-; exact E1). apply (proj1 (Hf a)) in E. eapply prefix_trans; eassumption. }
  intros t p o t' o' p' HR E E'. unfold tbind in E. unfold bind in E'.
  destruct (m t) as [o1 t1] eqn:E1. destruct (n p) as [o2 p1] eqn:E2. pose proof (Hn _ _ _ E2) as Hp.
  destruct (Hm _ _ _ _ _ _ HR E1 E2) as [[<- H1]|(C0 & C1 & C2 & C3 & C4)].
  - destruct o1 as [a|e| |u|]; try (injection E as <- <-; injection E' as <- <-; left; split; [reflexivity|exact H1]).
    destruct (proj2 (Hf a) _ _ _ _ _ _ H1 E E') as [H|(D0 & D1 & D2 & D3 & D4)]; [left; exact H|right]. repeat split; auto.
    eapply prefix_trans; [apply prefix_map; exact Hp|exact D3].
  - assert (prefix (w_log p1) (w_log p')) as Hq.
    { destruct o2 as [a|e| |u|]; try (injection E' as <- <-; apply prefix_refl). eapply (proj1 (Hf a)); eassumption. }
    right.
    assert (cut (match o1 with Ret _ => Wait | Throw e => Throw e | Wait => Wait | Ub u => Ub u | OutOfFuel => OutOfFuel end : outcome B) t1 p p') as HC.
    { split; [exact C0|]. split; [destruct o1; discriminate|]. split; [destruct o1; congruence|]. split; [exact C3|].
      eapply prefix_trans; [exact C4|]. now apply prefix_map. }
    destruct o1 as [a|e| |u|]; [exfalso; exact (C1 a eq_refl)|..]; injection E as <- <-; exact HC.
Qed.
Lemma fsim_eq {A} (m m' : TM A) (n n' : M A) : (forall t, m t = m' t) -> (forall w, n w = n' w) -> fsim m' n' -> fsim m n.
Proof. intros H1 H2 [G1 G2]. split; [intros w o w' E; rewrite H2 in E; eauto|]. intros t p o t' o' p' HR E E'. rewrite H1 in E. rewrite H2 in E'. eauto. Qed.
Lemma fsim_local_bind {A B} (m : M A) (f : A -> M B) : fsim (local m) m -> (forall a, fsim (local (f a)) (f a)) -> fsim (local (bind m f)) (bind m f).
Proof.
  intros H1 H2. eapply fsim_eq; [|reflexivity|eapply fsim_bind; [exact H1|exact H2]]. intros t. unfold local, tbind, bind.
  destruct (m (t_world t)) as [[a|e| |u|] w1]; reflexivity.
Qed.

Lemma fsim_ret {A} (a : A) : fsim (tret a) (ret a).
Proof. split; [intros w o w' E; injection E as <- <-; apply prefix_refl|]. intros t p o t' o' p' HR E E'. injection E as <- <-. injection E' as <- <-. auto. Qed.
Lemma fsim_fail {A} (o : outcome A) : fsim (tfail o) (fun w => (o, w)).
Proof. split; [intros w o1 w' E; injection E as <- <-; apply prefix_refl|]. intros t p o1 t' o' p' HR E E'. injection E as <- <-. injection E' as <- <-. auto. Qed.
Lemma fsim_lfail {A} (o : outcome A) : fsim (local (fun w => (o, w))) (fun w => (o, w)).
Proof. eapply fsim_eq; [|reflexivity|apply fsim_fail]. intros []; reflexivity. Qed.

Lemma insync_interleave t p o t' : insync t p -> interleave t = (o, t') -> o = Ret tt /\ insync t' p.
Proof.
  intros (H1 & H2 & H3 & H4 & H5 & H6 & H7 & H8 & H9 & H10) E. unfold interleave in E.
  destruct (t_calls t) as [|xs r] eqn:Ec; injection E as <- <-; (split; [reflexivity|]).
  - unfold insync. rewrite Ec. auto 12.
  - apply Forall_cons_iff in H8. destruct H8 as [Hx H8]. unfold insync. cbn [t_world t_calls t_trace w_in set_sock w_sock w_wr].
    split; [exact H1|]. split; [exact H2|]. split; [rewrite apply_exts_last; exact H3|].
    split. { apply (apply_exts_inv (fun k => s_buf k = s_buf (w_sock p)) ok_ext); [|exact Hx|exact H4]. intros [] y (N & _); cbn in *; tauto. }
    split; [exact H5|]. split; [exact H6|]. split; [rewrite calls_app, calls_others, app_nil_r; exact H7|]. split; [exact H8|].
    split; [exact H9|]. destruct H10 as [H10|[H10 H11]]; [auto|].
    assert (L \/ Forall (fun x => x <> XStop) xs) as [Hs|Hs]; [|left; exact Hs|].
    { clear - Hx. induction Hx as [|x xs (_ & _ & [Hx|Hx]) _ IH]; [right; constructor|auto|]. destruct IH; [auto|right; constructor; assumption]. }
    right. split; [exact H10|]. apply (apply_exts_inv (fun k => s_listening k = true) (fun x => x <> XStop)); [|exact Hs|exact H11].
    intros [] y Hn; cbn; congruence.
Qed.

Lemma insync_mark t p e o t' : calls [e] = [] -> insync t p -> mark e t = (o, t') -> o = Ret tt /\ insync t' p.
Proof.
  intros He (H1 & H2 & H3 & H4 & H5 & H6 & H7 & H8 & H9 & H10) E. injection E as <- <-. split; [reflexivity|].
  unfold insync. cbn [t_world t_calls t_trace]. rewrite calls_app, He, app_nil_r. auto 12.
Qed.

(** One command. *)
Lemma insync_cmd c t p o t' : no_config_cmd c -> (K \/ harmless_cmd c) -> (L \/ (harmless_cmd c /\ is_stop_cmd c = false)) ->
  insync t p -> texec_cmd c t = (o, t') ->
  insync t' p /\ (o = Ret tt \/ (K /\ (forall a, o <> Ret a) /\ o <> OutOfFuel)).
Proof.
  intros Hc1 Hc2 Hc3 HR E. unfold texec_cmd in E. unfold tbind at 1 in E. destruct (interleave t) as [o0 t0] eqn:E0.
  apply (insync_interleave _ _ _ _ HR) in E0. destruct E0 as [-> H0]. unfold tbind at 1 in E.
  set (m := match c with CStop => mark TStop | CSetListener l => mark (TInstall l) | CSetConfig m b => mark (TConfig m b) | _ => tret tt end) in E.
  destruct (m t0) as [o1 t1] eqn:E1.
  assert (o1 = Ret tt /\ insync t1 p) as [-> H1].
  { unfold m in E1. destruct c; try (injection E1 as <- <-; split; [reflexivity|exact H0]); eapply insync_mark; try eassumption; reflexivity. }
  clear m E1 H0. unfold local in E. destruct (exec_cmd c (t_world t1)) as [o2 w2] eqn:E2. injection E as <- <-.
  destruct (exec_cmd_effect _ _ _ _ E2) as (F1 & F2 & F3 & F4 & F5 & F6 & F7).
  destruct H1 as (G1 & G2 & G3 & G4 & G5 & G6 & G7 & G8 & G9 & G10).
  assert (K \/ healthy (w_wr w2) /\ o2 = Ret tt) as HK.
  { destruct Hc2 as [Hk1|Hc2]; [auto|]. destruct G9 as [G9|G9]; [auto|].
    destruct (exec_cmd_harmless _ _ _ _ Hc2 G9 E2) as (-> & ? & _). auto. }
  assert (L \/ healthy (w_wr w2) /\ s_listening (w_sock w2) = true) as HL.
  { destruct Hc3 as [?|[Hc3 Hc4]]; [auto|]. destruct G10 as [?|[G10 G11]]; [auto|].
    destruct (exec_cmd_harmless _ _ _ _ Hc3 G10 E2) as (_ & ? & ->). rewrite G11, Hc4. auto. }
  split.
  - unfold insync. cbn [t_world t_calls t_trace]. rewrite F1, F3, (F4 Hc1). repeat split; auto. destruct HK as [?|[? _]]; auto.
  - destruct o2 as [[]|e| |u|]; [auto|..]; right; (split; [destruct HK as [?|[_ ?]]; [assumption|discriminate]|split; [intros a; discriminate|congruence]]).
Qed.
Lemma insync_cmds cs t p o t' : Forall no_config_cmd cs -> (K \/ Forall harmless_cmd cs) ->
  (L \/ (Forall harmless_cmd cs /\ existsb is_stop_cmd cs = false)) ->
  insync t p -> texec_cmds cs t = (o, t') ->
  insync t' p /\ (o = Ret tt \/ (K /\ (forall a, o <> Ret a) /\ o <> OutOfFuel)).
Proof.
  intros H1. revert t. induction H1 as [|c cs H1 _ IH]; intros t H2 H3 HR E; cbn [texec_cmds] in E.
  - injection E as <- <-. auto.
  - unfold tbind in E. destruct (texec_cmd c t) as [o1 t1] eqn:E1.
    apply (insync_cmd c _ p) in E1; [|exact H1| | |exact HR].
    + destruct E1 as [G1 [->|(G2 & G3 & G4)]].
      * eapply IH; [| |exact G1|exact E]. { destruct H2 as [?|H2]; [auto|]. apply Forall_cons_iff in H2. tauto. }
        destruct H3 as [?|[H3 H4]]; [auto|]. apply Forall_cons_iff in H3. cbn in H4. apply Bool.orb_false_elim in H4. tauto.
      * destruct o1 as [a|e| |u|]; [exfalso; exact (G3 a eq_refl)|..]; injection E as <- <-; (split; [exact G1|right; split; [exact G2|split; [intros a; discriminate|congruence]]]).
    + destruct H2 as [?|H2]; [auto|]. apply Forall_cons_iff in H2. tauto.
    + destruct H3 as [?|[H3 H4]]; [auto|]. apply Forall_cons_iff in H3. cbn in H4. apply Bool.orb_false_elim in H4. tauto.
Qed.

(** One notification. *)
Lemma access_listener t p a t' : insync t p -> access s_listener t = (a, t') ->
  insync t' p /\ exists l, a = Ret l /\ s_listener (w_sock (t_world t')) = l /\ l = s_listener (w_sock (t_world t')).
Proof.
  intros HR E. unfold access, tbind in E. destruct (interleave t) as [o0 t0] eqn:E0. apply (insync_interleave _ _ _ _ HR) in E0.
  destruct E0 as [-> H0]. cbn in E. injection E as <- <-. split; [exact H0|]. eauto.
Qed.
Lemma interleave_no_null t o t' : others no_null (t_calls t) -> s_listener (w_sock (t_world t)) <> None -> interleave t = (o, t') ->
  s_listener (w_sock (t_world t')) <> None.
Proof.
  intros H1 H2 E. unfold interleave in E. destruct (t_calls t) as [|xs r]; injection E as <- <-; [exact H2|].
  cbn [t_world w_sock set_sock]. apply Forall_cons_iff in H1.
  apply (apply_exts_inv (fun k => s_listener k <> None) no_null); [|apply H1|exact H2]. intros [|[]|] y Hn Hy; cbn in *; try tauto; discriminate.
Qed.

Lemma fsim_notify ev : fsim (tnotify react ev) (notify taking_notes ev).
Proof.
  split. { intros w o w' E. unfold notify in E. destruct (s_listener (w_sock w)); cbn in E; injection E as <- <-; [cbn [w_log set_log]; eexists; reflexivity|apply prefix_refl]. }
  intros t p o t' o' p' HR E E'.
  assert (o' = Ret tt /\ p' = set_log p (w_log p ++ [(0%nat, ev)])) as [-> ->].
  { destruct HR as (_ & _ & _ & _ & H & _). unfold notify in E'. rewrite H in E'. cbn in E'. injection E' as <- <-. auto. }
  assert (forall t l, insync t p ->
    forall w, w_in w = w_in (t_world t) -> w_sock w = w_sock (t_world t) -> w_wr w = w_wr (t_world t) ->
    insync (TWorld w (t_calls t) (t_trace t ++ [TCall l ev])) (set_log p (w_log p ++ [(0%nat, ev)]))) as Hlog.
  { intros u l (H1 & H2 & H3 & H4 & H5 & H6 & H7 & H8 & H9 & H10) w W1 W2 W3. unfold insync. cbn [t_world t_calls t_trace w_in w_sock set_log w_log].
    rewrite W1, W2, W3, calls_app, map_app, H7. auto 12. }
  assert (forall u, insync u p -> others no_null (t_calls u) \/ K) as Hnull.
  { intros u (_ & _ & _ & _ & _ & _ & _ & H & _). clear - H. unfold others in *. induction H as [|xs r Hx _ IH]; [left; constructor|].
    destruct IH as [IH|IH]; [|auto]. assert (Forall no_null xs \/ K) as [Hy|Hy]; [|left; constructor; assumption|auto].
    clear - Hx. induction Hx as [|x xs (_ & [Hx|Hx] & _) _ IH]; [left; constructor|auto|]. destruct IH; [left; constructor; assumption|auto]. }
  unfold tnotify in E. unfold tbind at 1 in E. unfold access at 1, tbind at 1 in E. destruct (interleave t) as [o0 t0] eqn:E0.
  apply (insync_interleave _ _ _ _ HR) in E0. destruct E0 as [-> H0]. unfold tbind at 1, tget, tret in E.
  destruct (s_listener (w_sock (t_world t0))) as [l0|] eqn:El0.
  2: { injection E as <- <-. left. split; [reflexivity|]. apply Hlog; auto. }
  unfold tbind at 1 in E. unfold access, tbind at 1 in E. destruct (interleave t0) as [o1 t1] eqn:E1. pose proof E1 as E1'.
  apply (insync_interleave _ _ _ _ H0) in E1. destruct E1 as [-> H1]. unfold tbind at 1, tget, tret in E.
  destruct (s_listener (w_sock (t_world t1))) as [l1|] eqn:El1.
  2: { injection E as <- <-. right. split.
       { destruct (Hnull _ H0) as [H|H]; [|exact H]. exfalso. apply (interleave_no_null _ _ _ H) in E1'; congruence. }
       split; [intros a; discriminate|]. split; [discriminate|]. destruct H1 as (_ & _ & _ & _ & _ & _ & H7 & _). rewrite H7.
       split; [apply prefix_refl|]. cbn [w_log set_log]. apply prefix_map. eexists; reflexivity. }
  cbn [tbind mark local tget t_world t_calls t_trace] in E. unfold tbind, mark, local, tget in E. cbn [t_world t_calls t_trace] in E.
  match type of E with texec_cmds _ ?u = _ => assert (insync u (set_log p (w_log p ++ [(0%nat, ev)]))) as H2 by (apply Hlog; auto) end.
  apply (insync_cmds _ _ (set_log p (w_log p ++ [(0%nat, ev)]))) in E; [| | | |exact H2].
  - destruct E as [G1 [->|(G2 & G3 & G4)]]; [left; auto|right]. split; [exact G2|]. split; [exact G3|]. split; [exact G4|].
    destruct G1 as (_ & _ & _ & _ & _ & _ & H7 & _). rewrite H7. split; [|apply prefix_refl]. cbn [w_log set_log]. apply prefix_map. eexists; reflexivity.
  - apply Hconf.
  - destruct Hk as [?|H]; [auto|]. right. apply H.
  - destruct Hl as [?|[H G]]; [auto|]. right. split; [apply H|apply G].
Qed.

(** Reading. *)
Lemma fsim_readSimple n : fsim (local (readSimple n)) (readSimple n).
Proof.
  split. { intros w o w' E. unfold readSimple in E. destruct (n <? 0)%Z; [|destruct (n =? 0)%Z]; [injection E as <- <-; apply prefix_refl..|]. destruct (read_raw _ _ _) as [[[] ?] ?]; injection E as <- <-; apply prefix_refl. }
  intros t p o t' o' p' (H1 & H2 & H3 & H4 & H5 & H6 & H7 & H8 & H9 & H10) E E'. unfold local, readSimple in *.
  destruct (n <? 0)%Z; [|destruct (n =? 0)%Z].
  1,2: injection E as <- <-; injection E' as <- <-; left; split; [reflexivity|]; unfold insync; cbn [t_world t_calls t_trace]; auto 12.
  destruct (read_raw (Z.to_N n) (w_in p) (w_sock p)) as [[r s1] k1] eqn:E1. rewrite H1 in E. rewrite (read_raw_sock _ _ _ (w_sock (t_world t)) _ _ _ H2 E1) in E.
  apply no_ext_read in E1; [|exact H2]. destruct E1 as [-> H2'].
  left.
  assert (insync (TWorld (set_sock (set_in (t_world t) s1) (w_sock (t_world t))) (t_calls t) (t_trace t)) (set_sock (set_in p s1) (w_sock p))) as HI.
  { unfold insync; cbn [t_world t_calls t_trace w_in set_in set_sock w_sock w_log w_wr]; auto 12. }
  destruct r; injection E as <- <-; injection E' as <- <-; auto.
Qed.
Lemma readExact_raw_sock n s k k2 r s' k' : io_only s -> readExact_raw n s k = (r, s', k') -> readExact_raw n s k2 = (r, s', k2).
Proof.
  intros Hs. revert n r s' k'. induction Hs as [|e s He _ IH]; intros n r s' k' E; cbn [readExact_raw] in *.
  - destruct (n =? 0); congruence.
  - destruct (n =? 0); [congruence|]. destruct e as [b bs|[]|x]; try congruence.
    + destruct (n <=? lenN (b :: bs)); [congruence|]. destruct (readExact_raw (n - lenN (b :: bs)) s k) as [[r1 s1] k1] eqn:E1.
      apply IH in E1. rewrite E1. destruct r1; congruence.
    + eapply IH. exact E.
    + destruct He.
Qed.
Lemma fsim_readExact n : fsim (local (readExactSizeDataSimple n)) (readExactSizeDataSimple n).
Proof.
  split. { intros w o w' E. unfold readExactSizeDataSimple in E. destruct (readExact_raw _ _ _) as [[[] ?] ?]; injection E as <- <-; apply prefix_refl. }
  intros t p o t' o' p' (H1 & H2 & H3 & H4 & H5 & H6 & H7 & H8 & H9 & H10) E E'. unfold local, readExactSizeDataSimple in *.
  destruct (readExact_raw n (w_in p) (w_sock p)) as [[r s1] k1] eqn:E1. rewrite H1 in E. rewrite (readExact_raw_sock _ _ _ (w_sock (t_world t)) _ _ _ H2 E1) in E.
  apply no_ext_exact in E1; [|exact H2]. destruct E1 as [-> H2'].
  left.
  assert (insync (TWorld (set_sock (set_in (t_world t) s1) (w_sock (t_world t))) (t_calls t) (t_trace t)) (set_sock (set_in p s1) (w_sock p))) as HI.
  { unfold insync; cbn [t_world t_calls t_trace w_in set_in set_sock w_sock w_log w_wr]; auto 12. }
  destruct r; injection E as <- <-; injection E' as <- <-; auto.
Qed.

Lemma fsim_header h : fsim (local (readFrameHeader h)) (readFrameHeader h).
Proof.
  unfold readFrameHeader. apply fsim_local_bind; [apply fsim_readExact|]. intros bb.
  destruct (negb _); [apply fsim_lfail|]. destruct (unpackHeaderBits _ _) as [h1 n1]. apply fsim_local_bind.
  - destruct (n1 <? 126); [apply fsim_lfail|]. destruct (n1 =? 126); [|destruct (n1 =? 127); [|apply fsim_lfail]];
      (apply fsim_local_bind; [apply fsim_readExact|]); intros l2; destruct (negb _); apply fsim_lfail.
  - intros h2. destruct (h_hasMask h2); [|apply fsim_lfail]. apply fsim_local_bind; [apply fsim_readExact|]. intros mk. destruct (negb _); apply fsim_lfail.
Qed.


Lemma fsim_access {A} (f : Z -> TM A) (g : world -> M A) (Hg : forall w w0 o w', g w w0 = (o, w') -> prefix (w_log w0) (w_log w')) :
  (forall p, fsim (f (s_buf (w_sock p))) (g p)) -> fsim (tbind (access s_buf) f) (bind get g).
Proof.
  intros Hf. split; [intros w o w' E; eapply Hg; exact E|]. intros t p o t' o' p' HR E E'. unfold bind, get in E'.
  unfold tbind at 1, access, tbind at 1 in E. destruct (interleave t) as [o0 t0] eqn:E0.
  apply (insync_interleave _ _ _ _ HR) in E0. destruct E0 as [-> H0]. unfold tbind at 1, tget, tret in E.
  pose proof H0 as (_ & _ & _ & Hb & _). rewrite Hb in E. eapply (proj2 (Hf p)); eassumption.
Qed.
Lemma fsim_lg {A} (m : TM A) (n : M A) : fsim m n -> forall w o w', n w = (o, w') -> prefix (w_log w) (w_log w').
Proof. intros [H _]. exact H. Qed.

Lemma fsim_loop fuel : forall h short alloc pr,
  fsim (treadPayload_loop react fuel h short alloc pr) (readPayload_loop taking_notes fuel h short alloc pr).
Proof.
  induction fuel as [|fuel IH]; intros h short alloc pr; cbn [treadPayload_loop readPayload_loop]; [apply fsim_fail|].
  destruct (pr <? h_len h)%Z; [|apply fsim_ret].
  assert (forall p : world, fsim
    (let desired := if (h_len h - pr <? s_buf (w_sock p))%Z then (h_len h - pr)%Z else s_buf (w_sock p) in
     r <- local (readSimple desired) ;;
     match r with
     | inl data =>
       if (alloc <? Z.of_N (lenN data))%Z then tfail (Ub UbOverflow) else
       let data' := if h_hasMask h then xor_from (h_mask h) (Z.to_N pr) data else data in
       match short with
       | Some s => treadPayload_loop react fuel h (Some (s ++ data')) alloc (pr + Z.of_N (lenN data))%Z
       | None => tnotify react (EvMsg (h_opcode h) data') ;;; treadPayload_loop react fuel h None alloc (pr + Z.of_N (lenN data))%Z
       end
     | inr IoRetry => treadPayload_loop react fuel h short alloc pr
     | inr _ => tfail (Throw ExConnState)
     end)%t
    (let desired := s_buf (w_sock p) in
     let desired := if (h_len h - pr <? desired)%Z then (h_len h - pr)%Z else desired in
     r <- readSimple desired ;;
     match r with
     | inl data =>
       if (alloc <? Z.of_N (lenN data))%Z then undef UbOverflow else
       let data' := if h_hasMask h then xor_from (h_mask h) (Z.to_N pr) data else data in
       match short with
       | Some s => readPayload_loop taking_notes fuel h (Some (s ++ data')) alloc (pr + Z.of_N (lenN data))%Z
       | None => notify taking_notes (EvMsg (h_opcode h) data') ;;; readPayload_loop taking_notes fuel h None alloc (pr + Z.of_N (lenN data))%Z
       end
     | inr IoRetry => readPayload_loop taking_notes fuel h short alloc pr
     | inr _ => throw ExConnState
     end)%m) as H.
  { intros p. cbv zeta. apply fsim_bind; [apply fsim_readSimple|]. intros [data|[]]; [|apply IH|apply fsim_fail|apply fsim_fail].
    destruct (alloc <? Z.of_N (lenN data))%Z; [apply fsim_fail|]. destruct short as [s|]; [apply IH|].
    apply fsim_bind; [apply fsim_notify|]. intros _. apply IH. }
  apply fsim_access; [|exact H]. intros w. apply (fsim_lg _ _ (H w)).
Qed.

Lemma fsim_payload h short : fsim (treadPayload react h short) (readPayload taking_notes h short).
Proof.
  unfold treadPayload, readPayload. destruct (_ && _)%bool; [apply fsim_fail|].
  assert (forall fuel alloc, fsim
    (short' <- treadPayload_loop react fuel h short alloc 0 ;;
     (match short with None => if h_fin h then tnotify react (EvEnd (h_opcode h)) else tret tt | Some _ => tret tt end) ;;; tret short')%t
    (short' <- readPayload_loop taking_notes fuel h short alloc 0 ;;
     (match short with None => if h_fin h then notify taking_notes (EvEnd (h_opcode h)) else ret tt | Some _ => ret tt end) ;;; ret short')%m) as H.
  { intros fuel alloc. apply fsim_bind; [apply fsim_loop|]. intros short'. apply fsim_bind; [|intros _; apply fsim_ret].
    destruct short; [apply fsim_ret|]. destruct (h_fin h); [apply fsim_notify|apply fsim_ret]. }
  split.
  - intros w o w' E. unfold bind at 1, get in E. cbv zeta in E. destruct (_ <? 0)%Z; [injection E as <- <-; apply prefix_refl|].
    eapply (fsim_lg _ _ (H _ _)); exact E.
  - intros t p o t' o' p' HR E E'. unfold bind at 1, get in E'. cbv zeta in E'.
    unfold tbind at 1, access, tbind at 1 in E. destruct (interleave t) as [o0 t0] eqn:E0.
    apply (insync_interleave _ _ _ _ HR) in E0. destruct E0 as [-> H0]. unfold tbind at 1, tget at 1, tret at 1 in E.
    pose proof H0 as (Hi & _ & _ & Hb & _). rewrite Hb in E. destruct (s_buf (w_sock p) <? 0)%Z.
    + injection E as <- <-. injection E' as <- <-. auto.
    + unfold tbind at 1, tget at 1 in E. rewrite Hi in E. eapply (proj2 (H _ _)); eassumption.
Qed.

Lemma fsim_handle h : fsim (thandleFrame react h) (handleFrame taking_notes h).
Proof.
  assert (fsim (treadPayload react h None ;;; tret tt)%t (readPayload taking_notes h None ;;; ret tt)%m) as HP
    by (apply fsim_bind; [apply fsim_payload|intros; apply fsim_ret]).
  assert (fsim (ok <- local (checkForContinuation h) ;; if (ok : bool) then treadPayload react h None ;;; tret tt else tfail (Throw ExContinuationExpected))%t
               (ok <- checkForContinuation h ;; if (ok : bool) then readPayload taking_notes h None ;;; ret tt else throw ExContinuationExpected)%m) as HC.
  { apply fsim_bind; [|intros []; [exact HP|apply fsim_fail]]. split.
    - intros w o w' E. unfold checkForContinuation, bind, get, modify_sock, ret in E. destruct (_ || _)%bool; injection E as <- <-; apply prefix_refl.
    - intros t p o t' o' p' (H1 & H2 & H3 & H4 & H5 & H6 & H7 & H8 & H9 & H10) E E'. unfold local, checkForContinuation, bind, get, modify_sock, ret in *.
      rewrite H3 in E. destruct (_ || _)%bool; injection E as <- <-; injection E' as <- <-; left; (split; [reflexivity|]);
        unfold insync; cbn [t_world t_calls t_trace w_in set_sock w_sock set_last s_last s_buf s_listener s_listening w_log w_wr]; auto 12. }
  assert (forall ev, fsim (p <- treadPayload react h (Some []) ;; tnotify react (ev p))%t (p <- readPayload taking_notes h (Some []) ;; notify taking_notes (ev p))%m) as HN
    by (intros ev; apply fsim_bind; [apply fsim_payload|intros; apply fsim_notify]).
  unfold thandleFrame, handleFrame.
  destruct (h_opcode h) as [|[[[[]|[]|]|[[]|[]|]|]|[[[]|[]|]|[[]|[]|]|]|]]; try apply fsim_fail; try exact HC; try apply HN.
  split.
  - intros w o w' E. unfold bind at 1, get in E. destruct (_ <? 0)%Z; [injection E as <- <-; apply prefix_refl|]. eapply (fsim_lg _ _ HP); exact E.
  - intros t p o t' o' p' HR E E'. unfold bind at 1, get in E'. unfold tbind at 1, tget at 1 in E. pose proof HR as (_ & _ & Hla & _). rewrite Hla in E.
    destruct (s_last (w_sock p) <? 0)%Z; [injection E as <- <-; injection E' as <- <-; auto|]. eapply (proj2 HP); eassumption.
Qed.

Lemma fsim_iterate h : fsim (h' <- local (readFrameHeader h) ;; thandleFrame react h' ;;; tret h')%t (iterateFrame taking_notes h).
Proof. apply fsim_bind; [apply fsim_header|]. intros h'. apply fsim_bind; [apply fsim_handle|intros; apply fsim_ret]. Qed.

End Sim.
