(** C79-C81: several coroutines on one asynchronous socket. *)
From Verif Require Import Bytes Frame World WebSocket AsyncWebSocket SpecFrame SpecSend SpecListen SpecApi SpecReply SpecAsync SpecThreads Concurrent SpecConcurrent
  SpecProcess Coroutines SpecCoroutines ProofFrame ProofStream ProofSend ProofConcurrent ProofAsync ProofAsync2 PropReply ProofProcess4 PropProcess PropProcess2
  PropAsync2 PropAsync3 PropNet ProofCoroutines ProofCoroutines2 ProofCoroutines3 ProofCoroutines4.
From Coq Require Import ZifyBool ZifyNat ZifyN.
Local Open Scope N_scope.
Local Arguments takeN : simpl never.
Local Arguments dropN : simpl never.
Local Arguments lenN : simpl never.
Local Arguments be_enc : simpl never.
Local Arguments be_dec : simpl never.

(** ** Receiving is undisturbed *)
Lemma transcript_map a b : map snd a = map snd b -> transcript a = transcript b.
Proof.
  revert b. induction a as [|x a IH]; intros [|y b] E; try discriminate; [reflexivity|]. cbn [map] in E. injection E as E1 E2. unfold transcript in *. cbn [flat_map]. rewrite E1. f_equal. now apply IH.
Qed.
Lemma notes_user : user_react taking_notes.
Proof. intros l log. constructor. Qed.
Lemma alone_open w : open_of (w_sock (alone w)) = open_of (w_sock w) /\ (last_ok (w_sock w) -> last_ok (w_sock (alone w))).
Proof. split; [reflexivity|auto]. Qed.
Definition unsafe_cmd (c : cmd) : safe_cmd False true c := fun H => match H with end.
Lemma never_safe cs b : Forall (safe_cmd False b) cs.
Proof. apply Forall_forall. intros c _ []. Qed.

(** Whatever the coroutines do and however they are scheduled: the calls the listeners get are a beginning of the reading of the bytes that have arrived. *)
Theorem C79_notifications : forall react work w evs,
  io_only (w_in w) -> io_only (arrived evs) -> s_listener (w_sock w) <> None -> last_ok (w_sock w) ->
  small_react react -> small_work work -> (forall l log, Forall kind_cmd (react l log)) -> (forall i, Forall kind_cmd (work i)) ->
  let s := krun react evs (crowd_init work w) in
  exists new, notified s = w_log w ++ new /\
    prefix (transcript new) (stream_reading (open_of (w_sock w)) (bytes_of (w_in w ++ arrived evs))).
Proof.
  intros react work w evs Hio Har Hl Hlo Hsr Hsw Hkr Hkw s.
  assert (in_step react False w (crowd_init work w) (ARun, start_listen (alone w))) as H0
    by (apply in_step_start; auto; [intros []|intros i; apply never_safe]).
  destruct (any_run react False Hsr Hkr (fun l log => never_safe _ _) w evs Har _ _ H0) as (evs' & E1 & E2). fold s in E2.
  destruct (run taking_notes evs' (ARun, start_listen (alone w))) as [st c] eqn:E.
  destruct (C53_only_a_prefix taking_notes (alone w) evs' st c eq_refl Hio) as (new & N1 & _ & N3); [now rewrite E1|exact notes_user|now apply alone_open|exact E|].
  assert (crowd_inv None False react work w s) as HC.
  { apply crowd_run; auto; [intros l log; apply Forall_forall; intros ? _ ? ? ? [=]|]. apply crowd_start; auto; [|intros i; apply Forall_forall; intros ? _ ? ? ? [=]].
    split; [discriminate|]. split; [intros []|exact Hio]. }
  destruct HC as (_ & _ & lab & begun & new' & _ & HL & _). exists new'. split; [exact HL|].
  destruct E2 as (_ & _ & _ & (_ & _ & _ & _ & L5) & _). cbn [snd c_world] in L5. rewrite HL, N1 in L5. cbn [alone w_log app] in L5. rewrite map_app in L5. apply app_inv_head in L5.
  rewrite (transcript_map _ _ L5). rewrite <- E1. exact N3.
Qed.
Print Assumptions C79_notifications.

(** Nothing undefined happens, but for the data pointer of a masked frame used in a callback coroutine (C31). *)
Theorem C79_safe : forall react work w evs i u,
  io_only (w_in w) -> io_only (arrived evs) -> s_listener (w_sock w) <> None ->
  small_react react -> small_work work -> (forall l log, Forall kind_cmd (react l log)) -> (forall i, Forall kind_cmd (work i)) ->
  status_of (krun react evs (crowd_init work w)) i = AUb u ->
  i = 0%nat /\ u = UbDangling /\ exists l log, In CUseData (react l log).
Proof.
  intros react work w evs i u Hio Har Hl Hsr Hsw Hkr Hkw Hu.
  assert (in_step react False w (crowd_init work w) (ARun, start_listen (alone w))) as H0
    by (apply in_step_start; auto; [intros []|intros j; apply never_safe]).
  destruct (any_run react False Hsr Hkr (fun l log => never_safe _ _) w evs Har _ _ H0) as (evs' & E1 & E2).
  set (s := krun react evs (crowd_init work w)) in *. destruct E2 as (_ & _ & _ & _ & Ho & Hf). unfold status_of in Hu.
  destruct (Nat.eq_dec i 0) as [->|Hi].
  - split; [reflexivity|]. destruct Hf as [(_ & _ & Hf)|(_ & _ & [(_ & Hst & _)|(K & _ & _ & Hc & _)])]; [now apply Hf| |].
    + exfalso. rewrite Hu in Hst. destruct (run taking_notes evs' (ARun, start_listen (alone w))) as [st c] eqn:E. cbn [fst] in Hst.
      destruct (C54_no_ub taking_notes (alone w) evs' st c u eq_refl Hio) as [[_ H]|[_ H]]; try (apply H; intros l log; constructor); auto; [now rewrite E1|exact notes_user].
    + exfalso. destruct Hc as [[Hc|Hc] _]; congruence.
  - exfalso. destruct (Ho i Hi) as [(_ & H & _)|([H|H] & _)]; try congruence. now apply (H u).
Qed.
Print Assumptions C79_safe.

(** ** What is on the wire *)
Lemma held_begun mfix whole b st status own B total : held mfix whole b st status own B total ->
  frames_begun own B total /\ (status = ADone -> map sent_op B = total) /\
  (whole -> prefix own (concat (map sent_bytes B)) /\ (status <> ARun -> status <> AUb UbDangling -> frames_sent own B total)).
Proof.
  intros (pieces & done & cur & -> & HP & H).
  assert (Forall2 (fun p x => prefix p (sent_bytes x)) pieces done) as HP1 by (clear -HP; induction HP as [|x y l l' [H _] _ IH]; constructor; auto).
  assert (whole -> concat pieces = concat (map sent_bytes done)) as HP2.
  { intros Hw. clear -HP Hw. induction HP as [|x y l l' [_ H] _ IH]; [reflexivity|]. cbn [map concat]. rewrite (H Hw), IH. reflexivity. }
  destruct H as [(Hb & -> & -> & ->)|[(K & cs & freed & v & _ & _ & _ & _ & Hs & Hv)|(_ & -> & -> & Hp & Hs)]]; rewrite ?app_nil_r in *.
  - split; [split; [exists []; now rewrite app_nil_r|eauto]|]. split; [reflexivity|]. intros Hw. rewrite (HP2 Hw). split; [exists []; now rewrite app_nil_r|]. intros _ _. split; reflexivity.
  - assert (status <> ADone) as Hd by (destruct Hs as [-> |[-> _]]; discriminate).
    assert (whole -> status = ARun) as Hr by (intros Hw; destruct Hs as [-> |[_ Hs]]; tauto).
    destruct v as [|op|lf]; cbn [said] in Hv.
    + destruct Hv as (-> & -> & ->). rewrite app_nil_r. split; [split; [eexists; reflexivity|eauto]|]. split; [congruence|]. intros Hw. rewrite (HP2 Hw). split; [exists []; now rewrite app_nil_r|]. intros H1. destruct (H1 (Hr Hw)).
    + destruct Hv as (-> & -> & ->). rewrite app_nil_r. split; [split; [eexists; reflexivity|eauto]|]. split; [congruence|]. intros Hw. rewrite (HP2 Hw). split; [exists []; now rewrite app_nil_r|]. intros H1. destruct (H1 (Hr Hw)).
    + destruct Hv as (x & part & -> & Hx & -> & ->). split; [split; [eexists; reflexivity|]|].
      * exists (pieces ++ [part]). rewrite concat_app. cbn [concat]. rewrite app_nil_r. split; [reflexivity|]. apply Forall2_app; [exact HP1|]. constructor; [|constructor]. exists lf. auto.
      * split; [congruence|]. intros Hw. rewrite (HP2 Hw), map_app, concat_app. cbn [map concat]. rewrite app_nil_r. split; [|intros H1; destruct (H1 (Hr Hw))]. exists lf. now rewrite <- Hx, app_assoc.
  - split; [split; [exact Hp|eauto]|]. split; [destruct Hs as [[[e ->] _]| ->]; discriminate|]. intros Hw. destruct Hs as [[_ Hs]| ->]; [tauto|]. rewrite (HP2 Hw). split; [exists []; now rewrite app_nil_r|]. congruence.
Qed.

(** The connection carries an interleaving of what the coroutines write; of every coroutine the frames of the messages it is to send, in order,
    of each a beginning; each frame keyed afresh from the random source. *)
Theorem C80_bytes : forall m react work w evs,
  io_only (w_in w) -> io_only (arrived evs) -> small_react react -> small_work work -> masks_as m react work w ->
  let s := krun react evs (crowd_init work w) in
  exists lab (begun : list sent) new,
    written s = w_out w ++ map snd lab /\ notified s = w_log w ++ new /\
    fresh_keys (w_rnd w) (w_rpos w) (map snd begun) /\ (forall b, m = Some b -> Forall (keyed_as b) (map snd begun)) /\
    forall i, frames_begun (from i lab) (filter (sent_by i) begun) (to_send react work (w_log w) new i) /\
      (status_of s i = ADone -> map sent_op (filter (sent_by i) begun) = to_send react work (w_log w) new i) /\
      (healthy (w_wr w) ->
         prefix (from i lab) (concat (map sent_bytes (filter (sent_by i) begun))) /\
         (status_of s i <> ARun -> status_of s i <> AUb UbDangling -> frames_sent (from i lab) (filter (sent_by i) begun) (to_send react work (w_log w) new i))).
Proof.
  intros m react work w evs Hio Har Hsr Hsw Hm s.
  destruct (mask_cmd_ok m True _ _ _ Hm) as (_ & _ & M3 & M4).
  assert (crowd_inv m (healthy (w_wr w)) react work w s) as HC.
  { apply crowd_run; auto. apply crowd_start; auto. split; [intros b Hb; apply Hm, Hb|]. split; [auto|exact Hio]. }
  destruct HC as (_ & _ & lab & begun & new & H1 & H2 & H3 & H4 & H5). exists lab, begun, new. split; [exact H1|]. split; [exact H2|].
  split; [specialize (H3 []); rewrite app_nil_r in H3; apply H3; exact Logic.I|]. split; [exact H4|]. intros i. exact (held_begun _ _ _ _ _ _ _ _ (H5 i)).
Qed.
Print Assumptions C80_bytes.

(** ** Progress *)
(** The undisturbed coroutine comes to rest. *)
Lemma rests w evs : io_only (w_in w) -> io_only (arrivals evs) ->
  exists N fin, fst fin <> ARun /\ forall m, (N <= m)%nat -> run taking_notes (evs ++ ticks m) (ARun, start_listen (alone w)) = fin.
Proof.
  intros Hio Har. destruct (listen_try (as_blocking taking_notes) (give (alone w) (arrivals evs))) as [o w'] eqn:ES.
  assert (io_only (w_in (give (alone w) (arrivals evs)))) as Hgo by (apply io_only_app; assumption).
  destruct (user_halts taking_notes (give (alone w) (arrivals evs)) o w' eq_refl Hgo notes_user ES) as (st2 & c2 & Hh & _).
  destruct (run taking_notes evs (ARun, start_listen (alone w))) as [st1 c1] eqn:E1.
  pose proof (run_io taking_notes evs ARun (start_listen (alone w)) _ _ (or_introl eq_refl) Hio Har E1) as Hio1.
  assert (st2 <> ARun) as Hne by (destruct Hh as (? & _ & _ & H); exact H).
  destruct (run_halts taking_notes evs ARun (start_listen (alone w)) _ _ _ _ (or_introl eq_refl) Hio Har E1 Hh) as [[Hg Hh2]|(Hn & -> & ->)].
  - destruct (halts_ticks taking_notes _ _ _ Hh2 Hio1) as [n Hnn]. exists n, (st2, c2). split; [exact Hne|]. intros m Hm. rewrite run_app, E1. now apply Hnn.
  - exists 0%nat, (st2, c2). split; [exact Hne|]. intros m Hm. rewrite run_app, E1. now apply run_ticks_stopped.
Qed.

Lemma krun_suffix react evs : forall s, suffix (w_wr (snd (krun react evs s))) (w_wr (snd s)).
Proof.
  induction evs as [|e evs IH]; intros s; [apply suffix_refl|]. cbn [krun fold_left]. eapply suffix_trans; [apply IH|]. destruct e as [i|rs]; [apply kstep_suffix|apply suffix_refl].
Qed.
Lemma krun_app_only react i evs : forall s, app_only i s -> app_only i (krun react evs s).
Proof.
  induction evs as [|e evs IH]; intros s H; [exact H|]. cbn [krun fold_left]. apply IH. destruct e as [j|rs]; [now apply app_only_step|exact H].
Qed.
Lemma starts_app work w i : i <> 0%nat -> app_only i (crowd_init work w).
Proof. intros H. destruct i; [congruence|]. unfold app_only. cbn. constructor; [intros []|constructor]. Qed.

(** Nobody waits for anybody: after any history, if writes do not block for ever, every coroutine but the listening one comes to an end
    however the others are scheduled. *)
Theorem C81_nobody_waits : forall react work w evs f i,
  no_block (w_wr w) -> everybody f -> i <> 0%nat ->
  exists n, forall n', (n <= n')%nat -> let s := kafter react f n' (krun react evs (crowd_init work w)) in status_of s i <> ARun /\ status_of s i <> AWait.
Proof.
  intros react work w evs f i Hb Hf Hi.
  destruct (app_ends react f i (krun react evs (crowd_init work w)) Hf) as [n H].
  - apply krun_app_only, starts_app, Hi.
  - eapply suffix_block; [apply krun_suffix|exact Hb].
  - exists n. intros n' Hn s. specialize (H n' Hn). split; intros E; apply H; [now left|now right].
Qed.
Print Assumptions C81_nobody_waits.

(** The listening coroutine, too: it ends, or everything that has arrived is read and it waits for more. *)
Lemma wait_empty react hdr short st w c : io_only (w_in w) -> Forall listening_co st -> step react (Conf hdr short st w) = (AWait, c) -> w_in (c_world c) = [].
Proof.
  intros Hio HK E.
  assert (forall n got d w', readExactAsyncInline n got w = (d, w') -> d = IWait -> w_in w' = []) as HE.
  { intros n got d w' E1 ->. unfold readExactAsyncInline in E1. destruct (_ <=? _); [discriminate|]. destruct (w_in w) as [|[b bs|e|x] s]; cbn [read_raw] in E1.
    - now injection E1 as <-.
    - discriminate.
    - destruct e; discriminate.
    - inversion Hio; subst. contradiction. }
  assert (forall n d w', readSomeAsyncInline n w = (d, w') -> d = IWait -> w_in w' = []) as HS.
  { intros n d w' E1 ->. unfold readSomeAsyncInline in E1. destruct (_ <=? _)%Z; [discriminate|]. destruct (w_in w) as [|[b bs|e|x] s]; cbn [read_raw] in E1.
    - now injection E1 as <-.
    - discriminate.
    - destruct e; discriminate.
    - inversion Hio; subst. contradiction. }
  assert (forall e h s K w' c', fail e (Conf h s K w') <> (AWait, c')) as HF by (intros e h s K w' c' Hx; apply fail_grows in Hx; destruct Hx; congruence).
  destruct HK as [|co K Hco HK]; [discriminate|].
  destruct co as [|p|l p|l u a g p|fin opcode m h p|h p|cs freed|]; cbn in Hco; try contradiction; cbn [step] in E.
  - destruct (_ =? _); discriminate.
  - destruct p as [got|bb|t0 got|t0 got|got]; cbn [step_readFrame] in E.
    + destruct (readExactAsyncInline 2 got w) as [[d|d| |] w'] eqn:E1; try discriminate; [injection E as <-; cbn [c_world]; eapply HE; eauto|destruct (HF _ _ _ _ _ _ E)].
    + destruct (unpackHeaderBits _ _) as [h len]. destruct (_ <? _); [discriminate|]. destruct (_ =? 126); [discriminate|]. destruct (_ =? 127); [discriminate|]. destruct (HF _ _ _ _ _ _ E).
    + destruct (readExactAsyncInline _ got w) as [[d|d| |] w'] eqn:E1; try discriminate; [injection E as <-; cbn [c_world]; eapply HE; eauto|destruct (HF _ _ _ _ _ _ E)].
    + destruct (h_hasMask _); discriminate.
    + destruct (readExactAsyncInline 4 got w) as [[d|d| |] w'] eqn:E1; try discriminate; [injection E as <-; cbn [c_world]; eapply HE; eauto|destruct (HF _ _ _ _ _ _ E)].
  - exfalso. assert (forall us nx sh w', match readPayloadAsync hdr us w' with
      | inl e => fail e (Conf hdr sh K w')
      | inr co => (ARun, Conf hdr sh (co :: CoHandle l nx :: K) w')
      end <> (AWait, c)) as HP by (intros us nx sh w'; destruct (readPayloadAsync hdr us w'); [apply HF|discriminate]).
    destruct p; cbn [step_handle] in E; try (destruct l; discriminate); try discriminate.
    assert ((let (ok, w') := checkForContinuationA hdr w in
       if (ok : bool) then match readPayloadAsync hdr false w' with
                  | inl e => fail e (Conf hdr short K w')
                  | inr co => (ARun, Conf hdr short (co :: CoHandle l HfFinish :: K) w') end
       else fail ExContinuationExpected (Conf hdr short K w')) <> (AWait, c)) as HD
       by (unfold checkForContinuationA; destruct (_ || _)%bool; [apply HF|apply HP]).
    destruct (h_opcode hdr) as [|q].
    { destruct (_ <? 0)%Z; [destruct (HF _ _ _ _ _ _ E)|destruct (HP _ _ _ _ E)]. }
    do 4 (try (destruct q as [q|q|])); first [destruct (HD E)|destruct (HP _ _ _ _ E)|destruct (HF _ _ _ _ _ _ E)].
  - destruct p as [|n|d|]; cbn [step_payload] in E.
    + destruct (_ <? _)%Z; [discriminate|]. destruct (_ && _)%bool; [|discriminate]. destruct l; discriminate.
    + destruct (readSomeAsyncInline n w) as [[d|d| |] w'] eqn:E1; try (destruct (_ <? _)%Z; discriminate); try discriminate; [injection E as <-; cbn [c_world]; eapply HS; eauto|destruct (HF _ _ _ _ _ _ E)].
    + destruct d; [destruct (HF _ _ _ _ _ _ E)|]. destruct u; [discriminate|]. destruct l; discriminate.
    + discriminate.
Qed.

(** At rest. *)
Definition resting (s : crowd_t) : Prop := ~ going (status_of s 0) \/ (status_of s 0 = AWait /\ w_in (snd s) = []).
Lemma settles react (safe : Prop) work w evs f : small_react react -> (forall l log, Forall kind_cmd (react l log)) -> (forall l log, Forall (safe_cmd safe true) (react l log)) ->
  small_work work -> (forall i, Forall kind_cmd (work i)) -> (forall i, Forall (safe_cmd safe false) (work i)) -> (safe -> healthy (w_wr w)) -> no_block (w_wr w) ->
  io_only (w_in w) -> io_only (arrived evs) -> s_listener (w_sock w) <> None -> everybody f ->
  exists evs' N fin, arrivals evs' = arrived evs /\ fst fin <> ARun /\ tick taking_notes fin = fin /\
    (forall m, (N <= m)%nat -> run taking_notes (evs' ++ ticks m) (ARun, start_listen (alone w)) = fin) /\
    exists n, forall n', (n <= n')%nat -> let s := kafter react f n' (krun react evs (crowd_init work w)) in
      exists sa, in_step react safe w s sa /\ (sa = fin \/ ~ going (status_of s 0)) /\ exists j, sa = run taking_notes (evs' ++ ticks j) (ARun, start_listen (alone w)).
Proof.
  intros Hsr Hkr Hfr Hsw Hkw Hfw Hh Hb Hio Har Hl Hf.
  assert (in_step react safe w (crowd_init work w) (ARun, start_listen (alone w))) as H0 by (apply in_step_start; auto).
  destruct (any_run react safe Hsr Hkr Hfr w evs Har _ _ H0) as (evs' & E1 & E2). set (s1 := krun react evs (crowd_init work w)) in *.
  destruct (rests w evs' Hio) as (N & fin & Hne & HN); [now rewrite E1|]. exists evs', N, fin. split; [exact E1|]. split; [exact Hne|].
  assert (tick taking_notes fin = fin) as Hfix.
  { rewrite <- (HN N) at 1 by lia. rewrite run_app, <- ticks_end, <- run_app. apply HN. lia. }
  split; [exact Hfix|]. split; [exact HN|].
  assert (run taking_notes (ticks N) (run taking_notes evs' (ARun, start_listen (alone w))) = fin) as HR by (rewrite <- run_app; apply HN; lia).
  assert (no_block (w_wr (snd s1))) as Hb1 by (eapply suffix_block; [apply krun_suffix|exact Hb]).
  destruct (ears_end react safe Hsr Hkr Hfr w f Hf s1 _ fin N HR Hfix E2 Hb1) as [n Hn].
  exists n. intros n' Hn' s. destruct (Hn n' Hn') as [H|H].
  - exists fin. split; [exact H|]. split; [now left|]. exists N. symmetry. apply HN. lia.
  - assert (forall q, exists j, in_step react safe w (kafter react f q s1) (run taking_notes (evs' ++ ticks j) (ARun, start_listen (alone w)))) as HA.
    { intros q. induction q as [|q [j IH]]; [exists 0%nat; rewrite app_nil_r; exact E2|]. rewrite kafter_S. destruct (any_tick react safe Hsr Hkr Hfr w _ _ (f q) IH) as [k Hk].
      exists (j + k)%nat. rewrite ticks_plus, app_assoc, run_app. exact Hk. }
    destruct (HA n') as [j Hj]. eexists. split; [exact Hj|]. split; [now right|]. eauto.
Qed.
Theorem C81_listener_rests : forall react work w evs f,
  io_only (w_in w) -> io_only (arrived evs) -> s_listener (w_sock w) <> None -> no_block (w_wr w) -> everybody f ->
  small_react react -> small_work work -> (forall l log, Forall kind_cmd (react l log)) -> (forall i, Forall kind_cmd (work i)) ->
  exists n, forall n', (n <= n')%nat -> let s := kafter react f n' (krun react evs (crowd_init work w)) in
  (status_of s 0 <> ARun /\ status_of s 0 <> AWait) \/ (status_of s 0 = AWait /\ w_in (snd s) = []).
Proof.
  intros react work w evs f Hio Har Hl Hb Hf Hsr Hsw Hkr Hkw.
  destruct (settles react False work w evs f) as (evs' & N & fin & E1 & Hne & Hfix & HN & n & Hn); auto; try (intros; apply never_safe); [intros []|].
  exists n. intros n' Hn' s. destruct (Hn n' Hn') as (sa & HI & [-> |Hg] & _); fold s in HI |- *.
  - destruct HI as (Hio' & _ & _ & HL & _ & [(Hg & _)|(_ & _ & [(H1 & H2 & H3)|(K & _ & H1 & _)])]); [|clear Hn|congruence].
    + left. split; intros E; apply Hg; [now left|now right].
    + unfold status_of. destruct (going_dec (k_status (fst s 0%nat))) as [Hg|Hg]; [right|left; split; intros E; apply Hg; [now left|now right]].
      assert (k_status (fst s 0%nat) = AWait) as Ew by (destruct Hg; congruence). split; [exact Ew|]. destruct HL as (L1 & _). rewrite <- L1.
      destruct fin as [st [h sh stk wa]]. cbn [fst snd c_stack c_world] in *. subst stk. rewrite Ew in H2. subst st. cbn [tick] in Hfix.
      eapply wait_empty in Hfix; [exact Hfix|now rewrite L1|now apply anon_listening].
  - left. split; intros E; apply Hg; [now left|now right].
Qed.
Print Assumptions C81_listener_rests.

(** If only coroutine [j] sends, the connection carries the frames of its messages one after the other, at every moment a beginning of them, whatever is received meanwhile. *)
Theorem C81_one_sender : forall m react work w evs j,
  io_only (w_in w) -> io_only (arrived evs) -> healthy (w_wr w) -> small_react react -> small_work work -> masks_as m react work w -> only_sender j react work ->
  let s := krun react evs (crowd_init work w) in
  exists (begun : list sent) new, notified s = w_log w ++ new /\ fresh_keys (w_rnd w) (w_rpos w) (map snd begun) /\ (forall b, m = Some b -> Forall (keyed_as b) (map snd begun)) /\
    prefix (map sent_op begun) (to_send react work (w_log w) new j) /\ prefix (written s) (w_out w ++ concat (map sent_bytes begun)) /\
    (status_of s j <> ARun -> status_of s j <> AUb UbDangling ->
       map sent_op begun = to_send react work (w_log w) new j /\ written s = w_out w ++ concat (map sent_bytes begun)).
Proof.
  intros m react work w evs j Hio Har Hh Hsr Hsw Hm [Ho1 Ho2] s.
  destruct (C80_bytes m react work w evs Hio Har Hsr Hsw Hm) as (lab & begun & new & H1 & H2 & H3 & H4 & H5). fold s in H1, H2, H5.
  assert (forall i, i <> j -> to_send react work (w_log w) new i = []) as Hno.
  { intros i Hi. destruct i as [|i]; cbn [to_send]; [apply replies_none, Ho1; congruence|now apply Ho2]. }
  assert (forall i, i <> j -> filter (sent_by i) begun = [] /\ from i lab = []) as Hnone.
  { intros i Hi. destruct (H5 i) as ((P1 & pieces & P2 & P3) & _). rewrite (Hno i Hi) in P1. apply prefix_of_nil in P1. apply map_eq_nil in P1. rewrite P1 in P3. inversion P3; subst. auto. }
  assert (filter (sent_by j) begun = begun) as Hall.
  { assert (Forall (fun x : sent => fst (fst x) = j) begun) as HF.
    { apply Forall_forall. intros x Hx. destruct (Nat.eq_dec (fst (fst x)) j) as [E|E]; [exact E|]. exfalso. destruct (Hnone _ E) as [Hf _].
      assert (In x (filter (sent_by (fst (fst x))) begun)) as Hin by (apply filter_In; split; [exact Hx|unfold sent_by; apply Nat.eqb_refl]). rewrite Hf in Hin. destruct Hin. }
    clear -HF. induction HF as [|x l Hx _ IH]; [reflexivity|]. cbn [filter]. unfold sent_by at 1. rewrite Hx, Nat.eqb_refl. now f_equal. }
  assert (from j lab = map snd lab) as Hfrom by (apply only_from; intros i Hi; now apply Hnone).
  destruct (H5 j) as ((P1 & _) & _ & P3). destruct (P3 Hh) as [P4 P5]. rewrite Hall, ?Hfrom in *. exists begun, new.
  split; [exact H2|]. split; [exact H3|]. split; [exact H4|]. split; [exact P1|]. split.
  - rewrite H1. destruct P4 as [r ->]. exists r. now rewrite app_assoc.
  - intros G1 G2. destruct (P5 G1 G2) as [Q1 Q2]. split; [exact Q1|]. now rewrite H1, Q2.
Qed.
Print Assumptions C81_one_sender.

(** Full duplex: one coroutine listens and answers, the others send. If every coroutine gets to run, everything that has arrived is delivered, exactly as it would be undisturbed,
    every other coroutine finishes, and every frame is on the wire. *)
Theorem C81_full_duplex : forall m react work w evs f k,
  clean (w_in w) -> clean (arrived evs) -> s_listener (w_sock w) <> None -> last_ok (w_sock w) -> (0 < s_buf (w_sock w))%Z -> healthy (w_wr w) ->
  (forall l log, Forall gentle_cmd (react l log)) -> no_use react -> (forall i, Forall gentle_cmd (work i)) ->
  masks_as m react work w -> everybody f ->
  exists n, forall n', (n <= n')%nat -> let s := kafter react f n' (krun react evs (crowd_init work w)) in
  exists new lab (begun : list sent),
    notified s = w_log w ++ new /\ transcript new = stream_reading (open_of (w_sock w)) (bytes_of (w_in w ++ arrived evs)) /\
    match stream_ending (open_of (w_sock w)) (bytes_of (w_in w ++ arrived evs)) with
    | Blocked => status_of s 0 = AWait /\ w_in (snd s) = []
    | Closed rest => status_of s 0 = ADone /\ bytes_of (w_in (snd s)) = rest
    | Rejected rest => (exists e, status_of s 0 = AFail e) /\ bytes_of (w_in (snd s)) = rest
    | Stopped _ => False
    end /\
    written s = w_out w ++ map snd lab /\ fresh_keys (w_rnd w) (w_rpos w) (map snd begun) /\ (forall b, m = Some b -> Forall (keyed_as b) (map snd begun)) /\
    frames_sent (from 0 lab) (filter (sent_by 0) begun) (replies react (w_log w) new) /\
    forall i, (0 < i <= k)%nat -> status_of s i = ADone /\ frames_sent (from i lab) (filter (sent_by i) begun) (sends_of (work i)).
Proof.
  intros m react work w evs f k Hci Hca Hl Hlo Hbuf Hh Hgr Hnu Hgw Hm Hf.
  assert (forall c, gentle_cmd c -> small_cmd c /\ kind_cmd c /\ c <> CThrow) as Hg.
  { intros c [Hx Hy]. destruct c as [|[]| |? ?| | |]; cbn in *; try contradiction; repeat split; try tauto; try discriminate. }
  assert (small_react react) as Hsr by (intros l log; eapply Forall_impl; [|apply Hgr]; intros c Hc; now apply Hg).
  assert (small_work work) as Hsw by (intros i; eapply Forall_impl; [|apply Hgw]; intros c Hc; now apply Hg).
  assert (forall l log, Forall kind_cmd (react l log)) as Hkr by (intros l log; eapply Forall_impl; [|apply Hgr]; intros c Hc; now apply Hg).
  assert (forall i, Forall kind_cmd (work i)) as Hkw by (intros i; eapply Forall_impl; [|apply Hgw]; intros c Hc; now apply Hg).
  assert (forall l log, Forall (safe_cmd True true) (react l log)) as Hfr.
  { intros l log. specialize (Hgr l log). specialize (Hnu l log). rewrite Forall_forall in *. intros c Hc _. split; [apply (Hg c (Hgr c Hc))|intros _; now apply Hnu]. }
  assert (forall i, Forall (safe_cmd True false) (work i)) as Hfw.
  { intros i. eapply Forall_impl; [|apply Hgw]. intros c Hc _. split; [now apply (Hg c Hc)|discriminate]. }
  pose proof (clean_io_only _ Hci) as Hio. pose proof (clean_io_only _ Hca) as Har.
  destruct (settles react True work w evs f) as (evs' & N & fin & E1 & Hne & Hfix & HN & n0 & Hn0); auto using healthy_flows.
  destruct (C53_delivery taking_notes (alone w) evs' eq_refl notes_user) as [n1 Hd].
  { split; [apply Forall_app; split; [exact Hci|now rewrite E1]|]. split; [constructor|]. split; [intros l log; constructor|]. split; [intros l log; reflexivity|]. split; [exact Hbuf|exact Hlo]. }
  specialize (Hd (max n1 N) ltac:(lia)). rewrite (HN (max n1 N)) in Hd by lia. destruct fin as [st c]. specialize (Hd st c eq_refl).
  assert (exists n2, forall n' i, (n2 <= n')%nat -> (0 < i <= k)%nat -> ~ going (status_of (kafter react f n' (krun react evs (crowd_init work w))) i)) as [n2 Hn2].
  { clear -Hf Hh. induction k as [|k [n IH]]; [exists 0%nat; intros; lia|].
    destruct (C81_nobody_waits react work w evs f (S k) (healthy_flows _ Hh) Hf) as [n1 H]; [discriminate|]. exists (max n n1). intros n' i Hn Hi.
    destruct (Nat.eq_dec i (S k)) as [->|]; [|apply IH; lia]. destruct (H n') as [G1 G2]; [lia|]. intros [E|E]; contradiction. }
  exists (max n0 n2). intros n' Hn' s. destruct (Hn0 n') as (sa & HI & Hsa & j & Ej); [lia|]. fold s in HI, Hsa.
  assert (sa = (st, c)) as ->.
  { destruct Hsa as [Hsa|Hsa]; [exact Hsa|]. pose proof HI as (_ & _ & _ & _ & _ & [(_ & Hns & _)|(_ & _ & [(_ & H2 & _)|(K & _ & _ & [H2 _] & _)])]); [tauto| |contradiction].
    unfold status_of in Hsa. rewrite H2 in Hsa. rewrite <- (HN (j + N)%nat) by lia. rewrite ticks_plus, app_assoc, run_app, <- Ej. destruct sa as [sta ca]. symmetry. now apply run_ticks_stopped. }
  destruct (C80_bytes m react work w (evs ++ map (fun q => CTick (f q)) (seq 0 n')) Hio) as (lab & begun & new & W1 & W2 & W3 & W4 & W5); auto.
  { assert (forall l, arrived (evs ++ map (fun q => CTick (f q)) l) = arrived evs) as ->; [|exact Har]. intros l. clear. induction evs as [|[i|rs] evs IH]; cbn [app arrived]; [|exact IH|now rewrite IH].
    induction l as [|x l IH]; [reflexivity|exact IH]. }
  rewrite krun_app in W1, W2, W5. fold (kafter react f n' (krun react evs (crowd_init work w))) in W1, W2, W5. fold s in W1, W2, W5.
  destruct HI as (_ & _ & _ & (L1 & _ & _ & _ & L5) & Ho & [(_ & Hns & _)|(_ & _ & [(_ & H2 & _)|(K & _ & H2 & _)])]); [tauto| |cbn [fst] in Hne, H2; congruence].
  cbn [fst snd] in *. change (k_status (fst s 0%nat)) with (status_of s 0) in H2.
  assert (forall u, st <> AUb u) as Hub.
  { intros u ->. assert (io_only (arrivals (evs' ++ ticks N))) as Hat by (rewrite arrivals_app, arrivals_ticks, app_nil_r, E1; exact Har).
    destruct (C54_no_ub taking_notes (alone w) (evs' ++ ticks N) (AUb u) c u eq_refl Hio Hat notes_user (HN N ltac:(lia)) eq_refl) as [[_ H]|[_ H]]; apply H; intros l log; constructor. }
  destruct Hd as [Hd|(new' & D1 & _ & D3 & D4)]; [destruct (Hub _ Hd)|]. rewrite E1 in D3, D4.
  exists new, lab, begun. split; [exact W2|]. split.
  { assert (map snd new = map snd new') as Enew. { unfold notified in W2. rewrite W2, D1, map_app in L5. apply app_inv_head in L5. exact L5. }
    rewrite (transcript_map _ _ Enew). exact D3. }
  split; [rewrite H2, <- L1; exact D4|]. split; [exact W1|]. split; [exact W3|]. split; [exact W4|]. split.
  - destruct (W5 0%nat) as (_ & _ & Q). apply (Q Hh); [congruence|]. rewrite H2. apply Hub.
  - intros i Hi. assert (status_of s i = ADone) as Ed.
    { assert (i <> 0)%nat as Hi0 by lia. specialize (Hn2 n' i ltac:(lia) Hi). fold s in Hn2. destruct (Ho i Hi0) as [(_ & Q1 & Q2)|(Q1 & _)]; [|contradiction].
      unfold status_of, going in *. destruct (k_status (fst s i)) eqn:Ek; try reflexivity; try tauto; [destruct (Q2 Logic.I _ eq_refl)|destruct (Q1 _ eq_refl)]. }
    split; [exact Ed|]. destruct (W5 i) as (_ & _ & Q). destruct i as [|i]; [lia|]. apply (Q Hh); congruence.
Qed.
Print Assumptions C81_full_duplex.

(** * Concrete cases *)
(** A text message in two parts with a ping between them and a Close frame arrive in pieces; callbacks answer pings; coroutine 1 sends two messages and installs listener 2,
    coroutine 2 sends one and calls setListener too. The socket masks. *)
Definition talk_in : list rev := [RData x01 [x02; x61; x62]; RData x89 [x01]].
Definition talk_react : react_t := fun l log => match List.last log (0%nat, EvEnd 0) with (_, EvPing [c]) => [CSend true (SoPong (Some [c]))] | _ => [] end.
Definition talk_work (i : nat) : list cmd :=
  match i with
  | 1%nat => [CSend true (SoText (Some [x68; x69])); CSetListener (Some 2%nat); CSend false (SoPing None)]
  | 2%nat => [CUseData; CSetListener (Some 1%nat); CDemand true 2 (Some [xff])]
  | _ => []
  end.
Definition talk_world (msk : bool) (wr : list wev) : world := World talk_in wr [] (fun n => n2b (N.of_nat n)) 0 [] (Sock msk 8 (Some 1%nat) (-1) false).
Definition talk_turns (n : nat) : list cev := concat (repeat [CTick 0; CTick 1; CTick 2; CTick 0] n).
Definition talk_evs : list cev := talk_turns 4 ++ [CArrive [RData x7a []; RIo IoRetry]] ++ talk_turns 9 ++ [CTick 1; CArrive [RData x80 [x01; x63; x88; x00]]].
Example C79_nonvacuous :
  io_only talk_in /\ io_only (arrived talk_evs) /\ last_ok (w_sock (talk_world true [])) /\ small_react talk_react /\ small_work talk_work /\
  (forall l log, Forall gentle_cmd (talk_react l log)) /\ (forall i, Forall gentle_cmd (talk_work i)) /\ no_use talk_react /\
  masks_as (Some true) talk_react talk_work (talk_world true [WAccept 1; WIo IoRetry; WAccept 3]) /\ healthy [WAccept 1; WIo IoRetry; WAccept 3] /\
  let s := krun talk_react (talk_evs ++ talk_turns 30) (crowd_init talk_work (talk_world true [WAccept 1; WIo IoRetry; WAccept 3])) in
  status_of s 0 = ADone /\ status_of s 1 = ADone /\ status_of s 2 = ADone /\
  map snd (notified s) = [EvMsg 1 [x61; x62]; EvPing [x7a]; EvMsg 0 [x63]; EvEnd 0; EvClose 0 []] /\ map fst (notified s) = [1; 1; 2; 2; 2]%nat /\
  (* coroutines 1 and 2 got into each other's way (C30) *)
  takeN 4 (written s) = [x81; x82; x82; x81].
Proof.
  split; [repeat constructor|]. split; [vm_compute; repeat constructor|]. split; [now left|]. split; [|split; [|split; [|split; [|split; [|split]]]]].
  - intros l log. unfold talk_react. destruct (List.last log (0%nat, EvEnd 0)) as [? [| |[|c []]| |]]; repeat constructor.
  - intros [|[|[|i]]]; repeat constructor.
  - intros l log. unfold talk_react. destruct (List.last log (0%nat, EvEnd 0)) as [? [| |[|c []]| |]]; repeat constructor.
  - intros [|[|[|i]]]; repeat constructor.
  - intros l log. unfold talk_react. destruct (List.last log (0%nat, EvEnd 0)) as [? [| |[|c []]| |]]; repeat constructor; discriminate.
  - intros b [= <-]. split; [reflexivity|]. split.
    + intros l log. unfold talk_react. destruct (List.last log (0%nat, EvEnd 0)) as [? [| |[|c []]| |]]; repeat constructor.
    + intros [|[|[|i]]]; repeat constructor.
  - split; [repeat constructor|]. cbv zeta. repeat (split; [vm_compute; reflexivity|]). vm_compute. reflexivity.
Qed.
