(** What coroutines in company put on the wire. *)
From Verif Require Import Bytes Frame World WebSocket AsyncWebSocket SpecFrame SpecSend SpecListen SpecApi SpecReply SpecAsync SpecThreads Concurrent SpecConcurrent
  SpecProcess Coroutines SpecCoroutines ProofFrame ProofStream ProofSend ProofConcurrent ProofAsync ProofAsync2 PropReply ProofProcess4 ProofCoroutines.
From Coq Require Import ZifyBool ZifyNat ZifyN.
Local Open Scope N_scope.
Local Arguments takeN : simpl never.
Local Arguments dropN : simpl never.
Local Arguments lenN : simpl never.
Local Arguments be_enc : simpl never.
Local Arguments be_dec : simpl never.
Local Arguments packHeaderBits : simpl never.
Local Arguments unpackHeaderBits : simpl never.

Section Held.
Variable mfix : option bool.
Variable whole : Prop.
Variable react : react_t.
Hypothesis Hsmall : small_react react.
Hypothesis Hmask : forall l log, Forall (cmask_ok mfix) (react l log).

Definition tag (i : nat) (y : sendop * option mask4) : sent := (i, fst y, snd y).
Definition base (lis : bool) (st : list cor) : Prop := Forall (fun co => lis = true /\ listening_co co) st.
Definition piece (p : bytes) (x : sent) : Prop := prefix p (sent_bytes x) /\ (whole -> p = sent_bytes x).
Definition said (pieces : list bytes) (done cur : list sent) (cs : list cmd) (own : bytes) (total : list sendop) (v : voice) : Prop :=
  match v with
  | VIdle => cur = [] /\ own = concat pieces /\ total = map sent_op done ++ sends_of cs
  | VStart op => cur = [] /\ own = concat pieces /\ total = map sent_op done ++ op :: sends_of cs
  | VSend lf => exists x part, cur = [x] /\ part ++ lf = sent_bytes x /\ own = concat pieces ++ part /\ total = map sent_op (done ++ [x]) ++ sends_of cs
  end.
Definition held (lis : bool) (st : list cor) (status : status) (own : bytes) (B : list sent) (total : list sendop) : Prop :=
  exists pieces done cur, B = done ++ cur /\ Forall2 piece pieces done /\
    ((base lis st /\ cur = [] /\ own = concat pieces /\ total = map sent_op B) \/
     (exists K cs freed v, base lis K /\ Forall small_cmd cs /\ Forall (cmask_ok mfix) cs /\ talking K cs freed v st /\
        (status = ARun \/ status = AWait /\ ~ whole) /\ said pieces done cur cs own total v) \/
     (st = [] /\ cur = [] /\ own = concat pieces /\ prefix (map sent_op B) total /\ ((exists e, status = AFail e) /\ ~ whole \/ status = AUb UbDangling))).

Lemma base_unwind lis K : base lis K -> unwind K = None.
Proof. intros H. apply unwind_listening. eapply Forall_impl; [|exact H]. cbn. tauto. Qed.
Lemma base_listening lis K : base lis K -> Forall listening_co K.
Proof. intros H. eapply Forall_impl; [|exact H]. cbn. tauto. Qed.
Lemma base_lis K : Forall listening_co K -> base true K.
Proof. intros H. eapply Forall_impl; [|exact H]. cbn. tauto. Qed.

(** The world as the invariant wants it. *)
Definition fair_world (w : world) : Prop :=
  (forall b, mfix = Some b -> s_mask (w_sock w) = b) /\ (whole -> healthy (w_wr w)) /\ io_only (w_in w).

Lemma not_healthy w : fair_world w -> ~ healthy (w_wr w) -> ~ whole.
Proof. intros (_ & H & _) Hn Hw. auto. Qed.

Definition moved (w w' : world) (b : bytes) (new : list (nat * event)) (x : list (sendop * option mask4)) : Prop :=
  w_out w' = w_out w ++ b /\ w_log w' = w_log w ++ new /\ w_rnd w' = w_rnd w /\
  ((x = [] /\ w_rpos w' = w_rpos w) \/ exists op, x = [(op, next_key_opt w)] /\ w_rpos w' = (w_rpos w + used (s_mask (w_sock w)))%nat).

Lemma held_step lis i hdr short st status own B total w st' c' :
  held lis st status own B total -> going status -> fair_world w -> step react (Conf hdr short st w) = (st', c') ->
  exists b new x, moved w (c_world c') b new x /\ fair_world (c_world c') /\ (lis = false -> new = []) /\
    held lis (c_stack c') st' (own ++ b) (B ++ map (tag i) x) (total ++ replies react (w_log w) new).
Proof.
  intros (pieces & done & cur & HB & HP & H) Hg Hfw E. destruct H as [(Hb & -> & Ho & Ht)|[H|H]].
  - (* receiving *)
    destruct (like_self w) as [wa HL].
    pose proof (hear_step react [] w hdr short st wa (base_listening _ _ Hb) (proj2 (proj2 Hfw)) HL) as HH. rewrite E in HH.
    destruct HH as ((A1 & A2 & A3 & A4 & A5 & A6 & A7 & A8) & _ & _ & _ & _ & HH). cbn [fst snd] in *.
    assert (fair_world (c_world c')) as Hf' by (destruct Hfw as (F1 & F2 & F3); unfold fair_world; rewrite A2, A5; auto).
    assert (forall co K, st = co :: K -> lis = true) as Hlis by (intros co K ->; inversion Hb; tauto).
    destruct HH as [(_ & H1 & H2)|(l & ev & freed & K' & H0 & H1 & _ & H3 & H4)].
    + exists [], [], []. cbn [map replies]. rewrite !app_nil_r. split; [|split; [exact Hf'|split; [reflexivity|]]].
      { unfold moved. rewrite !app_nil_r. auto 9. }
      exists pieces, done, []. split; [exact HB|]. split; [exact HP|]. left. split; [|auto].
      destruct st as [|co K]; [injection E as <- <-; exact Hb|]. rewrite (Hlis co K eq_refl). now apply base_lis.
    + assert (lis = true) as El. { destruct st as [|co K]; [injection E as <- <-; discriminate|eauto]. }
      exists [], [(l, ev)], []. cbn [map replies fst]. rewrite !app_nil_r. split; [|split; [exact Hf'|split; [congruence|]]].
      { unfold moved. rewrite !app_nil_r. auto 9. }
      exists pieces, done, []. split; [exact HB|]. split; [exact HP|]. right; left.
      exists K', (react l (w_log w ++ [(l, ev)])), freed, VIdle. split; [rewrite El; now apply base_lis|]. split; [apply Hsmall|]. split; [apply Hmask|].
      rewrite H1, H0. split; [exact (tk_user K' _ freed false)|]. split; [now left|]. cbn [said]. split; [reflexivity|]. split; [exact Ho|].
      rewrite Ht, HB, app_nil_r. reflexivity.
  - (* application code *)
    destruct H as (K & cs & freed & v & Hb & Hs & Hc & Hk & Hst & Hsd).
    pose proof (talk_step react K hdr short w (base_unwind _ _ Hb) cs freed v st Hs Hk) as HT. rewrite E in HT. cbn [fst snd] in HT.
    assert (forall w' b x, w_log w' = w_log w -> w_rnd w' = w_rnd w -> w_out w' = w_out w ++ b ->
        (x = [] /\ w_rpos w' = w_rpos w \/ exists op, x = [(op, next_key_opt w)] /\ w_rpos w' = (w_rpos w + used (s_mask (w_sock w)))%nat) -> moved w w' b [] x) as Hmv.
    { intros w' b x H1 H2 H3 H4. unfold moved. rewrite app_nil_r. auto. }
    assert (forall w', w_in w' = w_in w -> w_sock w' = w_sock w -> (healthy (w_wr w) -> healthy (w_wr w')) -> fair_world w') as Hfk.
    { intros w' H1 H2 H3. destruct Hfw as (F1 & F2 & F3). unfold fair_world. rewrite H1, H2. auto. }
    destruct HT as [-> |st1 Hk1|c cs' st1 w1 -> H2 H3 Hfr H4 H5 H6 H7 H8 H9|c cs' op st1 -> H2 H3|op st1 w1 H1 H2 H3 H4 H5 H6|a left st1 w1 H1 H2 H3 H4 H5 H6|
      left st1 H1 H2|st1 H1|left st1 w1 H1 H2 H3 H4 H5 H6|cs' -> |cs' -> Hfr|left w1 H2 H3 H4 H5 H6]; cbn [c_world c_stack].
    + (* return *)
      exists [], [], []. cbn [map replies]. rewrite !app_nil_r. split; [apply Hmv; [..|left]; auto using app_nil_r; now rewrite app_nil_r|]. split; [exact Hfw|]. split; [reflexivity|].
      exists pieces, done, cur. split; [exact HB|]. split; [exact HP|]. left. cbn [said sends_of] in Hsd. destruct Hsd as (-> & Ho & Ht). split; [exact Hb|]. split; [reflexivity|]. split; [exact Ho|].
      rewrite Ht, HB, !app_nil_r. reflexivity.
    + (* pop a handler *)
      exists [], [], []. cbn [map replies]. rewrite !app_nil_r. split; [apply Hmv; [..|left]; auto; now rewrite app_nil_r|]. split; [exact Hfw|]. split; [reflexivity|].
      exists pieces, done, cur. split; [exact HB|]. split; [exact HP|]. right; left. exists K, cs, freed, VIdle. repeat (split; [assumption|]). split; [now left|exact Hsd].
    + (* a command *)
      destruct H9 as (M1 & M2 & M3 & M4). apply Forall_cons_iff in Hs. destruct Hs as [Hs1 Hs]. apply Forall_cons_iff in Hc. destruct Hc as [Hc1 Hc].
      exists [], [], []. cbn [map replies]. rewrite !app_nil_r. split; [apply Hmv; [..|left]; auto; now rewrite app_nil_r|]. split.
      { destruct Hfw as (F1 & F2 & F3). unfold fair_world. rewrite H5, H7, M1. split; [|auto]. intros b Hb0. specialize (F1 b Hb0). destruct c; cbn; auto. eapply Hc1; [exact Hb0|reflexivity]. }
      split; [reflexivity|]. exists pieces, done, cur. split; [exact HB|]. split; [exact HP|]. right; left. exists K, cs', freed, VIdle. repeat (split; [assumption|]). split; [now left|].
      cbn [said] in *. destruct Hsd as (-> & Ho & Ht). split; [reflexivity|]. split; [exact Ho|]. rewrite Ht. f_equal. destruct c; try discriminate H2; try congruence; reflexivity.
    + (* a sending command *)
      apply Forall_cons_iff in Hs. destruct Hs as [Hs1 Hs]. apply Forall_cons_iff in Hc. destruct Hc as [Hc1 Hc].
      exists [], [], []. cbn [map replies]. rewrite !app_nil_r. split; [apply Hmv; [..|left]; auto; now rewrite app_nil_r|]. split; [exact Hfw|]. split; [reflexivity|].
      exists pieces, done, cur. split; [exact HB|]. split; [exact HP|]. right; left. exists K, cs', freed, (VStart op). repeat (split; [assumption|]). split; [now left|].
      cbn [said] in *. destruct Hsd as (-> & Ho & Ht). split; [reflexivity|]. split; [exact Ho|]. rewrite Ht. f_equal. destruct c; try discriminate H2; injection H2 as <-; reflexivity.
    + (* the call begins *)
      destruct H6 as (M1 & M2 & M3 & M4). exists [], [], [(op, next_key_opt w)]. cbn [map replies tag fst snd]. rewrite !app_nil_r.
      split; [apply Hmv; [..|right]; auto; [now rewrite app_nil_r|eauto]|]. split; [apply Hfk; auto; now rewrite H4|]. split; [reflexivity|].
      cbn [said] in Hsd. destruct Hsd as (-> & Ho & Ht). rewrite app_nil_r in HB. subst B.
      exists pieces, done, [(i, op, next_key_opt w)]. split; [reflexivity|]. split; [exact HP|]. right; left. exists K, cs, freed, (VSend (sent_wire (next_key_opt w) op)). repeat (split; [assumption|]). split; [now left|].
      cbn [said]. exists (i, op, next_key_opt w), []. split; [reflexivity|]. split; [reflexivity|]. rewrite app_nil_r. split; [exact Ho|]. rewrite Ht, map_app, <- app_assoc. reflexivity.
    + (* bytes are written *)
      destruct H6 as (M1 & M2 & M3 & M4). exists a, [], []. cbn [map replies]. rewrite !app_nil_r. split; [apply Hmv; [..|left]; auto|]. split; [apply Hfk; auto|]. split; [reflexivity|].
      exists pieces, done, cur. split; [exact HB|]. split; [exact HP|]. right; left. exists K, cs, freed, (VSend left). repeat (split; [assumption|]). split; [now left|].
      cbn [said] in *. destruct Hsd as (x & part & -> & Hp & Ho & Ht). exists x, (part ++ a). split; [reflexivity|]. split; [rewrite <- Hp; now rewrite app_assoc|]. split; [rewrite Ho; now rewrite app_assoc|exact Ht].
    + (* the connection blocks *)
      exists [], [], []. cbn [map replies]. rewrite !app_nil_r. split; [apply Hmv; [..|left]; auto; now rewrite app_nil_r|]. split; [exact Hfw|]. split; [reflexivity|].
      exists pieces, done, cur. split; [exact HB|]. split; [exact HP|]. right; left. exists K, cs, freed, (VSend left). repeat (split; [assumption|]). split; [|exact Hsd].
      right. split; [reflexivity|]. apply (not_healthy w Hfw). destruct H2 as [q ->]. intros Hh. inversion Hh; subst. contradiction.
    + (* the call ends *)
      exists [], [], []. cbn [map replies]. rewrite !app_nil_r. split; [apply Hmv; [..|left]; auto; now rewrite app_nil_r|]. split; [exact Hfw|]. split; [reflexivity|].
      cbn [said] in Hsd. destruct Hsd as (x & part & -> & Hp & Ho & Ht). rewrite app_nil_r in Hp.
      exists (pieces ++ [part]), B, []. split; [now rewrite app_nil_r|]. split; [rewrite HB; apply Forall2_app; [exact HP|constructor; [|constructor]]; split; [subst part; exists []; now rewrite app_nil_r|auto]|].
      right; left. exists K, cs, freed, VIdle. repeat (split; [assumption|]). split; [now left|]. cbn [said]. split; [reflexivity|]. rewrite concat_app. cbn [concat]. rewrite app_nil_r. split; [exact Ho|]. rewrite Ht, HB. reflexivity.
    + (* the call fails, handled *)
      destruct H6 as (M1 & M2 & M3 & M4). pose proof (not_healthy w Hfw H2) as Hnw.
      exists [], [], []. cbn [map replies]. rewrite !app_nil_r. split; [apply Hmv; [..|left]; auto; now rewrite app_nil_r|]. split; [apply Hfk; auto; tauto|]. split; [reflexivity|].
      cbn [said] in Hsd. destruct Hsd as (x & part & -> & Hp & Ho & Ht).
      exists (pieces ++ [part]), B, []. split; [now rewrite app_nil_r|]. split; [rewrite HB; apply Forall2_app; [exact HP|constructor; [|constructor]]; split; [exists left; auto|tauto]|].
      right; left. exists K, cs, freed, VIdle. repeat (split; [assumption|]). split; [now left|]. cbn [said]. split; [reflexivity|]. rewrite concat_app. cbn [concat]. rewrite app_nil_r. split; [exact Ho|]. rewrite Ht, HB. reflexivity.
    + (* throws *)
      exists [], [], []. cbn [map replies]. rewrite !app_nil_r. split; [apply Hmv; [..|left]; auto; now rewrite app_nil_r|]. split; [exact Hfw|]. split; [reflexivity|].
      exists pieces, done, cur. split; [exact HB|]. split; [exact HP|]. left. cbn [said sends_of] in Hsd. destruct Hsd as (-> & Ho & Ht). split; [constructor|]. split; [reflexivity|]. split; [exact Ho|].
      rewrite Ht, HB, !app_nil_r. reflexivity.
    + (* uses freed data *)
      exists [], [], []. cbn [map replies]. rewrite !app_nil_r. split; [apply Hmv; [..|left]; auto; now rewrite app_nil_r|]. split; [exact Hfw|]. split; [reflexivity|].
      exists pieces, done, cur. split; [exact HB|]. split; [exact HP|]. right; right. cbn [said] in Hsd. destruct Hsd as (-> & Ho & Ht). split; [reflexivity|]. split; [reflexivity|]. split; [exact Ho|].
      split; [rewrite Ht, HB, app_nil_r; eexists; reflexivity|now right].
    + (* fails *)
      destruct H6 as (M1 & M2 & M3 & M4). pose proof (not_healthy w Hfw H2) as Hnw.
      exists [], [], []. cbn [map replies]. rewrite !app_nil_r. split; [apply Hmv; [..|left]; auto; now rewrite app_nil_r|]. split; [apply Hfk; auto; tauto|]. split; [reflexivity|].
      cbn [said] in Hsd. destruct Hsd as (x & part & -> & Hp & Ho & Ht).
      exists (pieces ++ [part]), B, []. split; [now rewrite app_nil_r|]. split; [rewrite HB; apply Forall2_app; [exact HP|constructor; [|constructor]]; split; [exists left; auto|tauto]|].
      right; right. split; [reflexivity|]. split; [reflexivity|]. rewrite concat_app. cbn [concat]. rewrite app_nil_r. split; [exact Ho|].
      split; [rewrite Ht, HB; eexists; reflexivity|]. left. split; [eauto|exact Hnw].
  - destruct H as (-> & _ & _ & _ & [[[e ->] _]| ->]); destruct Hg; discriminate.
Qed.

(** * The crowd *)
Variable work : nat -> list cmd.
Variable w0 : world.
Definition lis (i : nat) : bool := match i with O => true | _ => false end.
Definition crowd_inv (s : crowd_t) : Prop :=
  fair_world (snd s) /\ w_rnd (snd s) = w_rnd w0 /\
  exists lab (begun : list sent) new,
    w_out (snd s) = w_out w0 ++ map snd lab /\ w_log (snd s) = w_log w0 ++ new /\
    (forall more, fresh_keys (w_rnd w0) (w_rpos (snd s)) more -> fresh_keys (w_rnd w0) (w_rpos w0) (map snd begun ++ more)) /\
    (forall b, mfix = Some b -> Forall (keyed_as b) (map snd begun)) /\
    forall i, held (lis i) (k_stack (fst s i)) (status_of s i) (from i lab) (filter (sent_by i) begun) (to_send react work (w_log w0) new i).

Lemma crowd_step e s : (forall rs, e = CArrive rs -> io_only rs) -> crowd_inv s -> crowd_inv (kstep react e s).
Proof.
  intros He (Hfw & Hrn & lab & begun & new & Ho & Hlog & Hfr & Hkey & Hi). destruct e as [i|rs]; cbn [kstep].
  - unfold ktick. set (k := fst s i) in *. destruct (tick react (k_status k, Conf (k_hdr k) (k_short k) (k_stack k) (snd s))) as [st' c'] eqn:E.
    assert (going (k_status k) \/ (st' = k_status k /\ c' = Conf (k_hdr k) (k_short k) (k_stack k) (snd s))) as [Hg|[-> ->]].
    { unfold going. destruct (k_status k); [left; auto|left; auto|right..]; cbn [tick] in E; injection E as <- <-; auto. }
    + assert (step react (Conf (k_hdr k) (k_short k) (k_stack k) (snd s)) = (st', c')) as E' by (destruct Hg as [Hg|Hg]; rewrite Hg in E; exact E).
      destruct (held_step (lis i) i _ _ _ _ _ _ _ _ _ _ (Hi i) Hg Hfw E') as (b & nw & x & (M1 & M2 & M3 & M4) & Hfw' & Hl & Hh).
      split; [exact Hfw'|]. split; [cbn [snd]; congruence|]. exists (lab ++ map (pair i) b), (begun ++ map (tag i) x), (new ++ nw).
      cbn [fst snd]. split; [rewrite M1, Ho, map_app, snd_label; now rewrite app_assoc|]. split; [rewrite M2, Hlog; now rewrite app_assoc|]. split; [|split].
      * intros more Hm. rewrite map_app, <- app_assoc. apply Hfr. destruct M4 as [[-> M4]|(op & -> & M4)]; cbn [map app snd]; [rewrite <- M4; exact Hm|].
        rewrite M4 in Hm. unfold next_key_opt, next_key. destruct (s_mask (w_sock (snd s))); cbn [used fresh_keys] in *.
        -- rewrite Hrn. split; [reflexivity|exact Hm].
        -- rewrite Nat.add_0_r in Hm. exact Hm.
      * intros m Hm. rewrite map_app. apply Forall_app. split; [now apply Hkey|]. destruct M4 as [[-> _]|(op & -> & _)]; constructor; [|constructor].
        cbn [snd]. destruct Hfw as (F1 & _). specialize (F1 m Hm). unfold next_key_opt. rewrite F1. destruct m; reflexivity.
      * intros j. unfold status_of. cbn [fst]. rewrite from_app, from_label, filter_app.
        destruct (Nat.eqb_spec j i) as [->|Hj].
        -- cbn [k_stack k_status]. rewrite Nat.eqb_refl.
           assert (filter (sent_by i) (map (tag i) x) = map (tag i) x) as ->.
           { clear. induction x as [|y x IH]; [reflexivity|]. cbn [map filter]. unfold sent_by at 1. unfold tag at 1. cbn [fst]. rewrite Nat.eqb_refl. now f_equal. }
           assert (to_send react work (w_log w0) (new ++ nw) i = to_send react work (w_log w0) new i ++ replies react (w_log (snd s)) nw) as ->; [|exact Hh].
           destruct i as [|i]; cbn [to_send]; [rewrite replies_app, Hlog; reflexivity|]. rewrite (Hl eq_refl). cbn [replies]. now rewrite app_nil_r.
        -- destruct (Nat.eqb_spec i j) as [->|_]; [congruence|]. rewrite app_nil_r.
           assert (filter (sent_by j) (map (tag i) x) = []) as ->.
           { clear -Hj. induction x as [|y x IH]; [reflexivity|]. cbn [map filter]. unfold sent_by at 1. unfold tag at 1. cbn [fst]. destruct (Nat.eqb_spec i j); [congruence|exact IH]. }
           rewrite app_nil_r.
           assert (to_send react work (w_log w0) (new ++ nw) j = to_send react work (w_log w0) new j) as ->; [|exact (Hi j)].
           destruct j as [|j]; cbn [to_send]; [|reflexivity]. destruct i as [|i]; [congruence|]. rewrite (Hl eq_refl), app_nil_r. reflexivity.
    + split; [exact Hfw|]. split; [exact Hrn|]. exists lab, begun, new. repeat (split; [assumption|]). intros j. unfold status_of. cbn [fst c_stack c_hdr c_short].
      destruct (Nat.eqb_spec j i) as [->|Hj]; [|exact (Hi j)]. cbn [k_stack k_status]. exact (Hi i).
  - split; [|split; [exact Hrn|exists lab, begun, new; auto]].
    destruct Hfw as (F1 & F2 & F3). cbn [snd]. unfold fair_world. cbn [set_in w_sock w_wr w_in]. split; [exact F1|]. split; [exact F2|]. apply io_only_app; [exact F3|now apply He].
Qed.
Lemma crowd_run evs : io_only (arrived evs) -> forall s, crowd_inv s -> crowd_inv (krun react evs s).
Proof.
  induction evs as [|e evs IH]; intros Hio s Hs; [exact Hs|]. cbn [krun fold_left]. apply IH.
  - destruct e; cbn [arrived] in Hio; [exact Hio|]. apply Forall_app in Hio. tauto.
  - apply crowd_step; [|exact Hs]. intros rs ->. cbn [arrived] in Hio. apply Forall_app in Hio. tauto.
Qed.
Lemma crowd_start : fair_world w0 -> small_work work -> (forall i, Forall (cmask_ok mfix) (work i)) -> crowd_inv (crowd_init work w0).
Proof.
  intros Hf Hs Hm. split; [exact Hf|]. split; [reflexivity|]. exists [], [], []. cbn [map crowd_init snd fst]. rewrite !app_nil_r.
  split; [reflexivity|]. split; [reflexivity|]. split; [auto|]. split; [constructor|]. intros i. exists [], [], []. split; [reflexivity|]. split; [constructor|].
  destruct i as [|i].
  - left. cbn. split; [repeat constructor|auto].
  - right; left. exists [], (work (S i)), false, VIdle. split; [constructor|]. split; [apply Hs|]. split; [apply Hm|].
    split; [exact (tk_user [] _ false false)|]. split; [now left|]. cbn. auto.
Qed.
End Held.
