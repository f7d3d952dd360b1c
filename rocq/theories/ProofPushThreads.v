(** One connection of a server with sending threads is a socket with several threads, as if it were alone. *)
From Verif Require Import Bytes Frame World WebSocket AsyncWebSocket SpecFrame SpecSend SpecListen SpecApi SpecAsync SpecReply Lifecycle Server SpecServer ProofServer PropServer ThreadServer
  PropThreadServer2 Threads SpecThreads Concurrent SpecConcurrent Process SpecProcess ProofProcess3 PropProcess PropProcess2 PushThreads SpecPushThreads.
Local Open Scope nat_scope.
Local Notation upd := Lifecycle.upd.

(** ** Systems that agree *)
Definition same (a b : system) : Prop := (forall j, fst a j = fst b j) /\ snd a = snd b.
Definition same_but (k : nat) (a b : system) : Prop := (forall j, j <> k -> fst a j = fst b j) /\ snd a = snd b.
Lemma same_step j a b : same a b -> same (sstep j a) (sstep j b).
Proof.
  intros [H1 H2]. unfold sstep. rewrite H1, H2. destruct (pstep _ _ _) as [[[p v] g]|]; [|split; assumption]. split; [|reflexivity].
  intros k. cbn [fst]. destruct (Nat.eqb k j); [reflexivity|apply H1].
Qed.
Lemma but_step k j a b : j <> k -> same_but k a b -> same_but k (sstep j a) (sstep j b).
Proof.
  intros Hj [H1 H2]. unfold sstep. rewrite (H1 j Hj), H2. destruct (pstep _ _ _) as [[[p v] g]|]; [|split; assumption]. split; [|reflexivity].
  intros l Hl. cbn [fst]. destruct (Nat.eqb l j); [reflexivity|now apply H1].
Qed.
Lemma but_run k sch : ~ In k sch -> forall a b, same_but k a b -> same_but k (srun sch a) (srun sch b).
Proof.
  induction sch as [|j r IH]; intros Hn a b H; [exact H|]. cbn [srun]. apply IH; [intros Hx; apply Hn; now right|]. apply but_step; [|exact H].
  intros ->. apply Hn. now left.
Qed.
Lemma not_moved k sch : ~ In k sch -> forall s, fst (srun sch s) k = fst s k.
Proof.
  induction sch as [|j r IH]; intros Hn s; [reflexivity|]. cbn [srun]. rewrite IH by (intros Hx; apply Hn; now right). apply step_same. intros ->. apply Hn. now left.
Qed.
Lemma done_step j s o : finished s j o -> sstep j s = s.
Proof. unfold finished, sstep. now intros ->. Qed.
Lemma same_finished a b : same a b -> forall j o, finished a j o <-> finished b j o.
Proof. intros [H _] j o. unfold finished. now rewrite H. Qed.
Lemma same_told a b : same a b -> told a = told b.
Proof. intros [H _]. unfold told. now rewrite H. Qed.
Lemma same_wire a b : same a b -> wire_out a = wire_out b.
Proof. intros [_ H]. unfold wire_out. now rewrite H. Qed.
Lemma same_refl a : same a a.
Proof. split; reflexivity. Qed.

(** A thread more. *)
Lemma work_snoc ths cs j : j <> S (length ths) -> uwork (ths ++ [cs]) j = uwork ths j.
Proof.
  destruct j as [|j]; [reflexivity|]. intros H. cbn [uwork]. destruct (Nat.lt_ge_cases j (length ths)) as [Hl|Hl]; [now apply app_nth1|].
  rewrite !nth_overflow; [reflexivity|exact Hl|]. rewrite app_length. cbn. lia.
Qed.
Lemma work_new ths cs : uwork (ths ++ [cs]) (S (length ths)) = cs.
Proof. cbn [uwork]. rewrite app_nth2, Nat.sub_diag by lia. reflexivity. Qed.
Lemma one_more react w ths cs sch c : ~ In (S (length ths)) sch -> same c (srun sch (system_init react (uwork ths) w)) ->
  same (upd (fst c) (S (length ths)) (pexec_cmds cs, nothing), snd c) (srun sch (system_init react (uwork (ths ++ [cs])) w)).
Proof.
  intros Hn [H1 H2].
  assert (same_but (S (length ths)) (srun sch (system_init react (uwork ths) w)) (srun sch (system_init react (uwork (ths ++ [cs])) w))) as [B1 B2].
  { apply but_run; [exact Hn|]. split; [|reflexivity]. intros [|j] Hj; [reflexivity|]. cbn [system_init fst]. now rewrite work_snoc by exact Hj. }
  split; [|cbn [snd]; now rewrite H2, B2]. intros j. cbn [fst]. destruct (Nat.eq_dec j (S (length ths))) as [->|Hne].
  - rewrite upd_same, not_moved by exact Hn. cbn [system_init fst]. now rewrite work_new.
  - rewrite upd_other, H1 by exact Hne. now apply B1.
Qed.

Section Conn.
Variable waits : nat -> bool.
Variable setup : nat -> nat -> list cmd.
Variable react : nat -> react_t.
Variable i : nat.
Variables (L : option nat) (p : nat) (w1 : world).
Hypothesis Hlog : w_log w1 = [].

Definition alone (ths : list (list cmd)) (sch : list nat) : system := srun sch (system_init (react i) (uwork ths) w1).
Definition shown_so_far (st : stage) (M : system) : list seen_ev :=
  created L p ++ match st with StReady => [] | _ => NListen :: called (told M) ++ if leaving st then destroyed L else [] end.
(** [asked]: the threads the application has asked for; [sch]: the turns taken. *)
Definition follows (asked : list (list cmd)) (sch : list nat) (ph : uphase) (v : list seen_ev) : Prop := exists st ths c,
  ph = UOn L st ths c /\ same c (alone ths sch) /\ Forall (fun j => j <= length asked) sch /\ prefix ths asked /\
  (L <> None -> leaving st && careful waits L = false -> ths = asked) /\
  (st = StReady <-> ~ In 0 sch) /\ (leaving st = true -> finished (alone ths sch) 0 (Ret tt)) /\ v = shown_so_far st (alone ths sch).

Lemma told_first ths sch : ~ In 0 sch -> told (alone ths sch) = [].
Proof. intros H. unfold told, alone. rewrite not_moved by exact H. cbn. exact Hlog. Qed.
Lemma told_more ths sch j : told (sstep j (alone ths sch)) = told (alone ths sch) ++ skipn (length (told (alone ths sch))) (told (sstep j (alone ths sch))).
Proof.
  assert (prefix (told (alone ths sch)) (told (srun [j] (alone ths sch)))) as [r H].
  { apply (told_grows (react i) (uwork ths) w1 (fun _ => True) (fun _ => True) False); [intros ? ?|intros ?|]; try (apply Forall_forall; intros ? _; apply any_ok).
    apply sys_run. apply sys_start; [intros ? ?|intros ?|]; try (apply Forall_forall; intros ? _; apply any_ok). intros []. }
  cbn [srun] in H. rewrite H. now rewrite skipn_app_len.
Qed.
Lemma told_other ths sch j : j <> 0 -> told (sstep j (alone ths sch)) = told (alone ths sch).
Proof. intros H. unfold told. now rewrite step_same by exact H. Qed.
Lemma finished_stays j k o s : finished s k o -> finished (sstep j s) k o.
Proof.
  intros H. destruct (Nat.eq_dec j k) as [->|Hne]; [now rewrite (done_step _ _ _ H)|]. unfold finished in *. now rewrite step_same by exact Hne.
Qed.
Lemma alone_snoc ths sch j : alone ths (sch ++ [j]) = sstep j (alone ths sch).
Proof. unfold alone. now rewrite srun_app. Qed.
Lemma idle_thread ths sch j : length ths < j -> finished (alone ths sch) j (Ret tt).
Proof.
  intros Hj. destruct j as [|j]; [lia|]. unfold alone. assert (finished (system_init (react i) (uwork ths) w1) (S j) (Ret tt)) as H.
  { unfold finished. cbn [system_init fst uwork]. rewrite nth_overflow by lia. reflexivity. }
  revert H. generalize (system_init (react i) (uwork ths) w1). induction sch as [|k r IH]; intros s H; [exact H|]. cbn [srun]. now apply IH, finished_stays.
Qed.
Lemma prefix_snoc {A} (a b : list A) x : prefix a b -> prefix a (b ++ [x]).
Proof. intros [r ->]. exists (r ++ [x]). now rewrite app_assoc. Qed.
Lemma prefix_len {A} (a b : list A) : prefix a b -> length a <= length b.
Proof. intros [r ->]. rewrite app_length. lia. Qed.

(** A turn of [j] that changes nothing in the alone system either. *)
Lemma follows_idle asked sch ph v j : j <= length asked -> follows asked sch ph v ->
  (forall st ths c, ph = UOn L st ths c -> (exists o, finished c j o) /\ (j = 0 -> st <> StReady)) -> follows asked (sch ++ [j]) ph v.
Proof.
  intros Hj (st & ths & c & E1 & E2 & E3 & E4 & E5 & E6 & E7 & E8) H. destruct (H st ths c E1) as [[o Ho] Hr].
  assert (alone ths (sch ++ [j]) = alone ths sch) as EA by (rewrite alone_snoc; eapply done_step, (same_finished _ _ E2), Ho).
  exists st, ths, c. rewrite EA. split; [exact E1|]. split; [exact E2|]. split; [apply Forall_app; split; [exact E3|repeat constructor; exact Hj]|].
  split; [exact E4|]. split; [exact E5|]. split; [|split; assumption]. rewrite in_app_iff. cbn [In]. split.
  - intros Hs. pose proof (proj1 E6 Hs) as Hx. intros [Hy|[Hy|[]]]; [contradiction|]. now apply Hr.
  - intros Hx. apply E6. tauto.
Qed.

Lemma follows_step inst asked sch ph v e ph' new : uabout e = Some i -> (forall q, e <> UConn i q) ->
  follows asked sch ph v -> uconn waits setup react inst i e ph = UOk (ph', new) ->
  follows (asked ++ uasked i [e]) (sch ++ uturns i (length asked) [e]) ph' (v ++ new).
Proof.
  intros Ha Hn HF E. destruct e as [l|k q|k cs|k j]; cbn [uabout] in Ha; try discriminate; injection Ha as ->; [exfalso; now apply (Hn q)|..];
    cbn [uasked flat_map uturns]; rewrite ?Nat.eqb_refl; cbn [app andb]; rewrite ?app_nil_r.
  - (* a thread is started *)
    cbn [uconn] in E. injection E as <- <-. rewrite app_nil_r. destruct HF as (st & ths & c & -> & E2 & E3 & E4 & E5 & E6 & E7 & E8).
    assert (Forall (fun j => j <= length (asked ++ [cs])) sch) as E3'
      by (eapply Forall_impl; [|exact E3]; intros j Hj; cbn in Hj |- *; rewrite app_length; lia).
    cbn [ustart]. destruct L as [l|] eqn:EL.
    + destruct (leaving st && waits l) eqn:Elw.
      * exists st, ths, c. split; [now rewrite EL|]. split; [exact E2|]. split; [exact E3'|]. split; [now apply prefix_snoc|]. split; [|auto].
        intros _ Hx. rewrite EL in Hx. cbn [careful] in Hx. congruence.
      * assert (ths = asked) as -> by (apply E5; [discriminate|exact Elw]).
        assert (~ In (S (length asked)) sch) as Hnew by (intros Hx; rewrite Forall_forall in E3; specialize (E3 _ Hx); cbn in E3; lia).
        pose proof (one_more (react i) w1 asked cs sch c Hnew E2) as E2'. fold (alone (asked ++ [cs]) sch) in E2'.
        assert (fst (alone (asked ++ [cs]) sch) 0 = fst (alone asked sch) 0) as E0
          by (rewrite <- (proj1 E2'), <- (proj1 E2); cbn [fst]; now rewrite upd_other).
        exists st, (asked ++ [cs]). eexists. split; [now rewrite EL|]. split; [exact E2'|]. split; [exact E3'|]. split; [exists []; now rewrite app_nil_r|]. split; [auto|].
        split; [exact E6|]. split; [intros Hl; unfold finished; rewrite E0; now apply E7|].
        unfold shown_so_far in E8 |- *. unfold told. rewrite E0. exact E8.
    + exists st, ths, c. split; [now rewrite EL|]. split; [exact E2|]. split; [exact E3'|]. split; [now apply prefix_snoc|]. split; [congruence|].
      split; [exact E6|]. split; [exact E7|exact E8].
  - (* a turn *)
    pose proof HF as HF0. destruct HF as (st & ths & c & -> & E2 & E3 & E4 & E5 & E6 & E7 & E8). destruct j as [|j]; [change (0 <=? length asked) with true; cbn iota|].
    + cbn [uconn] in E. destruct st; cbn [uhandler] in E.
      * injection E as <- <-. exists StListen, ths, (sstep 0 c). split; [reflexivity|]. rewrite alone_snoc. split; [now apply same_step|].
        split; [apply Forall_app; split; [exact E3|repeat constructor; lia]|]. split; [exact E4|]. split; [exact E5|].
        split; [split; [discriminate|intros Hx; exfalso; apply Hx, in_or_app; right; now left]|]. split; [discriminate|].
        rewrite E8. unfold shown_so_far. cbn [leaving]. rewrite !app_nil_r. do 2 f_equal.
        assert (told (sstep 0 (alone ths sch)) = []) as ->; [|reflexivity].
        unfold told, sstep. pose proof (proj1 E6 eq_refl) as H0. unfold alone. rewrite (not_moved 0 sch H0). cbn. exact Hlog.
      * assert (In 0 sch) as H0 by (destruct (in_dec Nat.eq_dec 0 sch) as [Hx|Hx]; [exact Hx|apply E6 in Hx; discriminate]).
        assert (follows asked (sch ++ [0]) (UOn L StListen ths (sstep 0 c)) (v ++ called (skipn (length (told c)) (told (sstep 0 c))))) as HG.
        { exists StListen, ths, (sstep 0 c). split; [reflexivity|]. rewrite alone_snoc. pose proof (same_step 0 _ _ E2) as E2'. split; [exact E2'|].
          split; [apply Forall_app; split; [exact E3|repeat constructor; lia]|]. split; [exact E4|]. split; [exact E5|].
          split; [split; [discriminate|intros Hx; exfalso; apply Hx, in_or_app; now left]|]. split; [discriminate|].
          rewrite E8. unfold shown_so_far. cbn [leaving]. rewrite !app_nil_r, (same_told _ _ E2), (same_told _ _ E2'), (told_more ths sch 0), called_app.
          rewrite skipn_app_len, <- app_assoc. reflexivity. }
        assert (forall o, finished c 0 o -> follows asked (sch ++ [0]) (UOn L StListen ths c) v) as HD.
        { intros o Ho. apply follows_idle; [lia|exact HF0|]. intros st' ths' c' Eq. assert (c' = c /\ st' = StListen) as [-> ->] by (split; congruence). split; [eauto|discriminate]. }
        destruct (fst (fst c 0)) as [[[]|e0| |u|]|u k|k|x k|k|k|m k|d got k|e0 k] eqn:Ep; try discriminate; injection E as <- <-; try exact HG.
        -- destruct (HD _ Ep) as (st & ths' & c' & Eq & G2 & G3 & G4 & G5 & G6 & G7 & G8).
           assert (ths' = ths /\ c' = c /\ st = StListen) as (-> & -> & ->) by (repeat split; congruence).
           exists StLeave, ths, c. split; [reflexivity|]. split; [exact G2|]. split; [exact G3|]. split; [exact G4|]. split; [intros Hx _; now apply G5|].
           split; [split; [discriminate|intros Hx; exfalso; apply Hx, in_or_app; now left]|]. split; [intros _; apply (same_finished _ _ G2), Ep|].
           rewrite G8. unfold shown_so_far. cbn [leaving]. rewrite app_nil_r, <- !app_assoc. reflexivity.
        -- rewrite app_nil_r. exact (HD _ Ep).
      * pose proof (E7 eq_refl) as Hf0. apply (same_finished _ _ E2) in Hf0.
        assert (follows asked (sch ++ [0]) (UOn L StLeave ths c) v) as HG.
        { apply follows_idle; [lia|exact HF0|]. intros st' ths' c' Eq. assert (c' = c /\ st' = StLeave) as [-> ->] by (split; congruence). split; [eauto|discriminate]. }
        destruct (careful waits L && _); injection E as <- <-; rewrite app_nil_r; [exact HG|].
        destruct HG as (st & ths' & c' & Eq & G2 & G3 & G4 & G5 & G6 & G7 & G8). assert (ths' = ths /\ c' = c /\ st = StLeave) as (-> & -> & ->) by (repeat split; congruence).
        exists StGone, ths, c. split; [reflexivity|]. split; [exact G2|]. split; [exact G3|]. split; [exact G4|]. split; [exact G5|].
        split; [split; [discriminate|intros Hx; apply G6 in Hx; discriminate]|]. split; [exact G7|exact G8].
      * injection E as <- <-. rewrite app_nil_r. pose proof (E7 eq_refl) as Hf0. apply (same_finished _ _ E2) in Hf0.
        apply follows_idle; [lia|exact HF0|]. intros st' ths' c' Eq. assert (c' = c /\ st' = StGone) as [-> ->] by (split; congruence). split; [eauto|discriminate].
    + cbn [uconn] in E. unfold uthread in E. pose proof (prefix_len _ _ E4) as Hlen.
      assert (forall o, finished c (S j) o -> ph' = UOn L st ths c -> new = [] ->
        follows asked (sch ++ if S j <=? length asked then [S j] else []) ph' (v ++ new)) as HI.
      { intros o Ho -> ->. rewrite app_nil_r. destruct (Nat.leb_spec (S j) (length asked)) as [Hl|Hl]; [|now rewrite app_nil_r].
        apply follows_idle; [exact Hl|exact HF0|]. intros st' ths' c' Eq. assert (c' = c) as -> by congruence. split; [eauto|discriminate]. }
      destruct (Nat.leb_spec (S j) (length ths)) as [Hl|Hl]; cbn [andb] in E.
      * unfold running in E. destruct (fst (fst c (S j))) as [o| | | | | | | |] eqn:Ep;
          [injection E as <- <-; now apply (HI o)|..];
        (destruct (Nat.leb_spec (S j) (length asked)) as [Hl'|Hl']; [|lia]);
        (assert (ph' = UOn L st ths (sstep (S j) c) /\ new = []) as [-> ->]
           by (destruct st; try discriminate; destruct (fst (fst (sstep (S j) c) (S j))) as [[]| | | | | | | |]; try discriminate; split; congruence));
        rewrite app_nil_r; exists st, ths, (sstep (S j) c); (split; [reflexivity|]); rewrite alone_snoc; (split; [now apply same_step|]);
        (split; [apply Forall_app; split; [exact E3|repeat constructor; exact Hl']|]); (split; [exact E4|]); (split; [exact E5|]);
        (split; [rewrite E6, in_app_iff; cbn [In]; split; [intros Hx [Hy|[Hy|[]]]; [contradiction|discriminate]|tauto]|]);
        (split; [intros Hx; now apply finished_stays, E7|]); rewrite E8; unfold shown_so_far; rewrite told_other by discriminate; reflexivity.
      * injection E as <- <-. apply (HI (Ret tt)); [|reflexivity|reflexivity]. apply (same_finished _ _ E2). now apply idle_thread.
Qed.
End Conn.
