(** Property theorems about a blocking socket on which other threads call stopListening, setListener and setConfig (C69-C71). *)
From Verif Require Import Bytes Frame World WebSocket SpecFrame SpecSend SpecListen SpecApi SpecConfig SpecAsync Threads SpecThreads
  ProofFrame ProofStream ProofSend ProofHeader ProofListen ProofInv ProofAsync ProofThreads.
From Coq Require Import ZifyBool ZifyNat ZifyN.
Local Open Scope N_scope.
Local Arguments takeN : simpl never.
Local Arguments dropN : simpl never.
Local Arguments lenN : simpl never.
Local Arguments be_enc : simpl never.
Local Arguments be_dec : simpl never.

(** How listening ended, after [n] whole frames ([h]: the last header, [p]: the socket on its own after [n] frames). *)
Definition same_delivery (t : tworld) (p : world) : Prop :=
  calls (t_trace t) = map snd (w_log p) /\ w_in (t_world t) = w_in p.
Definition ended (free : Prop) (o : outcome unit) (t : tworld) (n : nat) (h : header) (p : world) : Prop :=
  (* between two frames: a Close frame has been handled or somebody has called stopListening *)
  (o = Ret tt /\ n <> O /\ same_delivery t p /\ (h_opcode h = 8 \/ s_listening (w_sock (t_world t)) = false)) \/
  (* in the next frame *)
  ((n = O \/ h_opcode h <> 8) /\ exists o' p', iterateFrame taking_notes h p = (o', p') /\
    ( (* the socket on its own also gets no further: a failure, or the rest has not arrived *)
      (same_delivery t p' /\ ((exists e, o' = Throw e /\ o = Ret tt) \/ (o' = Wait /\ o = Wait))) \/
      (* listener code did not return normally, or there was no listener any more *)
      (free /\ prefix (map snd (w_log p)) (calls (t_trace t)) /\ prefix (calls (t_trace t)) (map snd (w_log p'))))).

Lemma notes_safe h p o' p' : io_only (w_in p) -> iterateFrame taking_notes h p = (o', p') -> forall u, o' <> Ub u.
Proof.
  intros Hio E u Hu.
  assert (buf_script (s_buf (w_sock p)) (w_in p)) as Hs by (eapply Forall_impl; [|exact Hio]; intros [] Hx; [exact I|exact I|destruct Hx]).
  destruct (binv_iterate taking_notes (s_buf (w_sock p)) (fun _ _ => Forall_nil _) h p o' p' (conj Hs eq_refl) E) as (_ & _ & Hub).
  destruct (Hub u Hu) as [_ Hn]. apply Hn. intros l log. constructor.
Qed.

Section Loops.
Variable react : react_t.
Variables K L : Prop.
Hypothesis Hconf : forall l log, Forall no_config_cmd (react l log).
Hypothesis Hk : K \/ forall l log, Forall harmless_cmd (react l log).
Hypothesis Hl : L \/ ((forall l log, Forall harmless_cmd (react l log)) /\ never_stops react).
Variable lf : bool.
Notation insync := (insync K L lf).

Lemma insync_same t p : insync t p -> same_delivery t p.
Proof. intros (H1 & _ & _ & _ & _ & _ & H7 & _). split; assumption. Qed.

Lemma frame_step fuel h t p o t' : insync t p -> tlisten_loop react (S fuel) h t = (o, t') ->
  exists o' p', iterateFrame taking_notes h p = (o', p') /\ o' <> OutOfFuel /\
  ((exists h' t1, o' = Ret h' /\ insync t1 p' /\ (script_size (w_in p') < script_size (w_in p))%nat /\
     (if (negb (h_opcode h' =? OPCODE_CLOSE) && s_listening (w_sock (t_world t1)))%bool then tlisten_loop react fuel h' t1 else (Ret tt, t1)) = (o, t')) \/
   (insync t' p' /\ ((exists e, o' = Throw e /\ o = Throw e) \/ (o' = Wait /\ o = Wait))) \/
   cut K o t' p p').
Proof.
  intros HR E. cbn [tlisten_loop] in E. unfold tbind at 1 in E. destruct (mark TFrame t) as [o0 t0] eqn:E0.
  apply (insync_mark K L lf _ p) in E0; [|reflexivity|exact HR]. destruct E0 as [-> H0].
  destruct (iterateFrame taking_notes h p) as [o' p'] eqn:Ei.
  assert (o' <> OutOfFuel /\ forall h', o' = Ret h' -> (script_size (w_in p') < script_size (w_in p))%nat) as (F1 & F3).
  { unfold iterateFrame, bind in Ei. destruct (readFrameHeader h p) as [o1 p1] eqn:Eh.
    apply readFrameHeader_fin in Eh. destruct Eh as (G1 & G2 & _).
    destruct o1 as [h1| | | |]; try (injection Ei as <- <-; repeat split; [discriminate|intros; discriminate]); [|congruence].
    specialize (G2 _ eq_refl). destruct (handleFrame taking_notes h1 p1) as [o2 p2] eqn:E2. apply handleFrame_fin in E2. destruct E2 as [G3 G4].
    destruct o2; injection Ei as <- <-; repeat split; try discriminate; try lia; try (intros; discriminate); congruence. }
  exists o', p'. split; [reflexivity|]. split; [exact F1|].
  pose proof (fsim_iterate react K L Hconf Hk Hl lf h) as [_ HS].
  destruct ((h' <- local (readFrameHeader h);; thandleFrame react h' ;;; tret h')%t t0) as [o1 t1] eqn:E1.
  specialize (HS _ _ _ _ _ _ H0 E1 Ei).
  assert (match o1 with
          | Ret h' => exists t2, interleave t1 = (Ret tt, t2) /\
              (if (negb (h_opcode h' =? OPCODE_CLOSE) && s_listening (w_sock (t_world t2)))%bool then tlisten_loop react fuel h' t2 else (Ret tt, t2)) = (o, t')
          | Throw e => (o, t') = (Throw e, t1) | Wait => (o, t') = (Wait, t1) | Ub u => (o, t') = (Ub u, t1) | OutOfFuel => (o, t') = (OutOfFuel, t1) end) as HE.
  { clear HS. unfold tbind at 1 in E; unfold tbind at 1 in E1. destruct (local (readFrameHeader h) t0) as [oh th]. destruct oh as [h'| | | |]; try (injection E1 as <- <-; now rewrite E).
    unfold tbind at 1 in E; unfold tbind at 1 in E1. destruct (thandleFrame react h' th) as [o2 t2]. destruct o2 as [[]| | | |]; try (injection E1 as <- <-; now rewrite E).
    injection E1 as <- <-. unfold tbind at 1, access, tbind at 1 in E. destruct (interleave t2) as [o3 t3] eqn:E3.
    assert (o3 = Ret tt) as -> by (unfold interleave in E3; destruct (t_calls t2); injection E3 as <- <-; reflexivity).
    exists t3. split; [reflexivity|]. cbn [tbind tget tret] in E. unfold tbind, tget, tret in E. destruct (_ && _)%bool; exact E. }
  destruct HS as [[<- H1]|HC].
  - destruct o1 as [h'|e| |u|]; try congruence.
    + destruct HE as (t2 & E2 & HE). apply (insync_interleave react K L Hk Hl lf _ _ _ _ H1) in E2. destruct E2 as [_ H2].
      left. exists h', t2. split; [reflexivity|]. split; [exact H2|]. split; [exact (F3 _ eq_refl)|exact HE].
    + right; left. injection HE as -> ->. split; [exact H1|]. left. eauto.
    + right; left. injection HE as -> ->. split; [exact H1|]. auto.
    + exfalso. destruct HR as (_ & Hio & _). eapply notes_safe; [exact Hio|exact Ei|reflexivity].
  - right; right. destruct HC as (C0 & C1 & C2 & C3 & C4). destruct o1 as [h'|e| |u|]; [exfalso; exact (C1 h' eq_refl)|..];
      injection HE as -> ->; (split; [exact C0|split; [intros a; discriminate|split; [congruence|split; assumption]]]).
Qed.

Lemma loop_frames fuel : forall h t p o t', insync t p -> (script_size (w_in p) < fuel)%nat -> tlisten_loop react fuel h t = (o, t') ->
  o <> OutOfFuel /\ exists n h1 p1, read_frames n h p = (Ret h1, p1) /\ ended K (match o with Throw _ => Ret tt | _ => o end) t' n h1 p1.
Proof.
  induction fuel as [|fuel IH]; intros h t p o t' HR Hf E; [lia|].
  apply (frame_step _ _ _ p) in E; [|exact HR]. destruct E as (o' & p' & Ei & Ho & [(h' & t1 & -> & HR1 & Hs & E)|[[HR' HE]|HC]]).
  - destruct (negb (h_opcode h' =? OPCODE_CLOSE) && s_listening (w_sock (t_world t1)))%bool eqn:Ec.
    + apply (IH _ _ p') in E; [|exact HR1|lia]. destruct E as (H1 & n & h1 & p1 & H2 & H3). split; [exact H1|].
      exists (S n), h1, p1. split.
      * cbn [read_frames]. unfold bind. rewrite Ei. change (h_opcode h' =? 8) with (h_opcode h' =? OPCODE_CLOSE). destruct (h_opcode h' =? OPCODE_CLOSE); [discriminate|exact H2].
      * destruct H3 as [(G1 & G2 & G3)|([->|G1] & G2)]; [left|right|right]; auto. split; [|exact G2]. right.
        cbn in H2. injection H2 as <- _. destruct (N.eqb_spec (h_opcode h') OPCODE_CLOSE); [discriminate|assumption].
    + injection E as <- <-. split; [discriminate|]. exists 1%nat, h', p'. split.
      * cbn [read_frames]. unfold bind. rewrite Ei. change (h_opcode h' =? 8) with (h_opcode h' =? OPCODE_CLOSE). destruct (h_opcode h' =? OPCODE_CLOSE); reflexivity.
      * left. split; [reflexivity|]. split; [discriminate|]. split; [apply insync_same, HR1|].
        destruct (N.eqb_spec (h_opcode h') OPCODE_CLOSE); [auto|right]. exact Ec.
  - split; [destruct HE as [(e & _ & ->)|[_ ->]]; discriminate|]. exists O, h, p. split; [reflexivity|]. right. split; [auto|].
    exists o', p'. split; [exact Ei|]. left. split; [apply insync_same, HR'|]. destruct HE as [(e & -> & ->)|[-> ->]]; eauto.
  - destruct HC as (C0 & C1 & C2 & C3 & C4). split; [exact C2|]. exists O, h, p. split; [reflexivity|]. right. split; [auto|].
    exists o', p'. auto 7.
Qed.

(** Nothing is different if nobody interferes with the ending. *)
Lemma loop_same fuel : forall h t p o t' o' p', ~ K -> ~ L -> lf = true -> insync t p ->
  tlisten_loop react fuel h t = (o, t') -> listen_loop taking_notes fuel h p = (o', p') -> o = o' /\ insync t' p'.
Proof.
  induction fuel as [|fuel IH]; intros h t p o t' o' p' HK HL Hlf HR E E'; [injection E as <- <-; injection E' as <- <-; auto|].
  apply (frame_step _ _ _ p) in E; [|exact HR]. destruct E as (oi & pi & Ei & Ho & E). cbn [listen_loop] in E'. unfold iterateFrame in Ei.
  unfold bind at 1 in E'. unfold bind at 1 in Ei. destruct (readFrameHeader h p) as [o1 p1].
  assert (match oi with
          | Ret h' => listen_loop taking_notes (S fuel) h p = listen_loop taking_notes (S fuel) h p
          | _ => True end) as _ by (destruct oi; auto).
  assert (match oi with
          | Ret h' => (if (negb (h_opcode h' =? OPCODE_CLOSE) && s_listening (w_sock pi))%bool then listen_loop taking_notes fuel h' pi else (Ret tt, pi)) = (o', p')
          | Throw e => (o', p') = (Throw e, pi) | Wait => (o', p') = (Wait, pi) | Ub u => (o', p') = (Ub u, pi) | OutOfFuel => (o', p') = (OutOfFuel, pi) end) as HE.
  { destruct o1 as [h'| | | |]; try (injection Ei as <- <-; now rewrite E').
    unfold bind at 1 in E'. unfold bind at 1 in Ei. destruct (handleFrame taking_notes h' p1) as [o2 p2]. destruct o2 as [[]| | | |]; try (injection Ei as <- <-; now rewrite E').
    injection Ei as <- <-. unfold bind at 1, get in E'. destruct (_ && _)%bool; exact E'. }
  destruct E as [(h' & t1 & -> & HR1 & Hs & E)|[[HR' E]|HC]].
  - assert (s_listening (w_sock pi) = true) as P1 by (destruct HR1 as (_ & _ & _ & _ & _ & G & _); congruence).
    assert (s_listening (w_sock (t_world t1)) = true) as P2 by (destruct HR1 as (_ & _ & _ & _ & _ & _ & _ & _ & _ & [G|[_ G]]); [contradiction|exact G]).
    rewrite P1 in HE. rewrite P2 in E. destruct (_ && _)%bool.
    + eapply IH; eassumption.
    + injection E as <- <-. injection HE as <- <-. auto.
  - destruct E as [(e & -> & ->)|[-> ->]]; injection HE as -> ->; auto.
  - destruct HC as [C0 _]. contradiction.
Qed.
End Loops.

Lemma others_and (P Q : ext -> Prop) xss : others P xss -> others Q xss -> others (fun x => P x /\ Q x) xss.
Proof.
  unfold others. rewrite !Forall_forall. intros H1 H2 xs Hx. pose proof (H1 xs Hx) as G1. pose proof (H2 xs Hx) as G2.
  rewrite Forall_forall in *. auto.
Qed.
Lemma others_impl (P Q : ext -> Prop) xss : (forall x, P x -> Q x) -> others P xss -> others Q xss.
Proof. intros H. apply Forall_impl. intros xs. apply Forall_impl. exact H. Qed.

(** The start of listen(). *)
Lemma start react K L w xss o t' :
  io_only (w_in w) -> others no_config xss -> (K \/ (healthy (w_wr w) /\ others no_null xss)) ->
  (L \/ (healthy (w_wr w) /\ others (fun x => x <> XStop) xss)) ->
  tlisten react (TWorld w xss []) = (o, t') ->
  exists t1 o1, insync K L true t1 (on_its_own w) /\ w_in (t_world t1) = w_in w /\
    tlisten_loop react (S (script_size (w_in w))) header_init t1 = (o1, t') /\ o = match o1 with Throw _ => Ret tt | _ => o1 end.
Proof.
  intros H1 H2 H3 H4 E. unfold tlisten, interleave in E. unfold tbind at 1 in E. cbn [t_calls t_world t_trace app] in E.
  assert (exists k xs r, (match xss with [] => (Ret tt, TWorld w xss []) | xs :: r =>
      (Ret tt, TWorld (set_sock w (fold_left (fun k x => apply_ext x k) xs (w_sock w))) r (map TOther xs)) end : outcome unit * tworld) =
      (Ret tt, TWorld (set_sock w k) r (map TOther xs)) /\ s_last k = s_last (w_sock w) /\ s_buf k = s_buf (w_sock w) /\
      (forall P, others P xss -> others P r)) as (k & xs & r & Ex & K1 & K2 & Hr).
  { destruct xss as [|xs r].
    - exists (w_sock w), [], []. split; [destruct w; reflexivity|]. auto.
    - exists (fold_left (fun k x => apply_ext x k) xs (w_sock w)), xs, r. split; [reflexivity|]. split; [apply apply_exts_last|]. split.
      + apply Forall_cons_iff in H2. apply (apply_exts_inv (fun k => s_buf k = s_buf (w_sock w)) no_config); [|apply H2|reflexivity].
        intros [] y; cbn; tauto.
      + intros P HP. apply Forall_cons_iff in HP. apply HP. }
  match type of E with context [match xss with [] => ?a | _ => _ end] => idtac end. rewrite Ex in E.
  unfold tbind, mark, local, modify_sock, tget in E. cbn [t_calls t_world t_trace w_sock set_sock w_in] in E. unfold ttry in E.
  match type of E with context [tlisten_loop _ _ _ ?t] => set (t1 := t) in E end.
  exists t1. destruct (tlisten_loop react (S (script_size (w_in w))) header_init t1) as [o1 t2] eqn:E1. exists o1.
  split; [|split; [reflexivity|]].
  - unfold insync, t1. cbn [t_world t_calls t_trace on_its_own w_in w_sock set_sock set_listening set_listener s_last s_buf s_listener s_listening w_log w_wr map].
    rewrite calls_app, calls_others. repeat split; try assumption.
    + assert (others (fun x => K \/ no_null x) xss) as G1 by (destruct H3 as [?|[_ H3]]; [eapply others_impl; [|exact H2]; auto|eapply others_impl; [|exact H3]; auto]).
      assert (others (fun x => L \/ x <> XStop) xss) as G2 by (destruct H4 as [?|[_ H4]]; [eapply others_impl; [|exact H2]; auto|eapply others_impl; [|exact H4]; auto]).
      apply Hr. exact (others_and _ _ _ H2 (others_and _ _ _ G1 G2)).
    + tauto.
    + tauto.
  - destruct o1; injection E as <- <-; auto.
Qed.

(** * C69: delivery while other threads interfere *)
(** For every input, failures of the connection, listener code and calls of other threads at any moments (nobody changing the
    configuration): the notifications are those of the socket on its own, up to where listening ended; and it ends between two
    frames, or where the socket on its own gets no further either, or because listener code did not return normally or the
    listener was taken away. *)
Theorem C69_delivery : forall react w xss o t',
  (forall l log, Forall no_config_cmd (react l log)) -> others no_config xss -> io_only (w_in w) ->
  tlisten react (TWorld w xss []) = (o, t') ->
  exists n h p, read_frames n header_init (on_its_own w) = (Ret h, p) /\ ended True o t' n h p.
Proof.
  intros react w xss o t' Hc Hx Hio E.
  apply (start react True True) in E; auto. destruct E as (t1 & o1 & HR & Hin & E & ->).
  apply (loop_frames react True True Hc (or_introl I) (or_introl I) true _ _ _ (on_its_own w)) in E; [|exact HR|cbn; lia]. apply E.
Qed.
Print Assumptions C69_delivery.

(** With listener code that neither throws nor has failing sends, and a listener that is not taken away (it may be replaced), the
    third ending does not exist: whoever calls stopListening whenever, every notification of every frame begun is made. *)
Theorem C69_whole_frames : forall react w xss o t',
  (forall l log, Forall harmless_cmd (react l log)) -> healthy (w_wr w) ->
  others no_config xss -> others no_null xss -> io_only (w_in w) ->
  tlisten react (TWorld w xss []) = (o, t') ->
  exists n h p, read_frames n header_init (on_its_own w) = (Ret h, p) /\ ended False o t' n h p.
Proof.
  intros react w xss o t' Hh Hw Hx Hn Hio E.
  assert (forall l log, Forall no_config_cmd (react l log)) as Hc.
  { intros l log. eapply Forall_impl; [|apply Hh]. intros [] Hy; cbn in *; tauto. }
  apply (start react False True) in E; auto. destruct E as (t1 & o1 & HR & Hin & E & ->).
  apply (loop_frames react False True Hc (or_intror Hh) (or_introl I) true _ _ _ (on_its_own w)) in E; [|exact HR|cbn; lia]. apply E.
Qed.
Print Assumptions C69_whole_frames.

(** If moreover nobody calls stopListening, nothing at all is different: whatever listeners other threads install. *)
Theorem C69_undisturbed : forall react w xss o t',
  (forall l log, Forall harmless_cmd (react l log)) -> never_stops react -> healthy (w_wr w) ->
  others no_config xss -> others no_null xss -> others (fun x => x <> XStop) xss -> io_only (w_in w) ->
  tlisten react (TWorld w xss []) = (o, t') ->
  exists p, listen taking_notes (on_its_own w) = (o, p) /\ same_delivery t' p.
Proof.
  intros react w xss o t' Hh Hs Hw Hx Hn Hnx Hio E.
  assert (forall l log, Forall no_config_cmd (react l log)) as Hc.
  { intros l log. eapply Forall_impl; [|apply Hh]. intros [] Hy; cbn in *; tauto. }
  apply (start react False False) in E; auto. destruct E as (t1 & o1 & HR & Hin & E & ->).
  unfold listen, bind, modify_sock, get, try_. cbn [on_its_own w_sock w_in set_sock].
  match goal with |- context [listen_loop _ _ _ ?q] => change q with (on_its_own w) end.
  destruct (listen_loop taking_notes (S (script_size (w_in w))) header_init (on_its_own w)) as [o2 p2] eqn:E2.
  destruct (loop_same react False False Hc (or_intror Hh) (or_intror (conj Hh Hs)) true _ _ _ _ _ _ _ _ (fun H => H) (fun H => H) eq_refl HR E E2) as [<- HR2].
  exists p2. split; [|exact (insync_same _ _ _ _ _ HR2)]. destruct o1; reflexivity.
Qed.
Print Assumptions C69_undisturbed.
