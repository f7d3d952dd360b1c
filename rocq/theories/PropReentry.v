(** C99: callbacks that call listen() or iterateFrame() on the socket that is calling them. *)
From Verif Require Import Bytes Frame World WebSocket Object SpecAsync SpecSend SpecFrame SpecListen SpecObject
  ProofFrame ProofStream ProofSend ProofHeader ProofListen ProofReading ProofApi ProofInv ProofObject ProofReentry ProofReentry2.
From Coq Require Import Lia PeanoNat ZifyBool ZifyNat ZifyN.
Local Open Scope N_scope.
Local Arguments takeN : simpl never.
Local Arguments dropN : simpl never.
Local Arguments lenN : simpl never.
Local Arguments be_enc : simpl never.
Local Arguments be_dec : simpl never.

(** Whatever the callbacks do, listen() throws nothing, and its calls and those of the callbacks never nest without end: it returns or waits for
    input, unless behaviour becomes undefined (C07, C16, C17 say when). The model's bounds on depth and iterations are no restriction. *)
Theorem C99_total : forall S (obj : object S) s w o s' w', listen_object obj (s, w) = (o, (s', w')) -> o = Ret tt \/ o = Wait \/ exists u, o = Ub u.
Proof.
  intros S obj s w o s' w' E. unfold listen_object, depth_of in E. cbn [snd] in E.
  eapply (listenS_outcome (Datatypes.S (script_size (w_in w)))); [apply finS_call| |exact E]. unfold size. lia.
Qed.
Print Assumptions C99_total.
Theorem C99_iterate_total : forall S (obj : object S) h s w o s' w', iterate_object obj h (s, w) = (o, (s', w')) -> o <> OutOfFuel.
Proof.
  intros S obj h s w o s' w' E. unfold iterate_object, depth_of in E. cbn [snd] in E.
  eapply (finS_iterate (Datatypes.S (script_size (w_in w)))); [apply finS_call| |exact E]. unfold size. lia.
Qed.
Print Assumptions C99_iterate_total.

(** Callbacks that listen only between frames, however deep: at any moment the calls made so far are those of the frames read so far, each
    frame reported once, in order, to whoever reads it; what is left of the stream begins with a frame. *)
Theorem C99_between_frames : forall S (obj : object S) fs s w o s' w' l,
  at_boundaries true obj -> steady (w_in w) -> healthy (w_wr w) -> (0 < s_buf (w_sock w))%Z -> last_ok (w_sock w) -> s_listener (w_sock w) = Some l ->
  bytes_of (w_in w) = wires fs -> readable (open_of (w_sock w)) fs = true ->
  listen_object obj (s, w) = (o, (s', w')) ->
  (o = Ret tt \/ o = Wait) /\
  exists read unread new, fs = read ++ unread /\ w_log w' = w_log w ++ new /\ Forall (fun e => fst e = l) new /\
    transcript new = frames_shown read /\ bytes_of (w_in w') = wires unread /\ (o = Wait -> unread = []).
Proof.
  intros S obj fs s w o s' w' l Ho H1 H2 H3 H4 H5 H6 H7 E. pose proof E as Et. apply C99_total in Et.
  unfold listen_object, depth_of in E. cbn [snd] in E.
  assert (ready_with true l [] fs w) as R by (split; try assumption; now rewrite app_nil_r).
  destruct (all_reads true obj Ho l (Datatypes.S (script_size (w_in w))) fs w R) as [_ H]; [unfold size; lia|].
  destruct (H _ _ _ _ E) as [(f1 & f2 & n1 & A1 & A2 & A3 & A4 & A5 & A6 & A7 & A8 & A9 & A10) _].
  split; [destruct Et as [?|[?|[u ->]]]; auto; now elim (A8 u)|]. exists f1, f2, n1. do 4 (split; [assumption|]).
  split; [rewrite (rd_bytes _ _ _ _ _ A5); apply app_nil_r|]. intros Hw. now apply A7.
Qed.
Print Assumptions C99_between_frames.
(** If nobody stops or throws and no Close arrives, no frame is left out: all are reported and listen() goes on waiting. *)
Theorem C99_all_frames : forall S (obj : object S) fs s w o s' w' l,
  at_boundaries false obj -> clean (w_in w) -> healthy (w_wr w) -> (0 < s_buf (w_sock w))%Z -> last_ok (w_sock w) -> s_listener (w_sock w) = Some l ->
  bytes_of (w_in w) = wires fs -> readable (open_of (w_sock w)) fs = true -> no_close fs ->
  listen_object obj (s, w) = (o, (s', w')) ->
  o = Wait /\ exists new, w_log w' = w_log w ++ new /\ Forall (fun e => fst e = l) new /\ transcript new = frames_shown fs /\ w_in w' = [].
Proof.
  intros S obj fs s w o s' w' l Ho H1 H2 H3 H4 H5 H6 H7 H8 E. unfold listen_object, depth_of in E. cbn [snd] in E.
  assert (ready_with false l [] fs w) as R by (split; try assumption; now rewrite app_nil_r).
  destruct (all_reads false obj Ho l (Datatypes.S (script_size (w_in w))) fs w R) as [_ H]; [unfold size; lia|].
  destruct (H _ _ _ _ E) as [(f1 & f2 & n1 & A1 & A2 & A3 & A4 & A5 & A6 & A7 & A8 & A9 & A10) Hw]. rewrite (Hw eq_refl H8) in *.
  split; [reflexivity|]. destruct (A7 eq_refl) as [-> Hin]. rewrite app_nil_r in A1. subst f1. exists n1. auto.
Qed.
Print Assumptions C99_all_frames.

(** * What goes wrong otherwise *)
(** A ping whose callback makes one call, [act]. *)
Section Ping.
Context {S : Type}.
Variables (obj : object S) (l : nat) (a : act).
Hypothesis Ho : at_boundaries false obj.
Hypothesis Hping : forall p, obj l (EvPing p) = Do a (fun _ => Finish).
Lemma ping_first tail n lp ping fs h s w o s' w' : ready_with false l tail ((lp, ping) :: fs) w -> f_opcode ping = 9 -> s_listening (w_sock w) = true ->
  (size w <= n)%nat -> loopS S (call_object S obj (Datatypes.S n)) (Datatypes.S n) h (s, w) = (o, (s', w')) ->
  exists h' s1 w1, (size w1 < size w)%nat /\ ready_with false l tail fs w1 /\ s_listening (w_sock w1) = true /\ open_of (w_sock w1) = open_of (w_sock w) /\
    (exists n1, w_log w1 = w_log w ++ n1 /\ transcript n1 = frame_shown ping) /\
    exists o2 s2 w2, perform S (call_object S obj n) a (s1, w1) = (o2, (s2, w2)) /\
    (forall x, o2 = Ret x -> s_listening (w_sock w2) = true -> loopS S (call_object S obj (Datatypes.S n)) n h' (s2, w2) = (o, (s', w'))) /\
    (o2 = Wait -> o = Wait /\ w' = w2).
Proof.
  intros R H9 Hli Hn E1. rewrite loop_iterate in E1. unfold bindS at 1 in E1.
  destruct (iterateFrameS S _ h (s, w)) as [oi [si wi]] eqn:Ei. rewrite (iterate_split false obj Ho) in Ei. unfold bindS at 1 in Ei.
  destruct (iterateFrameS S (call_object S (obj0 obj) _) h (s, w)) as [op [sp wp]] eqn:Ep.
  destruct (one_frame false obj Ho l tail n h lp ping _ s w op sp wp R Ep) as (h' & -> & Hh & Hsz & n1 & G1 & G2 & G3 & G4 & G5 & G6).
  destruct (ping_last obj l Ho tail n h lp ping _ s w h' sp wp R H9 Ep) as [Hfin Hlast]. rewrite Hfin in Ei.
  unfold bindS, after in Ei. cbn [fst snd] in Ei. rewrite (rd_listener _ _ _ _ _ G4), Hlast, Hping in Ei. cbn [exec_code] in Ei.
  exists h', sp, wp. split; [exact Hsz|]. split; [exact G4|]. split; [now apply G5|]. split; [rewrite G6; unfold next_open, finfo_of; cbn [i_opcode]; rewrite H9; reflexivity|]. split; [exists n1; auto|].
  destruct (perform S (call_object S obj n) a (sp, wp)) as [o2 [s2 w2]] eqn:E2. exists o2, s2, w2. split; [reflexivity|]. split.
  - intros x -> Hl2. assert (oi = Ret h' /\ si = s2 /\ wi = w2) as (-> & -> & ->) by (destruct x; injection Ei as <- <- <-; auto).
    unfold bindS, lift, get in E1. cbn [fst snd] in E1. rewrite Hh, H9, Hl2 in E1. exact E1.
  - intros ->. injection Ei as <- <- <-. injection E1 as <- <- <-. auto.
Qed.
End Ping.

(** An iterateFrame() made by a callback takes the Close frame from the listen() that made the call: onClose is not the last call, listen() does not
    return, and whatever the peer sends after its Close is reported (compare C12). *)
Theorem C99_close_refuted : forall S (obj : object S) lp ping lc close fs s w o s' w' l,
  at_boundaries false obj -> (forall p, obj l (EvPing p) = Do AIterate (fun _ => Finish)) ->
  clean (w_in w) -> healthy (w_wr w) -> (0 < s_buf (w_sock w))%Z -> last_ok (w_sock w) -> s_listener (w_sock w) = Some l ->
  bytes_of (w_in w) = wires ((lp, ping) :: (lc, close) :: fs) -> readable (open_of (w_sock w)) ((lp, ping) :: (lc, close) :: fs) = true ->
  f_opcode ping = 9 -> f_opcode close = 8 -> no_close fs ->
  listen_object obj (s, w) = (o, (s', w')) ->
  o = Wait /\ exists new, w_log w' = w_log w ++ new /\ transcript new = frame_shown ping ++ frame_shown close ++ frames_shown fs.
Proof.
  intros S obj lp ping lc close fs s w o s' w' l Ho Hping H1 H2 H3 H4 H5 H6 H7 H9 H8 Hc E.
  unfold listen_object, depth_of in E. cbn [snd] in E.
  assert (ready_with false l [] ((lp, ping) :: (lc, close) :: fs) w) as R by (split; try assumption; now rewrite app_nil_r).
  unfold listenS, bindS, lift, modify_sock, get in E. cbn [fst snd] in E. unfold tryS in E.
  set (w1 := set_sock w (set_listening (w_sock w) true)) in *. pose proof (listening_ready false l _ _ R) as R1. fold w1 in R1.
  change (w_in w1) with (w_in w) in E. change (w_log w) with (w_log w1).
  assert (size w1 = script_size (w_in w)) as Hn by reflexivity. set (n := script_size (w_in w)) in *.
  destruct (loopS S _ _ _ _) as [o1 [s1 w2]] eqn:E1.
  enough (o1 = Wait /\ exists new, w_log w2 = w_log w1 ++ new /\ transcript new = frame_shown ping ++ frame_shown close ++ frames_shown fs) as [-> X]
    by (injection E as <- <- <-; auto).
  clear E. destruct (ping_first obj l AIterate Ho Hping [] n lp ping _ _ _ _ _ _ _ R1 H9 eq_refl ltac:(lia) E1)
    as (h' & sp & wp & Hsz & G4 & Hlp & Hop & (n1 & G1 & G3) & oc & sc & wc & Ec & Hret & Hwait).
  cbn [perform] in Ec. destruct n as [|n']; [lia|]. unfold bindS in Ec.
  destruct (iterateFrameS S (call_object S obj _) header_init (sp, wp)) as [oi [si wi]] eqn:Ei.
  destruct (iterate_shows false obj Ho l n' (all_reads false obj Ho l n') lc close fs wp header_init sp oi si wi G4 ltac:(lia) Ei)
    as (f1 & f2 & n2 & A1 & A2 & A3 & A4 & A5 & A6 & A7 & A8 & A9 & A10 & _).
  destruct (A10 eq_refl) as [Hnt Hli]. assert (no_close f2) as Hc2 by (subst fs; apply Forall_app in Hc; apply Hc).
  specialize (Hli Hlp).
  destruct oi as [hc|e| |u|]; try (now elim (Hnt e)); try (now elim (A8 u)); try (now elim A9).
  - injection Ec as <- <- <-. specialize (Hret true eq_refl Hli).
    destruct (loop_shows false obj Ho l (Datatypes.S n') (all_reads false obj Ho l (Datatypes.S n')) (Datatypes.S n') f2 wi h' si o1 s1 w2 A5) with (3 := Hret)
      as [(g1 & g2 & n3 & B1 & B2 & B3 & B4 & B5 & B6 & B7 & _) Hw]; [lia|lia|].
    rewrite (Hw eq_refl Hli Hc2) in *. split; [reflexivity|]. destruct (B7 eq_refl) as [-> _]. rewrite app_nil_r in B1. subst g1.
    exists (n1 ++ n2 ++ n3). rewrite B2, A2, G1, !app_assoc. split; [reflexivity|].
    rewrite <- !app_assoc, !transcript_app2, G3, A4, B4, A1. cbn [frames_shown flat_map snd]. fold (frames_shown f1) (frames_shown (f1 ++ f2)). rewrite frames_shown_app. now rewrite <- !app_assoc.
  - injection Ec as <- <- <-. destruct (Hwait eq_refl) as [-> ->]. split; [reflexivity|]. destruct (A7 eq_refl) as [-> _]. rewrite app_nil_r in A1. subst f1.
    exists (n1 ++ n2). rewrite A2, G1. split; [now rewrite app_assoc|]. rewrite transcript_app2, G3, A4. reflexivity.
Qed.
Print Assumptions C99_close_refuted.

(** A listen() made by a callback swallows the failure of a frame the library does not accept; the outer listen() reads on, and takes the payload of
    that frame for frames (compare C14, where nothing is read after it). *)
Lemma reject_inside S (obj : object S) l n i tail fs s w o s' w' : at_boundaries false obj -> ready_with false l tail [] w -> (size w <= Datatypes.S n)%nat ->
  rd_header tail = Some (i, wires fs) -> accepts (open_of (w_sock w)) i = false -> readable (open_of (w_sock w)) fs = true ->
  listenS S (call_object S obj (Datatypes.S n)) (s, w) = (o, (s', w')) ->
  o = Ret tt /\ ready_with false l [] fs w' /\ (size w' <= size w)%nat /\ s_listening (w_sock w') = true /\ exists n1, w_log w' = w_log w ++ n1 /\ transcript n1 = [].
Proof.
  intros Ho R Hsz Hrd Hacc Hfs E. unfold listenS, bindS, lift, modify_sock, get in E. cbn [fst snd] in E. unfold tryS in E.
  set (w1 := set_sock w (set_listening (w_sock w) true)) in *. change (w_log w) with (w_log w1).
  assert (ready_with false l tail [] w1) as R1 by (destruct R as [R1 R2 R3 R4 R5 R6 R7]; split; assumption).
  change (open_of (w_sock w)) with (open_of (w_sock w1)) in *. change (size w) with (size w1) in *. assert (s_listening (w_sock w1) = true) as Hli by reflexivity. clearbody w1. clear R.
  destruct (loopS S _ _ _ _) as [o1 [s1 w2]] eqn:E1. cbn [loopS] in E1. unfold bindS at 1, lift at 1 in E1. cbn [fst snd] in E1.
  destruct (readFrameHeader header_init w1) as [oh wh] eqn:Eh. pose proof (fin0_header _ _ _ _ Eh) as [Gs _]. apply readFrameHeader_spec in Eh. destruct Eh as [Hr Eh].
  pose proof (ready_steady false obj Ho l _ _ _ R1) as Hst. destruct R1 as [R1 R2 R3 R4 R5 R6 R7]. cbn [wires flat_map app] in R6. rewrite R6 in Eh.
  destruct oh as [h|e| |u|]; try contradiction; [|destruct Eh; congruence]. destruct Eh as (i2 & Hi & Hm & _). rewrite Hrd in Hi.
  assert (i2 = i) as -> by congruence. assert (bytes_of (w_in wh) = wires fs) as Hbh by congruence.
  unfold bindS at 1 in E1. rewrite (handle_split false obj Ho) in E1. unfold bindS at 1 in E1.
  destruct (handleFrameS S (call_object S (obj0 obj) (Datatypes.S n)) h (s, wh)) as [o2 [s2 w3]] eqn:E2.
  assert (every_call false (answers false) (obj0 obj)) as H0.
  { intros l0 ev. unfold obj0. destruct ev; try exact I. exact (Ho l0 (EvMsg opcode data)). }
  destruct (sim_handle false (answers false) (answers_calm false) (obj0 obj) H0 n h _ _ _ _ _ E2) as (_ & frag & F & Hsim).
  specialize (Hsim frag (fun n _ => eq_refl)). set (react := by_count frag) in *.
  destruct (issued_answers false obj Ho react) as [Hp Hn]; [intros l0 log; apply F|].
  pose proof (step_ronly react _ _ Hr (steady_stop_only _ Hst)) as Hst1.
  assert (tame (w_sock w1) (w_sock wh)) as Ht1 by apply Hst1.
  assert (SpecListen.calm react w1) as C by (split; [exact Hst|split; [exact R2|split; [exact Hp|exact R3]]]).
  assert (SpecListen.calm react wh) as C1 by (now apply Hst1).
  assert (last_ok (w_sock wh)) as Hl1 by (eapply last_ok_tame; eassumption).
  assert (stop_only (w_in wh)) as Hs1 by apply Hst1.
  destruct (handleFrame_spec react (polite_tame _ Hp) h i wh o2 w3 Hm Hs1 Hl1 Hsim) as (new & os & Hf & Htr & Hpx & Hsz3 & Hl3 & Hrej & _).
  rewrite (open_tame _ _ Ht1), Hacc in *. destruct (Hrej eq_refl) as (Hb3 & Ho2 & Hs3).
  destruct o2 as [|e| | |]; try contradiction. injection E1 as <- <- <-. injection E as <- <- <-.
  pose proof (step_fstep _ _ _ _ Hst1) as Hf1. pose proof (fstep_trans _ _ _ _ _ _ Hf1 Hf) as (F1 & F2 & F3 & F4 & F5 & F6 & F7 & F8 & F9).
  destruct (F8 C) as (C3 & _ & Hcl). destruct (Hcl R1) as [Hcl3 Hl4]. destruct C3 as (_ & C3 & _).
  split; [reflexivity|]. split; [|split; [unfold size in *; lia|split]].
  - split; try assumption.
    + rewrite F5. exact R3.
    + rewrite F6. exact R5.
    + rewrite Hb3, Hbh. now rewrite app_nil_r.
    + rewrite Hs3. rewrite (open_tame _ _ Ht1). exact Hfs.
  - rewrite Hl4, Hli, (never_stops_stops react _ _ (Hn eq_refl)). reflexivity.
  - exists ([] ++ new). split; [exact F1|]. cbn [app]. rewrite Htr. destruct Hpx as [r Hr2]. destruct os; [|discriminate]. now rewrite seen_nil.
Qed.
Theorem C99_error_refuted : forall S (obj : object S) lp ping lb fin r1 r2 r3 op k len fs s w o s' w' l,
  at_boundaries false obj -> (forall p, obj l (EvPing p) = Do AListen (fun _ => Finish)) ->
  clean (w_in w) -> healthy (w_wr w) -> (0 < s_buf (w_sock w))%Z -> last_ok (w_sock w) -> s_listener (w_sock w) = Some l ->
  bytes_of (w_in w) = wire lp ping ++ rfc_header lb fin r1 r2 r3 op k len ++ wires fs ->
  f_opcode ping = 9 -> lenN (f_payload ping) <= 125 -> lform_ok lp (lenN (f_payload ping)) = true ->
  op < 16 -> lform_ok lb len = true -> accepts (open_of (w_sock w)) (FInfo fin (rsv_of r1 r2 r3) op k len) = false ->
  readable (open_of (w_sock w)) fs = true -> no_close fs ->
  listen_object obj (s, w) = (o, (s', w')) ->
  o = Wait /\ exists new, w_log w' = w_log w ++ new /\ transcript new = frame_shown ping ++ frames_shown fs.
Proof.
  intros S obj lp ping lb fin r1 r2 r3 op k len fs s w o s' w' l Ho Hping H1 H2 H3 H4 H5 H6 H9 H10 H11 H12 H13 H14 H15 Hc E.
  set (tail := rfc_header lb fin r1 r2 r3 op k len ++ wires fs) in *.
  assert (rd_header tail = Some (FInfo fin (rsv_of r1 r2 r3) op k len, wires fs)) as Hrd by (apply rd_header_rfc; [exact H12|now apply lform_ok_fits]).
  unfold listen_object, depth_of in E. cbn [snd] in E.
  assert (accepts (open_of (w_sock w)) (finfo_of ping) = true) as Ha.
  { unfold accepts, finfo_of. cbn [i_opcode i_len]. rewrite H9. unfold eff_len. destruct (_ <? _); lia. }
  assert (ready_with false l tail [(lp, ping)] w) as R.
  { split; try assumption; [cbn [wires flat_map fst snd]; rewrite app_nil_r; exact H6|]. cbn [readable]. rewrite H9, H11, Ha. reflexivity. }
  unfold listenS, bindS, lift, modify_sock, get in E. cbn [fst snd] in E. unfold tryS in E.
  set (w1 := set_sock w (set_listening (w_sock w) true)) in *.
  assert (ready_with false l tail [(lp, ping)] w1) as R1 by (destruct R as [Q1 Q2 Q3 Q4 Q5 Q6 Q7]; split; assumption).
  change (w_in w1) with (w_in w) in E. change (w_log w) with (w_log w1).
  assert (size w1 = script_size (w_in w)) as Hn by reflexivity. set (n := script_size (w_in w)) in *.
  destruct (loopS S _ _ _ _) as [o1 [s1 w2]] eqn:E1.
  enough (o1 = Wait /\ exists new, w_log w2 = w_log w1 ++ new /\ transcript new = frame_shown ping ++ frames_shown fs) as [-> X]
    by (injection E as <- <- <-; auto).
  clear E. destruct (ping_first obj l AListen Ho Hping tail n lp ping _ _ _ _ _ _ _ R1 H9 eq_refl ltac:(lia) E1)
    as (h' & sp & wp & Hsz & G4 & Hlp & Hop & (n1 & G1 & G3) & oc & sc & wc & Ec & Hret & _).
  cbn [perform] in Ec. destruct n as [|n']; [lia|]. unfold bindS in Ec.
  destruct (listenS S (call_object S obj _) (sp, wp)) as [oi [si wi]] eqn:Ei.
  change (open_of (w_sock w1)) with (open_of (w_sock w)) in Hop. rewrite <- Hop in H14, H15.
  destruct (reject_inside S obj l n' _ tail fs sp wp oi si wi Ho G4 ltac:(lia) Hrd H14 H15 Ei) as (-> & A5 & A6 & Hli & n2 & A2 & A4).
  injection Ec as <- <- <-. specialize (Hret true eq_refl Hli).
  destruct (loop_shows false obj Ho l (Datatypes.S n') (all_reads false obj Ho l (Datatypes.S n')) (Datatypes.S n') fs wi h' si o1 s1 w2 A5) with (3 := Hret)
    as [(g1 & g2 & n3 & B1 & B2 & B3 & B4 & B5 & B6 & B7 & _) Hw]; [lia|lia|].
  rewrite (Hw eq_refl Hli Hc) in *. split; [reflexivity|]. destruct (B7 eq_refl) as [-> _]. rewrite app_nil_r in B1. subst g1.
  exists (n1 ++ n2 ++ n3). rewrite B2, A2, G1, !app_assoc. split; [reflexivity|].
  rewrite <- !app_assoc, !transcript_app2, G3, A4, B4. reflexivity.
Qed.
Print Assumptions C99_error_refuted.

(** A callback that calls iterateFrame() while it is given the data of a frame (compare C08): the rest of that frame's payload is taken for
    frames. A peer, or whoever chose the contents of the message, makes the library report a ping, a pong or a Close nobody sent. *)
Definition single (w : world) : Prop := exists d, w_in w = unread d [].
Lemma bytes_unread d : bytes_of (unread d []) = d.
Proof. destruct d; [reflexivity|]. cbn. now rewrite app_nil_r. Qed.
Lemma exact_raw_single n d k r s' k' : readExact_raw n (unread d []) k = (r, s', k') -> r = XPending \/ (k' = k /\ exists d', s' = unread d' []).
Proof.
  destruct d as [|b bs]; cbn [unread readExact_raw].
  - destruct (n =? 0); intros [= <- <- <-]; [right|left; reflexivity]. split; [reflexivity|]. now exists [].
  - destruct (n =? 0); [intros [= <- <- <-]; right; split; [reflexivity|]; now exists (b :: bs)|]. destruct (n <=? lenN (b :: bs)) eqn:El.
    + intros [= <- <- <-]. right. split; [reflexivity|]. eauto.
    + cbn [readExact_raw]. destruct (n - lenN (b :: bs) =? 0) eqn:E0; [lia|]. intros [= <- <- <-]. now left.
Qed.
Definition stays {A} (m : M A) : Prop := forall w a w', single w -> m w = (Ret a, w') -> single w' /\ w_sock w' = w_sock w.
Lemma stays_exact n : stays (readExactSizeDataSimple n).
Proof.
  intros w a w' [d Hd] E. unfold readExactSizeDataSimple in E. rewrite Hd in E. destruct (readExact_raw n (unread d []) (w_sock w)) as [[r s1] k1] eqn:E1.
  apply exact_raw_single in E1. destruct E1 as [->|[-> [d' ->]]]; [discriminate|]. destruct r; try discriminate; injection E as _ <-; (split; [exists d'; reflexivity|reflexivity]).
Qed.
Lemma stays_bind {A B} (m : M A) (f : A -> M B) : stays m -> (forall a, stays (f a)) -> stays (bind m f).
Proof.
  intros Hm Hf w b w' Hs E. unfold bind in E. destruct (m w) as [[a| | | |] w1] eqn:E1; try discriminate. destruct (Hm _ _ _ Hs E1) as [H1 H2].
  destruct (Hf a _ _ _ H1 E) as [H3 H4]. split; [exact H3|congruence].
Qed.
Lemma stays_ret {A} (a : A) : stays (ret a).
Proof. intros w b w' Hs [= _ <-]. auto. Qed.
Lemma stays_throw {A} e : stays (@throw A e).
Proof. intros w b w' Hs [=]. Qed.
Lemma stays_header h : stays (readFrameHeader h).
Proof.
  unfold readFrameHeader. apply stays_bind; [apply stays_exact|]. intros bb. destruct (negb _); [apply stays_throw|].
  destruct (unpackHeaderBits _ _) as [h1 n]. apply stays_bind.
  - destruct (n <? 126); [apply stays_ret|]. destruct (n =? 126).
    + apply stays_bind; [apply stays_exact|]. intros l2. destruct (negb _); [apply stays_throw|apply stays_ret].
    + destruct (n =? 127); [|apply stays_ret]. apply stays_bind; [apply stays_exact|]. intros l3. destruct (negb _); [apply stays_throw|apply stays_ret].
  - intros h2. destruct (h_hasMask h2); [|apply stays_ret]. apply stays_bind; [apply stays_exact|]. intros mk. destruct (negb _); [apply stays_throw|apply stays_ret].
Qed.

Lemma finish_ok : at_boundaries false (fun _ _ => Finish : code unit).
Proof. intros l ev. destruct ev; exact I. Qed.
Lemma handle_control (c1 c2 : event -> MS unit unit) h x : 8 <= h_opcode h -> (forall ev y, (forall op dd, ev <> EvMsg op dd) -> c1 ev y = c2 ev y) ->
  handleFrameS unit c1 h x = handleFrameS unit c2 h x.
Proof.
  intros Hop Hc.
  assert (forall fuel sh alloc p y, payloadS unit c1 fuel h (Some sh) alloc p y = payloadS unit c2 fuel h (Some sh) alloc p y) as Hp.
  { induction fuel as [|fuel IH]; intros sh alloc p y; cbn [payloadS]; [reflexivity|]. destruct (p <? h_len h)%Z; [|reflexivity].
    apply extS; [reflexivity|]. intros w0 z. cbv zeta. apply extS; [reflexivity|]. intros [dd|[]] v; try reflexivity; [|apply IH]. destruct (_ <? _)%Z; [reflexivity|apply IH]. }
  assert (forall f y, (forall p op dd, f p <> EvMsg op dd) ->
    bindS (readPayloadS unit c1 h (Some [])) (fun p => c1 (f p)) y = bindS (readPayloadS unit c2 h (Some [])) (fun p => c2 (f p)) y) as H2.
  { intros f y Hf. apply extS; [|intros p z; apply Hc; apply Hf]. unfold readPayloadS. destruct (_ && _)%bool; [reflexivity|]. apply extS; [reflexivity|].
    intros w0 z. cbv zeta. destruct (_ <? 0)%Z; [reflexivity|]. apply extS; [apply Hp|reflexivity]. }
  unfold handleFrameS.
  destruct (h_opcode h) as [|[[[[p|p|]|[p|p|]|]|[[p|p|]|[p|p|]|]|]|[[[p|p|]|[p|p|]|]|[[p|p|]|[p|p|]|]|]|]] eqn:Eo; try lia; try reflexivity;
    try (apply (H2 (fun p => EvPing (str p))); discriminate); try (apply (H2 (fun p => EvPong (str p))); discriminate);
    try (apply (H2 (fun p => EvClose (close_code (str p)) (close_reason (str p)))); discriminate).
Qed.

Lemma iterate_control (c1 c2 : event -> MS unit unit) h s w : (forall h' w', readFrameHeader h w = (Ret h', w') -> 8 <= h_opcode h') ->
  (forall ev y, (forall op dd, ev <> EvMsg op dd) -> c1 ev y = c2 ev y) -> iterateFrameS unit c1 h (s, w) = iterateFrameS unit c2 h (s, w).
Proof.
  intros Hh Hc. unfold iterateFrameS. unfold bindS at 1 3, lift at 1 3. cbn [fst snd]. destruct (readFrameHeader h w) as [[h1| | | |] w1] eqn:E; try reflexivity.
  apply extS; [|reflexivity]. apply handle_control; [eauto|exact Hc].
Qed.
Lemma payload_drained (c : event -> MS unit unit) h short alloc p fuel : forall s w o s' w', clean (w_in w) -> bytes_of (w_in w) = [] -> (0 < s_buf (w_sock w))%Z -> (p < h_len h)%Z ->
  (script_size (w_in w) < fuel)%nat -> payloadS unit c fuel h short alloc p (s, w) = (o, (s', w')) -> o = Wait /\ w_log w' = w_log w.
Proof.
  induction fuel as [|fuel IH]; intros s w o s' w' Hcl Hb Hbuf Hp Hf E; [lia|]. cbn [payloadS] in E. destruct (p <? h_len h)%Z eqn:E0; [|lia].
  unfold bindS at 1, lift at 1, get in E. cbn [fst snd] in E. cbv zeta in E. set (dz := if (_ <? s_buf _)%Z then _ else _) in E. assert (0 < dz)%Z as Hd by (unfold dz; clear -Hp Hbuf; destruct (_ <? _)%Z; lia). clearbody dz.
  unfold bindS at 1, lift at 1 in E. cbn [fst snd] in E. unfold readSimple in E. destruct (dz <? 0)%Z eqn:E2; [lia|]. destruct (dz =? 0)%Z eqn:E3; [lia|].
  destruct (w_in w) as [|e r] eqn:Ei.
  - cbn [read_raw] in E. injection E as <- <- <-. auto.
  - inversion Hcl as [|? ? He Hr]; subst. destruct e as [b bs|[]|x]; cbn in He; try contradiction; [discriminate|]. cbn [read_raw] in E.
    eapply IH in E; [exact E|exact Hr|exact Hb|exact Hbuf|exact Hp|]. cbn [script_size] in Hf. cbn. lia.
Qed.
Theorem C99_data_refuted : forall lf fin r1 r2 r3 q lg g w o s' w' l,
  let text := RFrame fin r1 r2 r3 1 None (q ++ wire lg g) in
  w_in w = unread (wire lf text) [] -> healthy (w_wr w) -> s_buf (w_sock w) = Z.of_N (lenN q) -> q <> [] -> s_last (w_sock w) = (-1)%Z -> s_listener (w_sock w) = Some l ->
  lform_ok lf (lenN (f_payload text)) = true -> lenN (f_payload text) < 2 ^ 63 ->
  (f_opcode g = 8 \/ f_opcode g = 9 \/ f_opcode g = 10) -> lenN (f_payload g) <= 125 -> lform_ok lg (lenN (f_payload g)) = true ->
  listen_object impatient (tt, w) = (o, (s', w')) ->
  o = Wait /\ exists new, w_log w' = w_log w ++ (l, EvMsg 1 q) :: new /\ transcript new = frame_shown g.
Proof.
  intros lf fin r1 r2 r3 q lg g w o s' w' l text Hin Hwr Hbuf Hq Hlast Hl Hlf H63 Hg Hg125 Hlg E.
  unfold listen_object, depth_of in E. cbn [snd] in E. unfold listenS, bindS, lift, modify_sock, get in E. cbn [fst snd] in E. unfold tryS in E.
  set (w1 := set_sock w (set_listening (w_sock w) true)) in *. change (w_in w1) with (w_in w) in E. change (w_log w) with (w_log w1).
  set (n := script_size (w_in w)) in *.
  destruct (loopS unit _ _ _ _) as [o1 [s1 w2]] eqn:E1.
  enough (o1 = Wait /\ exists new, w_log w2 = w_log w1 ++ (l, EvMsg 1 q) :: new /\ transcript new = frame_shown g) as [-> X] by (injection E as <- <- <-; auto). clear E.
  assert (single w1) as Hs1 by (exists (wire lf text); exact Hin). assert (bytes_of (w_in w1) = wire lf text ++ []) as Hb1
    by (change (w_in w1) with (w_in w); rewrite Hin, bytes_unread; now rewrite app_nil_r).
  cbn [loopS] in E1. unfold bindS at 1, lift at 1 in E1. cbn [fst snd] in E1. destruct (readFrameHeader header_init w1) as [oh wh] eqn:Eh.
  assert (steady (w_in w1)) as Hst1 by (change (w_in w1) with (w_in w); rewrite Hin; destruct (wire lf text); repeat constructor).
  pose proof (readFrameHeader_spec _ _ _ _ Eh) as [Hr Hh]. rewrite Hb1, rd_header_wire in Hh by (exact Hlf || reflexivity).
  destruct oh as [h|e| |u|]; try contradiction; [|destruct Hh; discriminate]. destruct Hh as (i & Hi & Hm & Hszh).
  assert (i = finfo_of text) as -> by congruence. assert (bytes_of (w_in wh) = q ++ wire lg g) as Hbh by (assert (masked_opt None (q ++ wire lg g) ++ [] = bytes_of (w_in wh)) as <- by (unfold text in Hi; cbn [f_key f_payload] in Hi; congruence); apply app_nil_r). clear Hi.
  destruct (stays_header _ _ _ _ Hs1 Eh) as [[d Hd] Hsk]. rewrite Hd, bytes_unread in Hbh. subst d.
  destruct Hr as (Hwrh & _ & _ & _ & Hlogh & _). 
  pose proof Hm as (M1 & _ & M3 & M4 & M5 & M6 & _).
  assert (h_opcode h = 1) as Hop by exact M3. assert (h_hasMask h = false) as Hnm by (destruct (h_hasMask h); [discriminate|reflexivity]).
  assert (h_len h = Z.of_N (lenN q + lenN (wire lg g))) as Hlen.
  { rewrite M5. unfold finfo_of, text, to_i64. cbn [i_len f_payload]. unfold text in H63. cbn [f_payload] in H63. rewrite lenN_app in *. destruct (_ <? _) eqn:?; lia. }
  assert (0 < lenN q) as Hq0 by (destruct q; [congruence|rewrite lenN_cons; lia]).
  assert (0 < lenN (wire lg g)) as Hwg.
  { pose proof (rd_header_wire lg g [] ltac:(destruct Hg as [->|[-> | ->]]; reflexivity) Hlg) as X. destruct (wire lg g); [discriminate X|rewrite lenN_cons; lia]. }
  unfold bindS at 1 in E1. destruct (handleFrameS unit _ h (tt, wh)) as [o2 [s2 w3]] eqn:E2.
  enough (o2 = Wait /\ exists new, w_log w3 = w_log w1 ++ (l, EvMsg 1 q) :: new /\ transcript new = frame_shown g) as [-> X] by (injection E1 as <- <- <-; auto). clear E1.
  unfold handleFrameS in E2. rewrite Hop in E2. unfold bindS at 1, lift at 1 in E2. cbn [fst snd] in E2.
  set (wk := set_sock wh (set_last (w_sock wh) (if h_fin h then (-1)%Z else Z.of_N (h_opcode h)))) in *.
  assert (checkForContinuation h wh = (Ret true, wk)) as Hck.
  { unfold checkForContinuation, bind, get, modify_sock, ret. rewrite Hsk. change (s_last (w_sock w1)) with (s_last (w_sock w)). rewrite Hlast. cbn [Z.eqb orb]. unfold wk. now rewrite Hsk. }
  rewrite Hck in E2. unfold bindS at 1 in E2. destruct (readPayloadS unit _ h None (tt, wk)) as [o3 [s3 w4]] eqn:E3.
  enough (o3 = Wait /\ exists new, w_log w4 = w_log w1 ++ (l, EvMsg 1 q) :: new /\ transcript new = frame_shown g) as [-> X] by (injection E2 as <- <- <-; auto). clear E2.
  unfold readPayloadS in E3. cbn [andb] in E3. unfold bindS at 1, lift at 1, get in E3. cbn [fst snd] in E3. cbv zeta in E3.
  assert (s_buf (w_sock wk) = Z.of_N (lenN q)) as Hbk by (unfold wk; cbn; rewrite Hsk; exact Hbuf). rewrite Hbk in E3. destruct (Z.of_N (lenN q) <? 0)%Z eqn:Ez; [lia|].
  unfold bindS at 1 in E3. destruct (payloadS unit _ _ h None _ 0 (tt, wk)) as [o4 [s4 w5]] eqn:E4.
  enough (o4 = Wait /\ exists new, w_log w5 = w_log w1 ++ (l, EvMsg 1 q) :: new /\ transcript new = frame_shown g) as [-> X] by (injection E3 as <- <- <-; auto). clear E3.
  change (w_in wk) with (w_in wh) in E4. cbn [payloadS] in E4. destruct (0 <? h_len h)%Z eqn:Ez2; [|lia].
  unfold bindS at 1, lift at 1, get in E4. cbn [fst snd] in E4. cbv zeta in E4. rewrite Hbk in E4.
  replace (h_len h - 0 <? Z.of_N (lenN q))%Z with false in E4 by lia. 
  unfold bindS at 1, lift at 1 in E4. cbn [fst snd] in E4.
  set (wr := set_in wk (unread (wire lg g) [])) in *.
  assert (readSimple (Z.of_N (lenN q)) wk = (Ret (inl q), wr)) as Hrs.
  { unfold readSimple. rewrite Ez. destruct (Z.of_N (lenN q) =? 0)%Z eqn:?; [lia|]. change (w_in wk) with (w_in wh). rewrite Hd, N2Z.id. 
    destruct (q ++ wire lg g) as [|b bs] eqn:Eq; [apply app_eq_nil in Eq; destruct Eq; contradiction|]. cbn [unread read_raw]. rewrite <- Eq, takeN_app_exact, dropN_app_exact by reflexivity. destruct wk; reflexivity. }
  rewrite Hrs in E4. replace (Z.of_N (lenN q) <? Z.of_N (lenN q))%Z with false in E4 by lia. rewrite Hnm in E4. unfold bindS at 1 in E4.
  rewrite Hop in E4. cbn [call_object] in E4.
  assert (s_listener (w_sock wr) = Some l) as Hlr by (unfold wr, wk; cbn; rewrite Hsk; exact Hl). cbn [snd] in E4. rewrite Hlr in E4. cbn [fst exec_code impatient perform] in E4.
  set (wc := set_log wr (w_log wr ++ [(l, EvMsg 1 q)])) in *. unfold bindS at 1 in E4. 
  destruct (iterateFrameS unit _ header_init (tt, wc)) as [oi [si wi]] eqn:Ei.
  assert (bytes_of (w_in wc) = wires [(lg, g)]) as Hbc by (change (w_in wc) with (unread (wire lg g) []); rewrite bytes_unread; cbn [wires flat_map fst snd]; now rewrite app_nil_r).
  assert (exists n', n = S n') as [n' Hn'].
  { exists (Nat.pred n). change (script_size (w_in w1)) with n in Hszh. lia. }
  assert (accepts (open_of (w_sock wc)) (finfo_of g) = true) as Hacc.
  { unfold accepts, finfo_of. cbn [i_opcode i_len]. destruct Hg as [->|[-> | ->]]; unfold eff_len; destruct (_ <? _); lia. }
  assert (ready_with false l [] [(lg, g)] wc) as R.
  { split.
    - change (w_in wc) with (unread (wire lg g) []). destruct (wire lg g); repeat constructor.
    - change (w_wr wc) with (w_wr wh). rewrite Hwrh. exact Hwr.
    - change (s_buf (w_sock wc)) with (s_buf (w_sock wk)). lia.
    - unfold last_ok. change (s_last (w_sock wc)) with (if h_fin h then (-1)%Z else Z.of_N (h_opcode h)). rewrite Hop. destruct (h_fin h); auto.
    - exact Hlr.
    - rewrite app_nil_r. exact Hbc.
    - cbn [readable]. rewrite Hacc, Hlg. destruct Hg as [->|[-> | ->]]; reflexivity. }
  rewrite Hn' in Ei. rewrite (iterate_control _ (call_object unit (obj0 (fun _ _ => Finish)) (S n'))) in Ei.
  2:{ intros h0 w0 E0. apply readFrameHeader_spec in E0. destruct E0 as [_ (i & Hi & Hm2 & _)]. rewrite Hbc in Hi. cbn [wires flat_map fst snd] in Hi. 
      rewrite rd_header_wire in Hi by (exact Hlg || (destruct Hg as [->|[-> | ->]]; reflexivity)). assert (i = finfo_of g) as -> by congruence. destruct Hm2 as (_ & _ & -> & _). unfold finfo_of. cbn [i_opcode]. lia. }
  2:{ intros ev y Hev. cbn [call_object]. destruct (s_listener (w_sock (snd y))); [|reflexivity]. unfold impatient, obj0. destruct ev; try reflexivity. now elim (Hev opcode data). }
  destruct (one_frame false _ finish_ok l [] n' header_init lg g [] _ _ _ _ _ R Ei) as (h' & -> & _ & Hszi & new & G1 & _ & G3 & G4 & _).
  unfold lift at 1, ret at 1 in E4. cbn [fst snd exec_code] in E4. cbv beta iota in E4.
  assert (clean (w_in wi)) as Hcli by exact (rd_in _ _ _ _ _ G4). 
  apply payload_drained in E4; [|exact Hcli|exact (rd_bytes _ _ _ _ _ G4)|exact (rd_buf _ _ _ _ _ G4)|lia|].
  - destruct E4 as [-> Hlog5]. split; [reflexivity|]. exists new. rewrite Hlog5, G1. change (w_log wc) with (w_log wh ++ [(l, EvMsg 1 q)]). rewrite Hlogh, <- app_assoc. auto.
  - unfold size in Hszi. change (w_in wc) with (unread (wire lg g) []) in Hszi. rewrite Hd. enough (script_size (unread (wire lg g) []) <= script_size (unread (q ++ wire lg g) []))%nat by lia.
    clear. destruct (wire lg g) as [|b bs]; [cbn; lia|]. destruct q as [|b2 bs2]; cbn; [lia|]. rewrite app_length. cbn. lia.
Qed.
Print Assumptions C99_data_refuted.

(** Not vacuous: a ping whose callback listens, then "hi" in a text frame, a Close, and a pong after the Close. *)
Example C99_nonvacuous :
  let ping := RFrame true false false false 9 None [x41] in let text := RFrame true false false false 1 None [x48; x49] in
  let close := RFrame true false false false 8 None [] in let pong := RFrame true false false false 10 None [] in
  let fs := [(L7, ping); (L7, text); (L7, close); (L7, pong)] in
  let nested a : object nat := fun _ ev => match ev with EvPing _ => Load (fun n => Store (S n) (Do a (fun _ => Finish))) | _ => Finish end in
  let w := World [RData x00 []] [] [] (fun _ => x00) 0 [] (Sock false 4 (Some 0%nat) (-1) false) in
  let w := set_in w (unread (wires fs) []) in
  readable false fs = true /\ at_boundaries false (nested AListen) /\ at_boundaries false (nested AIterate) /\
  (let (o, x) := listen_object (nested AListen) (0%nat, w) in o = Wait /\ fst x = 1%nat /\ map snd (w_log (snd x)) = [EvPing [x41]; EvMsg 1 [x48; x49]; EvEnd 1; EvClose 0 []; EvPong []]) /\
  (let (o, x) := listen_object (nested AIterate) (0%nat, w) in o = Ret tt /\ map snd (w_log (snd x)) = [EvPing [x41]; EvMsg 1 [x48; x49]; EvEnd 1; EvClose 0 []]) /\
  (let (o, x) := listen_object (nested AIterate) (0%nat, set_in w (unread (wires [(L7, ping); (L7, close); (L7, pong)]) [])) in
   o = Wait /\ map snd (w_log (snd x)) = [EvPing [x41]; EvClose 0 []; EvPong []]) /\
  (let w2 := set_in w (unread (wire L7 (RFrame true false false false 1 None ([x48; x49; x48; x49] ++ wire L7 close))) []) in
   let (o, x) := listen_object impatient (tt, w2) in o = Wait /\ map snd (w_log (snd x)) = [EvMsg 1 [x48; x49; x48; x49]; EvClose 0 []]).
Proof.
  cbv zeta. split; [reflexivity|]. split; [intros l ev; destruct ev; cbn; auto|]. split; [intros l ev; destruct ev; cbn; auto|]. vm_compute. repeat split; reflexivity.
Qed.
