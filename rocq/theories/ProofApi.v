(** listen() and iterateFrame() as a whole, against the reading of the stream. *)
From Verif Require Import Bytes Frame World WebSocket SpecFrame SpecSend SpecListen
  ProofFrame ProofStream ProofSend ProofHeader ProofListen ProofReading.
From Coq Require Import ZifyBool ZifyNat ZifyN.
Local Open Scope N_scope.
Local Open Scope m_scope.
Local Arguments takeN : simpl never.
Local Arguments dropN : simpl never.
Local Arguments lenN : simpl never.
Local Arguments be_enc : simpl never.
Local Arguments be_dec : simpl never.

(** Stream state of a world. *)
Notation bs_of w := (bytes_of (w_in w)).
Notation opn_of w := (open_of (w_sock w)).

(** The listen() call starts the loop with m_listening = true. *)
Definition entered (w : world) : world := set_sock w (set_listening (w_sock w) true).

Lemma calm_entered react w : calm react w <-> calm react (entered w).
Proof. unfold calm, entered. cbn. tauto. Qed.

Lemma listen_unfold react w o w' :
  stop_only (w_in w) -> last_ok (w_sock w) -> tame_react react ->
  listen react w = (o, w') ->
  exists o1, listen_loop react (S (script_size (w_in w))) header_init (entered w) = (o1, w') /\
    listen_result react (entered w) o1 w' /\
    o = match o1 with Throw _ => Ret tt | _ => o1 end.
Proof.
  intros Hs Hl Ht E. unfold listen, bind, modify_sock, get, try_ in E.
  change (set_sock w (set_listening (w_sock w) true)) with (entered w) in E.
  cbn [w_in entered set_sock] in E.
  destruct (listen_loop react (S (script_size (w_in w))) header_init (entered w)) as [o1 w1] eqn:E1.
  exists o1. assert (w1 = w' /\ o = match o1 with Throw _ => Ret tt | _ => o1 end) as [-> ->].
  { destruct o1 as [[]| | | |]; injection E as <- <-; auto. }
  split; [reflexivity|]. split; [|reflexivity].
  eapply listen_loop_spec; [exact Ht| |exact Hs|exact Hl|exact E1]. cbn. lia.
Qed.

(** Safety, whatever happens. *)
Lemma listen_safe react w o w' :
  stop_only (w_in w) -> last_ok (w_sock w) -> tame_react react ->
  listen react w = (o, w') ->
  (o = Ret tt \/ o = Wait \/ o = Ub UbSigned /\ ~ calm react w) /\
  exists new, w_log w' = w_log w ++ new /\ Forall (fun e => s_listener (w_sock w) = Some (fst e)) new /\
    prefix (transcript new) (stream_reading (opn_of w) (bs_of w)) /\
    last_ok (w_sock w') /\ stop_only (w_in w').
Proof.
  intros Hs Hl Ht E. destruct (listen_unfold _ _ _ _ Hs Hl Ht E) as (o1 & _ & H & ->).
  destruct H as (new & os & k & Hf & Htr & Hp & Hl' & Hm & _).
  split.
  { destruct o1 as [[]|e| |u|]; auto; [|contradiction]. destruct Hm as [-> Hm]. right; right. split; [reflexivity|].
    intros C. apply Hm. now apply calm_entered. }
  exists new. destruct Hf as (H1 & H2 & H3 & _). split; [exact H1|]. split; [exact H2|].
  split; [|split; assumption].
  rewrite Htr. unfold seen. cbn [w_sock entered set_sock s_listener set_listening].
  destruct (s_listener (w_sock w)) as [l|]; [|apply prefix_nil].
  eapply prefix_trans; [exact Hp|]. apply reading_prefix_stream.
Qed.


Lemma never_stops_stops react log new : never_stops react -> stops react log new = false.
Proof.
  intros H. revert log; induction new as [|e r IH]; intros log; cbn; [reflexivity|]. now rewrite H, IH.
Qed.

(** Exact behaviour when all goes well and nobody stops. *)
Lemma listen_exact react w o w' :
  clean (w_in w) -> healthy (w_wr w) -> polite_react react -> never_stops react -> (0 < s_buf (w_sock w))%Z ->
  last_ok (w_sock w) -> listen react w = (o, w') ->
  exists new, w_log w' = w_log w ++ new /\ Forall (fun e => s_listener (w_sock w) = Some (fst e)) new /\
    transcript new = seen (w_sock w) (stream_reading (opn_of w) (bs_of w)) /\
    match stream_ending (opn_of w) (bs_of w) with
    | Blocked => o = Wait /\ w_in w' = []
    | Closed rest | Rejected rest => o = Ret tt /\ bs_of w' = rest
    | Stopped _ => False
    end /\ last_ok (w_sock w') /\ clean (w_in w') /\ healthy (w_wr w').
Proof.
  intros Hc Hh Hp Hns Hb Hl E.
  destruct (listen_unfold react w o w') as (o1 & _ & H & ->);
    [now apply clean_stop_only|exact Hl|now apply polite_tame|exact E|].
  assert (calm react (entered w)) as C.
  { apply calm_entered. split; [now apply clean_steady|]. auto. }
  destruct H as (new & os & k & Hf & Htr & Hpx & Hl' & Hm & _).
  destruct Hf as (H1 & H2 & H3 & _ & _ & _ & _ & H8 & _).
  destruct (H8 C) as (C' & _ & H9). destruct (H9 Hc) as [Hc' Hlis].
  rewrite never_stops_stops in Hlis by exact Hns. cbn in Hlis.
  cbn [entered set_sock w_sock w_in] in *.
  change (open_of (set_listening (w_sock w) true)) with (open_of (w_sock w)) in *.
  set (R := reading k (open_of (w_sock w)) (bytes_of (w_in w))) in *.
  assert (is_stopped (snd R) = false -> os = fst R ->
      exists new : list (nat * event), w_log w' = w_log w ++ new /\
      Forall (fun e => s_listener (w_sock w) = Some (fst e)) new /\
    transcript new = seen (w_sock w) (stream_reading (opn_of w) (bs_of w)) /\
    stream_ending (opn_of w) (bs_of w) = snd R) as Hfin.
  { intros Hst ->. subst R. destruct (reading_whole _ _ _ Hst) as [Hr1 Hr2].
    exists new. split; [exact H1|]. split; [exact H2|]. rewrite Htr, Hr1, Hr2. auto. }
  destruct o1 as [[]|e| |u|].
  - destruct Hm as [Hos [Hm|[Hm Hlf]]]; [|congruence].
    destruct Hfin as (n & F1 & F2 & F3 & F4); [now rewrite Hm|exact Hos|].
    exists n. rewrite F4, Hm. repeat (split; [auto|]). apply C'.
  - destruct (Hm C) as [Hos Hm'].
    destruct Hfin as (n & F1 & F2 & F3 & F4); [now rewrite Hm'|exact Hos|].
    exists n. rewrite F4, Hm'. repeat (split; [auto|]). apply C'.
  - destruct (Hm C) as (Hos & Hm' & Hin).
    destruct Hfin as (n & F1 & F2 & F3 & F4); [now rewrite Hm'|exact Hos|].
    exists n. rewrite F4, Hm'. repeat (split; [auto|]). apply C'.
  - destruct Hm as [_ Hm]. contradiction.
  - contradiction.
Qed.

(** ** iterateFrame *)

Lemma iterateFrame_any react h0 w o w' :
  stop_only (w_in w) -> last_ok (w_sock w) -> tame_react react ->
  iterateFrame react h0 w = (o, w') ->
  exists new os, fstep react w new w' /\ transcript new = seen (w_sock w) os /\
    prefix os (fst (reading 1 (opn_of w) (bs_of w))) /\ last_ok (w_sock w') /\
    match o with
    | Ret h => exists i rest, rd_header (bs_of w) = Some (i, rest) /\ hdr_match h i /\
               accepts (opn_of w) i = true /\ eff_len (i_len i) <= lenN rest /\
               os = shown (i_opcode i) (i_fin i) (masked_opt (i_key i) (takeN (eff_len (i_len i)) rest)) true /\
               bs_of w' = dropN (eff_len (i_len i)) rest /\ opn_of w' = next_open (opn_of w) i
    | Throw _ => calm react w -> exists rest, reading 1 (opn_of w) (bs_of w) = ([], Rejected rest) /\ bs_of w' = rest
    | Wait => calm react w -> os = fst (reading 1 (opn_of w) (bs_of w)) /\
                              snd (reading 1 (opn_of w) (bs_of w)) = Blocked /\ w_in w' = []
    | Ub u => u = UbSigned /\ ~ calm react w
    | OutOfFuel => False
    end.
Proof.
  intros Hs Hl Ht E. unfold iterateFrame, bind at 1 in E.
  destruct (readFrameHeader h0 w) as [o1 w1] eqn:E1.
  apply readFrameHeader_spec in E1. destruct E1 as [Hr1 E1].
  pose proof (step_ronly react _ _ Hr1 Hs) as Hst1.
  assert (tame (w_sock w) (w_sock w1)) as Ht1 by apply Hst1.
  assert (stop_only (w_in w1)) as Hs1 by apply Hst1.
  assert (calm react w -> calm react w1) as Hcalm1 by (intros C; now apply Hst1).
  assert (last_ok (w_sock w1)) as Hl1 by (eapply last_ok_tame; eassumption).
  destruct o1 as [h|e| |u|]; try contradiction.
  2:{ injection E as <- <-. exists [], []. split; [now apply step_fstep|]. split; [now rewrite seen_nil|].
      split; [apply prefix_nil|]. split; [exact Hl1|]. intros (C & _). contradiction. }
  2:{ injection E as <- <-. destruct E1 as [Hin Hrd]. exists [], []. split; [now apply step_fstep|].
      split; [now rewrite seen_nil|].
      split; [apply prefix_nil|]. split; [exact Hl1|]. intros _. cbn [reading]. rewrite Hrd. auto. }
  destruct E1 as (i & Hrd & Hh & _). unfold bind at 1 in E.
  destruct (handleFrame react h w1) as [o2 w2] eqn:E2.
  pose proof (handleFrame_spec react Ht h i w1 o2 w2 Hh Hs1 Hl1 E2) as F.
  destruct F as (new & os & Hf & Htr & Hpx & _ & Hl2 & Hrej & Hm).
  rewrite (open_tame _ _ Ht1) in *. rewrite (seen_tame _ _ _ Ht1) in Htr.
  exists new, os.
  assert (w' = w2) as -> by (destruct o2; injection E as <- <-; reflexivity).
  split.
  { change new with ([] ++ new). eapply fstep_trans; [apply step_fstep; exact Hst1|exact Hf]. }
  split; [exact Htr|].
  assert (reading 1 (opn_of w) (bs_of w) =
     let n := eff_len (i_len i) in let rest := bs_of w1 in
     if negb (accepts (opn_of w) i) then ([], Rejected rest) else
     let ob := shown (i_opcode i) (i_fin i) (masked_opt (i_key i) (takeN n rest)) (n <=? lenN rest) in
     if negb (n <=? lenN rest) then (ob, Blocked)
     else if i_opcode i =? 8 then (ob, Closed (dropN n rest)) else (ob ++ [], Stopped (dropN n rest))) as HR.
  { cbn [reading]. rewrite Hrd. reflexivity. }
  cbv zeta in HR.
  split.
  { rewrite HR. destruct (accepts (opn_of w) i); cbn [negb]; [|exact Hpx].
    destruct (eff_len (i_len i) <=? lenN (bs_of w1)); cbn [negb]; [|exact Hpx].
    destruct (i_opcode i =? 8); cbn [fst]; [exact Hpx|]. now rewrite app_nil_r. }
  split; [exact Hl2|].
  destruct o2 as [[]|e| |u|].
  - injection E as <-. destruct Hm as (Ha & Hos & Hcomp & Hbs & Hop).
    exists i, (bs_of w1). rewrite Ha in Hos. rewrite Hcomp in Hos. split; [exact Hrd|]. split; [exact Hh|].
    split; [exact Ha|]. split; [lia|]. auto.
  - injection E as <-. intros C. specialize (Hm (Hcalm1 C)). rewrite HR, Hm. cbn [negb].
    exists (bs_of w1). split; [reflexivity|]. now apply Hrej.
  - injection E as <-. intros C. destruct (Hm (Hcalm1 C)) as (Hos & Hcomp & Hin). rewrite HR.
    destruct (accepts (opn_of w) i) eqn:Ha; [|destruct (Hrej eq_refl) as (_ & [] & _)]. cbn [negb].
    rewrite Hcomp in *. cbn. auto.
  - injection E as <-. destruct Hm as [-> Hm]. split; [reflexivity|]. intros C. apply Hm. auto.
  - contradiction.
Qed.

(** A complete frame in front. *)
Lemma iterateFrame_frame react h0 w lf f rest o w' :
  calm react w -> last_ok (w_sock w) -> bs_of w = wire lf f ++ rest ->
  f_opcode f < 16 -> lform_ok lf (lenN (f_payload f)) = true -> accepts (opn_of w) (finfo_of f) = true ->
  iterateFrame react h0 w = (o, w') ->
  exists h new, o = Ret h /\ bs_of w' = rest /\ w_log w' = w_log w ++ new /\
    Forall (fun e => s_listener (w_sock w) = Some (fst e)) new /\
    transcript new = seen (w_sock w) (frame_shown f) /\ opn_of w' = next_open (opn_of w) (finfo_of f) /\
    hdr_match h (finfo_of f) /\ calm react w' /\ last_ok (w_sock w').
Proof.
  intros C Hl Hbs Hop Hlf Ha E.
  destruct (iterateFrame_any react h0 w o w') as (new & os & Hf & Htr & Hpx & Hl' & Hm);
    [apply steady_stop_only, C|exact Hl|apply polite_tame, C|exact E|].
  pose proof (reading_wire 0 (opn_of w) lf f rest Hop Hlf Ha) as HR. rewrite Hbs in *.
  destruct o as [h|e| |u|].
  - destruct Hm as (i & r & Hrd & Hh & Hac & Hle & Hos & Hbs' & Hopn).
    rewrite rd_header_wire in Hrd by assumption.
    assert (finfo_of f = i) as Hi by congruence.
    assert (masked_opt (f_key f) (f_payload f) ++ rest = r) as Hr by congruence.
    subst i r. clear Hrd.
    pose proof (lform_ok_63 _ _ Hlf) as H63.
    cbn [finfo_of i_len i_opcode i_fin i_key] in *.
    assert (eff_len (lenN (f_payload f)) = lenN (f_payload f)) as He.
    { unfold eff_len. destruct (lenN (f_payload f) <? 2 ^ 63) eqn:E0; [reflexivity|lia]. }
    rewrite He in *. pose proof (lenN_masked_opt (f_key f) (f_payload f)) as Hlen.
    rewrite takeN_app_exact, masked_opt_invol in Hos by exact Hlen.
    rewrite dropN_app_exact in Hbs' by exact Hlen.
    exists h, new. split; [reflexivity|]. split; [exact Hbs'|].
    destruct Hf as (H1 & H2 & _ & _ & _ & _ & _ & H8 & _).
    split; [exact H1|]. split; [exact H2|]. split; [rewrite Htr, Hos; reflexivity|].
    split; [exact Hopn|]. split; [exact Hh|]. split; [apply H8; exact C|exact Hl'].
  - destruct (Hm C) as (r & Hr & _). rewrite HR in Hr. cbn in Hr. destruct (f_opcode f =? 8); discriminate.
  - destruct (Hm C) as (_ & Hr & _). rewrite HR in Hr. cbn in Hr. destruct (f_opcode f =? 8); discriminate.
  - destruct Hm as [_ Hm]. contradiction.
  - contradiction.
Qed.

(** Streams that begin with accepted frames. *)
Lemma listen_history react w o w' fs bs :
  clean (w_in w) -> healthy (w_wr w) -> polite_react react -> never_stops react -> (0 < s_buf (w_sock w))%Z ->
  last_ok (w_sock w) -> bs_of w = wires fs ++ bs -> history_ok (opn_of w) fs = true ->
  listen react w = (o, w') ->
  exists new, w_log w' = w_log w ++ new /\ Forall (fun e => s_listener (w_sock w) = Some (fst e)) new /\
    transcript new = seen (w_sock w) (frames_shown fs ++ stream_reading (open_after (opn_of w) fs) bs) /\
    match stream_ending (open_after (opn_of w) fs) bs with
    | Blocked => o = Wait /\ w_in w' = []
    | Closed rest | Rejected rest => o = Ret tt /\ bs_of w' = rest
    | Stopped _ => False
    end /\ last_ok (w_sock w') /\ clean (w_in w') /\ healthy (w_wr w').
Proof.
  intros Hc Hh Hp Hns Hb Hl Hbs Hok E.
  destruct (listen_exact react w o w') as (new & H); try assumption.
  rewrite Hbs in H. destruct (stream_wires fs (opn_of w) bs Hok) as [G1 G2]. rewrite G1, G2 in H.
  exists new. exact H.
Qed.

(** A rejected frame. *)
Lemma reading_rejected opn bs i rest :
  rd_header bs = Some (i, rest) -> accepts opn i = false ->
  stream_reading opn bs = [] /\ stream_ending opn bs = Rejected rest.
Proof.
  intros H1 H2. unfold stream_reading, stream_ending. cbn [reading]. rewrite H1, H2. cbn. auto.
Qed.
