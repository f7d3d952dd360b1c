(** Property theorems: C95, stopping and listening again. *)
From Verif Require Import Bytes Frame World WebSocket SpecFrame SpecSend SpecListen SpecApi SpecResume ProofFrame ProofStream ProofSend ProofHeader ProofListen ProofReading ProofApi ProofInv ProofProps ProofHistory PropListen.
From Coq Require Import ZifyBool ZifyNat ZifyN.
Local Open Scope N_scope.
Local Open Scope m_scope.
Local Arguments takeN : simpl never.
Local Arguments dropN : simpl never.
Local Arguments lenN : simpl never.

Lemma stream_step opn bs i rest : rd_header bs = Some (i, rest) -> accepts opn i = true -> eff_len (i_len i) <= lenN rest ->
  let all := shown (i_opcode i) (i_fin i) (masked_opt (i_key i) (takeN (eff_len (i_len i)) rest)) true in
  let next := dropN (eff_len (i_len i)) rest in
  (length next < length bs)%nat /\
  if i_opcode i =? 8 then stream_reading opn bs = all /\ stream_ending opn bs = Closed next
  else stream_reading opn bs = all ++ stream_reading (next_open opn i) next /\ stream_ending opn bs = stream_ending (next_open opn i) next.
Proof.
  intros Hh Ha Hn all next.
  assert (length next < length bs)%nat as Hlt.
  { apply rd_header_len in Hh. unfold next. pose proof (length_dropN (eff_len (i_len i)) rest). lia. }
  split; [exact Hlt|].
  assert (reading (S (length bs)) opn bs = if i_opcode i =? 8 then (all, Closed next) else (all ++ stream_reading (next_open opn i) next, stream_ending (next_open opn i) next)) as E.
  { cbn [reading]. rewrite Hh, Ha. cbn [negb]. replace (eff_len (i_len i) <=? lenN rest) with true by lia. cbn [negb]. fold all next.
    destruct (i_opcode i =? 8); [reflexivity|]. rewrite (stream_enough (length bs) (next_open opn i) next) by lia. reflexivity. }
  unfold stream_reading at 1, stream_ending at 1. change (stream_reading opn bs) with (fst (reading (S (length bs)) opn bs)).
  change (stream_ending opn bs) with (snd (reading (S (length bs)) opn bs)). rewrite E.
  destruct (i_opcode i =? 8); now split.
Qed.

Lemma closed_app log new : closed_since (length log) (log ++ new) = existsb is_close new.
Proof. unfold closed_since. now rewrite skipn_app, skipn_all, Nat.sub_diag. Qed.
Lemma close_seen new : existsb is_close new = true <-> exists c m, In (OClose c m) (transcript new).
Proof.
  unfold transcript. induction new as [|[l ev] new IH]; cbn [existsb flat_map snd].
  - split; [discriminate|]. intros (c & m & []).
  - rewrite Bool.orb_true_iff, IH. unfold is_close. cbn [snd]. destruct ev as [op d|op|m|m|c m]; cbn [observe].
    + split; [intros [H|(c & m & H)]; [discriminate|exists c, m; apply in_or_app; auto]|]. intros (c & m & H). right. exists c, m.
      apply in_app_or in H as [H|H]; [|exact H]. apply in_map_iff in H as (x & H & _). discriminate.
    + split; [intros [H|(c & m & H)]; [discriminate|exists c, m; apply in_or_app; auto]|]. intros (c & m & [H|H]); [discriminate|eauto].
    + split; [intros [H|(c & m' & H)]; [discriminate|exists c, m'; apply in_or_app; auto]|]. intros (c & m' & [H|H]); [discriminate|eauto].
    + split; [intros [H|(c & m' & H)]; [discriminate|exists c, m'; apply in_or_app; auto]|]. intros (c & m' & [H|H]); [discriminate|eauto].
    + split; [intros _; exists c, m; now left|intros _; now left].
Qed.

Definition resumed (react : react_t) (w : world) (o : outcome unit) (w' : world) : Prop :=
  let R := stream_reading (opn_of w) (bs_of w) in let E := stream_ending (opn_of w) (bs_of w) in
  exists new, w_log w' = w_log w ++ new /\ calm react w' /\ last_ok (w_sock w') /\ s_listener (w_sock w') = s_listener (w_sock w) /\
    match o with
    | Ret _ =>
      (existsb is_close new = true /\ transcript new = R /\ E = Closed (bs_of w')) \/
      (existsb is_close new = false /\ transcript new ++ stream_reading (opn_of w') (bs_of w') = R /\ E = stream_ending (opn_of w') (bs_of w') /\ (length (bs_of w') < length (bs_of w))%nat)
    | Wait => existsb is_close new = false /\ transcript new = R /\ E = Blocked /\ w_in w' = []
    | Throw _ => exists r, E = Rejected r
    | _ => False
    end.

Lemma shown_close op fin d b c m : In (OClose c m) (shown op fin d b) -> op = 8 /\ b = true.
Proof.
  assert (In (OClose c m) (map (OByte op) d ++ (if b && fin then [OEnd op] else [])) -> False) as H.
  { intros H. apply in_app_or in H as [H|H]; [apply in_map_iff in H as (x & H & _); discriminate|]. destruct (b && fin)%bool; [|destruct H]. destruct H as [H|[]]. discriminate. }
  assert (forall o, In (OClose c m) (if b then [o] else []) -> o = OClose c m /\ b = true) as H1.
  { intros o Hi. destruct b; [|destruct Hi]. destruct Hi as [Hi|[]]. auto. }
  unfold shown.
  destruct op as [|[[[[p|p|]|[p|p|]|]|[[p|p|]|[p|p|]|]|]|[[[p|p|]|[p|p|]|]|[[p|p|]|[p|p|]|]|]|]]; intros Hi;
    try (destruct (H Hi)); apply H1 in Hi as [Hi Hb]; try discriminate Hi; split; auto.
Qed.
Lemma reading_close k : forall opn bs c m, In (OClose c m) (fst (reading k opn bs)) -> exists r, snd (reading k opn bs) = Closed r.
Proof.
  induction k as [|k IH]; intros opn bs c m H; cbn [reading] in *; [destruct H|]. destruct (rd_header bs) as [[i rest]|]; [|destruct H].
  destruct (accepts opn i); cbn [negb] in *; [|destruct H]. destruct (_ <=? lenN rest) eqn:E; cbn [negb] in *.
  - destruct (N.eqb_spec (i_opcode i) 8) as [E8|E8]; cbn [fst snd] in *; [eauto|].
    destruct (reading k _ _) as [more e] eqn:Er. cbn [fst snd] in *. apply in_app_or in H as [H|H]; [apply shown_close in H as [H _]; contradiction|].
    specialize (IH _ _ c m ltac:(rewrite Er; exact H)). now rewrite Er in IH.
  - cbn [fst] in H. apply shown_close in H as [_ H]. discriminate.
Qed.
Lemma no_close_seen new R (E : rend) : transcript new = R -> (forall c m, ~ In (OClose c m) R) -> existsb is_close new = false.
Proof.
  intros <- H. destruct (existsb is_close new) eqn:X; [|reflexivity]. apply close_seen in X as (c & m & X). destruct (H c m X).
Qed.

Section Loop.
Variables (react : react_t) (l : nat).
Lemma loop_step fuel h w : listen_loop react (S fuel) h w =
  match iterateFrame react h w with
  | (Ret h', w1) => if (negb (h_opcode h' =? OPCODE_CLOSE) && s_listening (w_sock w1))%bool then listen_loop react fuel h' w1 else (Ret tt, w1)
  | (Throw e, w1) => (Throw e, w1) | (Wait, w1) => (Wait, w1) | (Ub u, w1) => (Ub u, w1) | (OutOfFuel, w1) => (OutOfFuel, w1)
  end.
Proof.
  cbn [listen_loop]. unfold iterateFrame, bind. destruct (readFrameHeader h w) as [[h'|e| |u|] w']; try reflexivity.
  destruct (handleFrame react h' w') as [[a|e| |u|] w'']; try reflexivity. unfold get, ret. now destruct (_ && _)%bool.
Qed.
Lemma loop_resume fuel : forall h w o w', calm react w -> last_ok (w_sock w) -> s_listener (w_sock w) = Some l ->
  listen_loop react fuel h w = (o, w') -> o = OutOfFuel \/ resumed react w o w'.
Proof.
  induction fuel as [|fuel IH]; intros h w o w' C Hl Hs E; [injection E as <- _; now left|].
  rewrite loop_step in E. destruct (iterateFrame react h w) as [o1 w1] eqn:E1.
  destruct C as (C1 & C2 & C3 & C4). pose proof (polite_tame _ C3) as Ht.
  destruct (iterateFrame_any react h w o1 w1) as (new & os & Hf & Htr & _ & Hl1 & Hm); [now apply steady_stop_only|exact Hl|exact Ht|exact E1|].
  assert (calm react w) as C by (repeat split; assumption).
  destruct Hf as (H1 & H2 & H3 & T1 & T2 & T3 & T4 & H5 & H6). destruct (H5 C) as (C' & _).
  rewrite (seen_some _ _ _ Hs) in Htr.
  destruct o1 as [h'|e| |u|].
  - destruct Hm as (i & rest & Hh & Hmatch & Ha & Hn & Hos & Hb & Ho). destruct (stream_step _ _ _ _ Hh Ha Hn) as [Hlt Hst].
    destruct Hmatch as (_ & _ & Hop & _). rewrite Hop in E. unfold OPCODE_CLOSE in E. rewrite <- Hos, <- Hb, <- Ho, <- Htr in Hst. rewrite <- Hb in Hlt.
    destruct (N.eqb_spec (i_opcode i) 8) as [E8|E8]; cbn [negb andb] in E.
    + injection E as <- <-. right. exists new. repeat (split; [assumption|]). left. destruct Hst as [R1 R2]. split; [|split; [now rewrite R1|exact R2]].
      apply close_seen. setoid_rewrite Htr. setoid_rewrite Hos. setoid_rewrite E8. cbn [shown]. unfold close_obs. destruct (masked_opt _ _) as [|x [|y r]]; eexists _, _; left; reflexivity.
    + destruct Hst as [R1 R2].
      assert (existsb is_close new = false) as Hnc.
      { apply (no_close_seen _ _ Blocked eq_refl). intros c m Hi. rewrite Htr, Hos in Hi. apply shown_close in Hi as [Hi _]. contradiction. }
      destruct (s_listening (w_sock w1)) eqn:Eli.
      * destruct (IH h' w1 o w' C' Hl1 ltac:(now rewrite T3) E) as [->|(new2 & G1 & G2 & G3 & G4 & G5)]; [now left|]. right.
        exists (new ++ new2). split; [rewrite G1, H1; now rewrite app_assoc|]. split; [exact G2|]. split; [exact G3|]. split; [congruence|].
        rewrite existsb_app, Hnc, transcript_app, R1, R2. cbn [orb].
        destruct o as [a|e| |u|]; try exact G5.
        -- destruct G5 as [(X1 & X2 & X3)|(X1 & X2 & X3 & X4)]; [left|right].
           ++ split; [exact X1|]. split; [now rewrite X2|exact X3].
           ++ split; [exact X1|]. split; [now rewrite <- app_assoc, X2|]. split; [exact X3|lia].
        -- destruct G5 as (X1 & X2 & X3 & X4). split; [exact X1|]. split; [now rewrite X2|]. now split.
      * injection E as <- <-. right. exists new. repeat (split; [assumption|]). right. split; [exact Hnc|]. split; [now rewrite R1|]. split; [exact R2|exact Hlt].
  - injection E as <- <-. right. exists new. repeat (split; [assumption|]). destruct (Hm C) as (rest & Hr & _). exists rest.
    destruct (reading_whole 1 (opn_of w) (bs_of w)) as [_ <-]; now rewrite Hr.
  - injection E as <- <-. right. exists new. repeat (split; [assumption|]). destruct (Hm C) as (Hos & Hr & Hin).
    destruct (reading_whole 1 (opn_of w) (bs_of w)) as [R1 R2]; [now rewrite Hr|]. rewrite <- R1, <- R2. rewrite Htr, Hos.
    split; [|now split]. apply (no_close_seen _ _ Blocked Htr). intros c m Hi. rewrite Hos in Hi. apply reading_close in Hi as [r Hi]. congruence.
  - destruct Hm as [_ Hm]. contradiction.
  - contradiction.
Qed.
Lemma listen_resume w o w' : calm react w -> last_ok (w_sock w) -> s_listener (w_sock w) = Some l -> nothing_refused (opn_of w) (bs_of w) ->
  listen react w = (o, w') -> resumed react w o w' /\ (o = Ret tt \/ o = Wait).
Proof.
  intros C Hl Hs Hn E. pose proof (listen_total react w o w' E) as Htot.
  unfold listen, bind, modify_sock, get, try_ in E. change (set_sock w (set_listening (w_sock w) true)) with (entered w) in E.
  destruct (listen_loop react _ header_init (entered w)) as [o1 w1] eqn:E1.
  apply loop_resume in E1; [|now apply calm_entered|exact Hl|exact Hs].
  assert (w1 = w' /\ o = match o1 with Throw _ => Ret tt | _ => o1 end) as [-> ->].
  { destruct o1 as [[]| | | |]; injection E as <- <-; auto. }
  destruct E1 as [->|G]; [destruct Htot as [H|[H|[u H]]]; discriminate|].
  unfold resumed in *. change (opn_of (entered w)) with (opn_of w) in G. change (bs_of (entered w)) with (bs_of w) in G. change (w_log (entered w)) with (w_log w) in G.
  change (s_listener (w_sock (entered w))) with (s_listener (w_sock w)) in G.
  destruct o1 as [[]|e| |u|].
  - split; [exact G|now left].
  - destruct G as (new & _ & _ & _ & _ & r & Hr). unfold nothing_refused in Hn. rewrite Hr in Hn. destruct Hn.
  - split; [exact G|now right].
  - destruct G as (new & _ & _ & _ & _ & []).
  - destruct G as (new & _ & _ & _ & _ & []).
Qed.
End Loop.

(** * C95 *)
(** Nothing is lost and nothing repeated, however often listening is stopped (by the listener at any call, by other threads at any moment) and resumed, in
    the middle of fragmented messages too: all that was seen, followed by what is still to come, is what one uninterrupted listen() shows. When the
    application is blocked for input or has been closed it has seen everything; after as many calls as there are bytes it is. *)
Theorem C95_resume : forall n react w o w' l, calm react w -> last_ok (w_sock w) -> s_listener (w_sock w) = Some l ->
  nothing_refused (open_of (w_sock w)) (bytes_of (w_in w)) ->
  listen_again n react w = (o, w') ->
  exists new, w_log w' = w_log w ++ new /\
    transcript new ++ (if closed_since (length (w_log w)) (w_log w') then [] else stream_reading (open_of (w_sock w')) (bytes_of (w_in w')))
      = stream_reading (open_of (w_sock w)) (bytes_of (w_in w)) /\
    (o = Wait -> w_in w' = [] /\ transcript new = stream_reading (open_of (w_sock w)) (bytes_of (w_in w))) /\
    (closed_since (length (w_log w)) (w_log w') = true -> stream_ending (open_of (w_sock w)) (bytes_of (w_in w)) = Closed (bytes_of (w_in w'))) /\
    (o = Wait \/ o = Ret tt) /\
    ((length (bytes_of (w_in w)) < n)%nat -> o = Wait \/ closed_since (length (w_log w)) (w_log w') = true).
Proof.
  induction n as [|n IH]; intros react w o w' l C Hl Hs Hn E; cbn [listen_again] in E.
  - injection E as <- <-. exists []. rewrite app_nil_r. unfold closed_since. rewrite skipn_all. cbn. repeat split; auto; try discriminate. lia.
  - destruct (listen react w) as [o1 w1] eqn:E1. destruct (listen_resume react l w o1 w1 C Hl Hs Hn E1) as [(new & H1 & C1 & Hl1 & Hs1 & Hm) [->| ->]].
    + rewrite H1, closed_app in E. destruct Hm as [(X1 & X2 & X3)|(X1 & X2 & X3 & X4)]; rewrite X1 in E.
      * injection E as <- <-. exists new. rewrite H1, closed_app, X1, app_nil_r, X2. repeat split; auto. discriminate.
      * destruct (IH react w1 o w' l C1 Hl1 ltac:(now rewrite Hs1) ltac:(unfold nothing_refused; now rewrite <- X3) E) as (new2 & G1 & G2 & G3 & G4 & G5 & G6).
        exists (new ++ new2). assert (w_log w' = w_log w ++ new ++ new2) as Hlog by (rewrite G1, H1; now rewrite app_assoc).
        assert (closed_since (length (w_log w)) (w_log w') = closed_since (length (w_log w1)) (w_log w')) as Hc.
        { transitivity (existsb is_close (new ++ new2)); [now rewrite Hlog, closed_app|]. rewrite G1, closed_app, existsb_app, X1. reflexivity. }
        rewrite Hc. split; [exact Hlog|]. split; [|split; [|split; [|split; [exact G5|]]]].
        -- rewrite transcript_app, <- app_assoc, G2. exact X2.
        -- intros ->. destruct (G3 eq_refl) as [G31 G32]. split; [exact G31|]. rewrite transcript_app, G32. exact X2.
        -- intros Hcl. rewrite X3. exact (G4 Hcl).
        -- intros Hlt. apply G6. lia.
    + injection E as <- <-. destruct Hm as (X1 & X2 & X3 & X4). exists new. rewrite H1, closed_app, X1, X4. cbn [bytes_of].
      rewrite (proj1 (stream_reading_nil _)), app_nil_r. repeat split; auto. discriminate.
Qed.
Print Assumptions C95_resume.

(** So a peer's messages arrive, each exactly once and in order, although listening was interrupted. *)
Theorem C95_round_trip : forall ops ws os ws' n react wr or wr' l,
  healthy (w_wr ws) -> Forall plain_send ops -> Forall (fits (s_mask (w_sock ws))) ops ->
  send_all ops ws = (os, ws') ->
  calm react wr -> last_ok (w_sock wr) -> open_of (w_sock wr) = false -> s_listener (w_sock wr) = Some l ->
  w_out ws' = w_out ws ++ bytes_of (w_in wr) -> (length (bytes_of (w_in wr)) < n)%nat ->
  listen_again n react wr = (or, wr') ->
  or = Wait /\ w_in wr' = [] /\ exists new, w_log wr' = w_log wr ++ new /\ transcript new = flat_map received ops.
Proof.
  intros ops ws os ws' n react wr or wr' l Hh Hp Hf Es C Hlo Ho Hl Hw Hn El.
  destruct (send_all_healthy ops ws os ws' Hh Hf Es) as (-> & _ & _ & kops & Hk & _ & Hout).
  rewrite Hout in Hw. apply app_inv_head in Hw.
  destruct (sent_history kops) as (H1 & H2 & H3).
  { rewrite <- Hk in Hp, Hf. rewrite Forall_map in Hp, Hf. rewrite Forall_forall in *.
    intros x Hx. split; [now apply Hp|]. apply (Hf _ Hx). }
  destruct (stream_wires (sent_frames kops) false [] H1) as [S1 S2]. rewrite app_nil_r, H2 in S1, S2. rewrite Hw in S1, S2.
  destruct (C95_resume n react wr or wr' l C Hlo Hl) as (new & G1 & _ & G3 & G4 & _ & G6); [unfold nothing_refused; rewrite Ho, S2; exact I|exact El|].
  rewrite Ho in G3, G4. rewrite S2 in G4. destruct (G6 Hn) as [->|X]; [|apply G4 in X; discriminate X].
  split; [reflexivity|]. destruct (G3 eq_refl) as [G31 G32]. split; [exact G31|]. exists new. split; [exact G1|].
  rewrite G32, S1, (proj1 (stream_reading_nil _)), app_nil_r, H3, flat_map_snd, Hk. reflexivity.
Qed.
Print Assumptions C95_round_trip.

(** A listener that stops at every call, and another thread that stops in the middle of a frame; a text message, a ping, and a text in two fragments. *)
Definition jumpy : react_t := fun _ _ => [CStop].
Definition interrupted : world := demo [RData x81 [x02; x61]; RExt XStop; RData x62 [x89; x00; x01]; RData x01 [x63; x80; x01; x64]].
Example C95_nonvacuous :
  calm jumpy interrupted /\ last_ok (w_sock interrupted) /\ nothing_refused (open_of (w_sock interrupted)) (bytes_of (w_in interrupted)) /\
  fst (listen jumpy interrupted) = Ret tt /\ fst (listen_again 12 jumpy interrupted) = Wait /\
  transcript (w_log (snd (listen_again 12 jumpy interrupted))) =
    [OByte 1 x61; OByte 1 x62; OEnd 1; OPing []; OByte 1 x63; OByte 0 x64; OEnd 0].
Proof.
  split; [|split; [now left|split; [vm_compute; exact I|split; [vm_compute; reflexivity|split; vm_compute; reflexivity]]]].
  split; [repeat constructor|]. split; [constructor|]. split; [intros l log; repeat constructor|reflexivity].
Qed.
