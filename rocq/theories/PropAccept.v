(** C44: exactly which frames sent by the library the library accepts. *)
From Verif Require Import Bytes Frame World WebSocket AsyncWebSocket SpecFrame SpecSend SpecListen SpecApi SpecAsync SpecAccept
  ProofFrame ProofStream ProofSend ProofReading ProofApi ProofProps ProofAsync ProofAsync2 PropAsync PropAsync2 PropAsync3.
From Coq Require Import Lia ZifyBool ZifyN.
Local Open Scope N_scope.
Local Arguments takeN : simpl never.
Local Arguments dropN : simpl never.
Local Arguments lenN : simpl never.
Local Arguments be_enc : simpl never.
Local Arguments be_dec : simpl never.

(** What the ending of the reading says about the fate. *)
Definition ends_as (e : rend) (f : fate) : Prop :=
  match f with
  | AllRead => e = Blocked
  | ClosedBy r => exists b, e = Closed b /\ frames_for r b
  | RefusedAt op r => exists k b, e = Rejected (masked_opt k (req_payload op) ++ b) /\ frames_for r b
  end.

Lemma stream_frame opn k op b : lenN (req_payload op) < 2 ^ 63 -> accepts opn (finfo_of (frame_for k op)) = true ->
  stream_reading opn (sent_wire k op ++ b) =
    frame_shown (frame_for k op) ++ (if req_opcode op mod 16 =? 8 then [] else stream_reading (next_open opn (finfo_of (frame_for k op))) b) /\
  stream_ending opn (sent_wire k op ++ b) =
    (if req_opcode op mod 16 =? 8 then Closed b else stream_ending (next_open opn (finfo_of (frame_for k op))) b).
Proof.
  intros Hl Ha. unfold sent_wire. set (lf := lform_min (lenN (req_payload op))).
  assert (f_opcode (frame_for k op) < 16) as Ho by (apply N.mod_lt; lia).
  assert (lform_ok lf (lenN (f_payload (frame_for k op))) = true) as Hf by (apply lform_min_ok; exact Hl).
  unfold stream_reading at 1, stream_ending at 1. rewrite (reading_wire _ _ _ _ _ Ho Hf Ha).
  change (f_opcode (frame_for k op)) with (req_opcode op mod 16).
  destruct (req_opcode op mod 16 =? 8); [cbn [fst snd]; rewrite app_nil_r; split; reflexivity|]. cbn [fst snd].
  rewrite stream_enough; [split; reflexivity|].
  rewrite app_length. pose proof (length_wire_pos lf (frame_for k op)). lia.
Qed.
Lemma stream_refused opn k op b : lenN (req_payload op) < 2 ^ 63 -> accepts opn (finfo_of (frame_for k op)) = false ->
  stream_reading opn (sent_wire k op ++ b) = [] /\ stream_ending opn (sent_wire k op ++ b) = Rejected (masked_opt k (req_payload op) ++ b).
Proof.
  intros Hl Ha. eapply reading_rejected; [|exact Ha]. unfold sent_wire.
  rewrite rd_header_wire; [reflexivity|apply N.mod_lt; lia|apply lform_min_ok; exact Hl].
Qed.

Lemma understood_reading ops : forall opn b, Forall (fun op => lenN (req_payload op) < 2 ^ 63) ops -> frames_for ops b ->
  stream_reading opn b = fst (understood opn ops) /\ ends_as (stream_ending opn b) (snd (understood opn ops)).
Proof.
  induction ops as [|op r IH]; intros opn b Hl Hb; inversion Hb as [|? ? k b' Hb' ]; subst.
  - split; reflexivity.
  - inversion Hl as [|? ? L1 L2]; subst.
    assert (forall opn', accepts opn (finfo_of (frame_for k op)) = true -> next_open opn (finfo_of (frame_for k op)) = opn' -> req_opcode op mod 16 <> 8 ->
              let (later, f) := understood opn' r in
              stream_reading opn (sent_wire k op ++ b') = frame_shown (frame_for k op) ++ later /\ ends_as (stream_ending opn (sent_wire k op ++ b')) f) as Hgo.
    { intros opn' Ha Hn H8. destruct (stream_frame opn k op b' L1 Ha) as [G1 G2]. rewrite Hn in G1, G2.
      apply N.eqb_neq in H8. rewrite H8 in G1, G2. rewrite G1, G2. destruct (IH opn' b' L2 Hb') as [I1 I2].
      destruct (understood opn' r). cbn [fst snd] in *. now rewrite I1. }
    assert (accepts opn (finfo_of (frame_for k op)) = false ->
              stream_reading opn (sent_wire k op ++ b') = [] /\ ends_as (stream_ending opn (sent_wire k op ++ b')) (RefusedAt op r)) as Hno.
    { intros Ha. destruct (stream_refused opn k op b' L1 Ha) as [G1 G2]. rewrite G1, G2. split; [reflexivity|]. exists k, b'. auto. }
    assert (eff_len (lenN (req_payload op)) = lenN (req_payload op)) as He by (unfold eff_len; destruct (N.ltb_spec (lenN (req_payload op)) (2 ^ 63)); lia).
    assert (forall t, req_opcode op mod 16 = t -> frame_shown (frame_for k op) = shown t (req_fin op) (req_payload op) true) as Hsh by (intros t <-; reflexivity).
    unfold accepts, next_open in Hgo, Hno. cbn [i_opcode i_len i_fin finfo_of frame_for f_opcode f_fin f_payload] in Hgo, Hno. rewrite He in Hgo, Hno.
    pose proof (stream_frame opn k op b' L1) as Hfr. unfold accepts in Hfr. cbn [i_opcode i_len i_fin finfo_of frame_for f_opcode f_fin f_payload] in Hfr. rewrite He in Hfr.
    fold (frame_for k op) in Hgo, Hno, Hfr.
    cbn [understood].
    remember (req_opcode op mod 16) as t eqn:Et.
    assert (t = 0 \/ t = 1 \/ t = 2 \/ t = 8 \/ t = 9 \/ t = 10 \/
            (t <> 0 /\ t <> 1 /\ t <> 2 /\ t <> 8 /\ t <> 9 /\ t <> 10)) as Hcases by lia.
    destruct Hcases as [E|[E|[E|[E|[E|[E|E]]]]]].
    all: try (rewrite E in *; specialize (Hsh _ eq_refl)).
    + destruct opn; [|exact (Hno eq_refl)]. specialize (Hgo true eq_refl eq_refl ltac:(discriminate)).
      destruct (understood true r). cbn [fst snd]. rewrite Hsh in Hgo. exact Hgo.
    + destruct opn; [exact (Hno eq_refl)|]. specialize (Hgo _ eq_refl eq_refl ltac:(discriminate)).
      destruct (understood (negb (req_fin op)) r). cbn [fst snd]. rewrite Hsh in Hgo. exact Hgo.
    + destruct opn; [exact (Hno eq_refl)|]. specialize (Hgo _ eq_refl eq_refl ltac:(discriminate)).
      destruct (understood (negb (req_fin op)) r). cbn [fst snd]. rewrite Hsh in Hgo. exact Hgo.
    + destruct (lenN (req_payload op) <=? 125); [|exact (Hno eq_refl)]. destruct (Hfr eq_refl) as [G1 G2]. rewrite G1, G2, Hsh. cbn.
      split; [reflexivity|]. exists b'. auto.
    + destruct (lenN (req_payload op) <=? 125); [|exact (Hno eq_refl)]. specialize (Hgo _ eq_refl eq_refl ltac:(discriminate)).
      destruct (understood opn r). cbn [fst snd]. rewrite Hsh in Hgo. exact Hgo.
    + destruct (lenN (req_payload op) <=? 125); [|exact (Hno eq_refl)]. specialize (Hgo _ eq_refl eq_refl ltac:(discriminate)).
      destruct (understood opn r). cbn [fst snd]. rewrite Hsh in Hgo. exact Hgo.
    + assert (t < 16) as Ht by (rewrite Et; apply N.mod_lt; lia).
      assert (t = 3 \/ t = 4 \/ t = 5 \/ t = 6 \/ t = 7 \/ t = 11 \/ t = 12 \/ t = 13 \/ t = 14 \/ t = 15) as Hc by lia.
      clear E. destruct Hc as [E|[E|[E|[E|[E|[E|[E|[E|[E|E]]]]]]]]]; rewrite E in *; exact (Hno eq_refl).
Qed.

Lemma frames_for_sent kops : frames_for (map snd kops) (wires (sent_frames kops)).
Proof.
  induction kops as [|[k op] r IH]; [constructor|]. cbn [map snd]. unfold sent_frames, wires in *. cbn [map flat_map fst snd].
  apply (ff_cons op (map snd r) k _ IH).
Qed.
Lemma fits_63 m ops : Forall (fits m) ops -> Forall (fun op => lenN (req_payload op) < 2 ^ 63) ops.
Proof. apply Forall_impl. intros op [H _]. exact H. Qed.

(** Any sequence of sending calls (of any frames) over a connection that works: the peer's listener is told exactly what [understood] says of it,
    and listening goes on, ends normally or ends with an error as it says. *)
Theorem C44_exactly : forall ops ws os ws' react wr or wr',
  healthy (w_wr ws) -> Forall (fits (s_mask (w_sock ws))) ops -> send_all ops ws = (os, ws') ->
  good react wr -> w_out ws' = w_out ws ++ bytes_of (w_in wr) -> listen react wr = (or, wr') ->
  os = Ret tt /\
  exists new, w_log wr' = w_log wr ++ new /\ Forall (fun e => s_listener (w_sock wr) = Some (fst e)) new /\
    transcript new = seen (w_sock wr) (fst (understood (open_of (w_sock wr)) ops)) /\
    match snd (understood (open_of (w_sock wr)) ops) with
    | AllRead => or = Wait /\ w_in wr' = []
    | ClosedBy r => or = Ret tt /\ frames_for r (bytes_of (w_in wr'))
    | RefusedAt op r => or = Ret tt /\ exists k b, bytes_of (w_in wr') = masked_opt k (req_payload op) ++ b /\ frames_for r b
    end.
Proof.
  intros ops ws os ws' react wr or wr' Hh Hf Es (A1 & A2 & A3 & A4 & A5 & A6) Hw El.
  destruct (send_all_healthy ops ws os ws' Hh Hf Es) as (-> & _ & _ & kops & <- & _ & Hout). split; [reflexivity|].
  rewrite Hout in Hw. apply app_inv_head in Hw.
  destruct (understood_reading (map snd kops) (open_of (w_sock wr)) (bytes_of (w_in wr)) (fits_63 _ _ Hf)) as [R1 R2].
  { rewrite <- Hw. apply frames_for_sent. }
  destruct (listen_exact react wr or wr' A1 A2 A3 A4 A5 A6 El) as (new & H1 & H2 & H3 & H4 & _).
  exists new. split; [exact H1|]. split; [exact H2|]. split; [rewrite H3, <- R1; reflexivity|].
  destruct (snd (understood (open_of (w_sock wr)) (map snd kops))); cbn [ends_as] in R2.
  - rewrite R2 in H4. exact H4.
  - destruct R2 as (b & Eb & F). rewrite Eb in H4. destruct H4 as [-> ->]. auto.
  - destruct R2 as (k & b & Eb & F). rewrite Eb in H4. destruct H4 as [-> ->]. eauto.
Qed.
Print Assumptions C44_exactly.

(** The same for a peer in listenAsync, under every schedule, once enough steps have been taken. *)
Theorem C44_exactly_async : forall ops ws os ws' react wr evs,
  healthy (w_wr ws) -> Forall (fits (s_mask (w_sock ws))) ops -> send_all ops ws = (os, ws') ->
  s_listening (w_sock wr) = false -> user_react react -> no_use react -> good react (give wr (arrivals evs)) ->
  w_out ws' = w_out ws ++ bytes_of (w_in wr ++ arrivals evs) ->
  exists n, forall m, (n <= m)%nat -> forall st c, run react (evs ++ ticks m) (ARun, start_listen wr) = (st, c) ->
  exists new, w_log (c_world c) = w_log wr ++ new /\ Forall (fun e => s_listener (w_sock wr) = Some (fst e)) new /\
    transcript new = seen (w_sock wr) (fst (understood (open_of (w_sock wr)) ops)) /\
    match snd (understood (open_of (w_sock wr)) ops) with
    | AllRead => st = AWait /\ w_in (c_world c) = []
    | ClosedBy r => st = ADone /\ frames_for r (bytes_of (w_in (c_world c)))
    | RefusedAt op r => (exists e, st = AFail e) /\ exists k b, bytes_of (w_in (c_world c)) = masked_opt k (req_payload op) ++ b /\ frames_for r b
    end.
Proof.
  intros ops ws os ws' react wr evs Hh Hf Es Hl Hu Hnu Hg Hw.
  destruct (send_all_healthy ops ws os ws' Hh Hf Es) as (-> & _ & _ & kops & <- & _ & Hout).
  rewrite Hout in Hw. apply app_inv_head in Hw.
  destruct (understood_reading (map snd kops) (open_of (w_sock wr)) (bytes_of (w_in wr ++ arrivals evs)) (fits_63 _ _ Hf)) as [R1 R2].
  { rewrite <- Hw. apply frames_for_sent. }
  destruct (C53_delivery react wr evs Hl Hu Hg) as [n Hn]. exists n. intros m Hm st c E.
  destruct (Hn m Hm st c E) as [-> |(new & H1 & H2 & H3 & H4)].
  - exfalso. assert (io_only (w_in wr) /\ io_only (arrivals evs)) as [I1 I2].
    { destruct Hg as [Hc _]. apply clean_io_only in Hc. cbn [give w_in set_in] in Hc. unfold give in Hc. cbn in Hc. apply Forall_app in Hc. exact Hc. }
    assert (io_only (arrivals (evs ++ ticks m))) as I3.
    { assert (arrivals (evs ++ ticks m) = arrivals evs) as ->; [|exact I2].
      clear. induction evs as [|[|s] evs IH]; cbn; [induction m; [reflexivity|assumption]|exact IH|now rewrite IH]. }
    destruct (C54_no_ub react wr _ _ _ UbDangling Hl I1 I3 Hu E eq_refl) as [[_ H]|[H _]]; [exact (H Hnu)|discriminate].
  - exists new. split; [exact H1|]. split; [exact H2|]. split; [rewrite H3, <- R1; reflexivity|].
    destruct (snd (understood (open_of (w_sock wr)) (map snd kops))); cbn [ends_as] in R2.
    + rewrite R2 in H4. exact H4.
    + destruct R2 as (b & Eb & F). rewrite Eb in H4. destruct H4 as [-> ->]. auto.
    + destruct R2 as (k & b & Eb & F). rewrite Eb in H4. destruct H4 as [H4 ->]. eauto.
Qed.
Print Assumptions C44_exactly_async.

Lemma understood_app a : forall frag b, snd (understood frag a) = AllRead ->
  understood frag (a ++ b) = (fst (understood frag a) ++ fst (understood (frag || broken_up a) b), snd (understood (frag || broken_up a) b)).
Proof.
  induction a as [|op r IH]; intros frag b H.
  - cbn [app broken_up understood fst snd]. rewrite orb_false_r. now destruct (understood frag b).
  - cbn [app broken_up understood] in *.
    remember (req_opcode op mod 16) as t eqn:Et.
    assert (t < 16) as Ht by (rewrite Et; apply N.mod_lt; lia).
    assert (forall x, snd (let (later, f) := understood x r in (map (OByte t) (req_payload op) ++ (if req_fin op then [OEnd t] else []) ++ later, f)) = snd (understood x r)) as Hs
      by (intros x; now destruct (understood x r)).
    assert (t = 0 \/ t = 1 \/ t = 2 \/ t = 8 \/ t = 9 \/ t = 10 \/ t = 3 \/ t = 4 \/ t = 5 \/ t = 6 \/ t = 7 \/ t = 11 \/ t = 12 \/ t = 13 \/ t = 14 \/ t = 15) as Hc by lia.
    destruct Hc as [E|[E|[E|[E|[E|[E|[E|[E|[E|[E|[E|[E|[E|[E|[E|E]]]]]]]]]]]]]]]; rewrite E in *; try discriminate H.
    + destruct frag; [|discriminate H]. cbn [orb N.eqb]. specialize (IH true b). destruct (understood true r) as [x f]. cbn [fst snd orb] in *.
      rewrite (IH H). cbn [fst snd]. rewrite <- ?app_assoc. reflexivity.
    + destruct frag; [discriminate H|]. cbn [orb N.eqb Pos.eqb andb]. specialize (IH (negb (req_fin op)) b). destruct (understood (negb (req_fin op)) r) as [x f]. cbn [fst snd] in *.
      rewrite (IH H). cbn [fst snd]. rewrite <- ?app_assoc. reflexivity.
    + destruct frag; [discriminate H|]. cbn [orb N.eqb Pos.eqb andb]. specialize (IH (negb (req_fin op)) b). destruct (understood (negb (req_fin op)) r) as [x f]. cbn [fst snd] in *.
      rewrite (IH H). cbn [fst snd]. rewrite <- ?app_assoc. reflexivity.
    + destruct (_ <=? 125); discriminate H.
    + destruct (_ <=? 125); [|discriminate H]. cbn [orb N.eqb Pos.eqb andb]. specialize (IH frag b). destruct (understood frag r) as [x f]. cbn [fst snd] in *.
      rewrite (IH H). cbn [fst snd]. rewrite <- ?app_assoc. reflexivity.
    + destruct (_ <=? 125); [|discriminate H]. cbn [orb N.eqb Pos.eqb andb]. specialize (IH frag b). destruct (understood frag r) as [x f]. cbn [fst snd] in *.
      rewrite (IH H). cbn [fst snd]. rewrite <- ?app_assoc. reflexivity.
Qed.
Lemma unacceptable_refused before op after : snd (understood false before) = AllRead -> unacceptable before op ->
  understood false (before ++ op :: after) = (fst (understood false before), RefusedAt op after).
Proof.
  intros Hb Hu. rewrite understood_app by exact Hb. rewrite orb_false_l.
  assert (understood (broken_up before) (op :: after) = ([], RefusedAt op after)) as ->; [|cbn [fst snd]; now rewrite app_nil_r].
  cbn [understood]. unfold unacceptable in Hu. remember (req_opcode op mod 16) as t eqn:Et.
  destruct Hu as [[Hi Hl]|[Hi|[[Hi Hb2]|[Hi Hb2]]]].
  - cbn [In] in Hi. assert (lenN (req_payload op) <=? 125 = false) as El by lia.
    destruct Hi as [E|[E|[E|[]]]]; rewrite <- E, El; reflexivity.
  - cbn [In] in Hi. repeat (destruct Hi as [E|Hi]; [rewrite <- E; reflexivity|]). contradiction.
  - rewrite Hb2. cbn [In] in Hi. destruct Hi as [E|[E|[]]]; rewrite <- E; reflexivity.
  - rewrite Hb2, Hi. reflexivity.
Qed.

(** In particular (universal refutations of C44): a control message that is too long, a frame with an unknown opcode, a data message after a
    fragmented one - each is sent without complaint and ends the peer's listening, whatever was sent before and is sent afterwards. *)
Theorem C44_unacceptable_refuted : forall before op after ws os ws' react wr or wr',
  healthy (w_wr ws) -> Forall (fits (s_mask (w_sock ws))) (before ++ op :: after) -> send_all (before ++ op :: after) ws = (os, ws') ->
  snd (understood false before) = AllRead -> unacceptable before op ->
  good react wr -> open_of (w_sock wr) = false -> w_out ws' = w_out ws ++ bytes_of (w_in wr) -> listen react wr = (or, wr') ->
  os = Ret tt /\ or = Ret tt /\
  exists new, w_log wr' = w_log wr ++ new /\ transcript new = seen (w_sock wr) (fst (understood false before)).
Proof.
  intros before op after ws os ws' react wr or wr' Hh Hf Es Hb Hu Hg Hop Hw El.
  destruct (C44_exactly _ ws os ws' react wr or wr' Hh Hf Es Hg Hw El) as (Hos & new & H1 & _ & H3 & H4).
  rewrite Hop in H3, H4. rewrite (unacceptable_refused _ _ _ Hb Hu) in H3, H4. cbn [fst snd] in H3, H4.
  split; [exact Hos|]. split; [apply H4|]. exists new. auto.
Qed.
Print Assumptions C44_unacceptable_refuted.

(** Two fragments of a message, a ping, a close frame with a reason, a ping nobody reads; and the same with a text message before the close. *)
Example C44_exactly_nonvacuous :
  let frag := [SoFrame false 1 (Some [x61]); SoPing (Some [x62]); SoFrame true 0 (Some [x63])] in
  understood false (frag ++ [SoClose 1000 (Some [x64]); SoPing None]) =
    ([OByte 1 x61; OPing [x62]; OByte 0 x63; OEnd 0; OClose 1000 [x64]], ClosedBy [SoPing None]) /\
  snd (understood false frag) = AllRead /\ unacceptable frag (SoText (Some [x64])) /\
  understood false (frag ++ [SoText (Some [x64]); SoClose0]) = ([OByte 1 x61; OPing [x62]; OByte 0 x63; OEnd 0], RefusedAt (SoText (Some [x64])) [SoClose0]).
Proof. cbv zeta. split; [vm_compute; reflexivity|]. split; [vm_compute; reflexivity|]. split; [right; right; left; vm_compute; auto|vm_compute; reflexivity]. Qed.
