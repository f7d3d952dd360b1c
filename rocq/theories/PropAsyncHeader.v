(** C72: writeFrameHeaderAsync and sendFrameHeaderAsync, under any schedule. *)
From Verif Require Import Bytes Frame World WebSocket AsyncWebSocket SpecFrame SpecSend SpecListen SpecAsync
  ProofFrame ProofStream ProofSend ProofCodec ProofInv ProofAsync ProofAsync2 PropCodec PropAsync.
From Coq Require Import ZifyBool ZifyNat ZifyN.
Local Open Scope N_scope.
Local Arguments takeN : simpl never.
Local Arguments dropN : simpl never.
Local Arguments lenN : simpl never.
Local Arguments be_enc : simpl never.
Local Arguments be_dec : simpl never.
Local Arguments packHeaderBits : simpl never.

(** AsyncWebSocket.cpp:146-216 writeFrameHeaderAsync: the coroutine it starts, on its own. *)
Definition start_header (h : header) (w : world) : conf :=
  Conf header_init [] [CoWrite h (WfAct (be_enc 2 (fst (packHeaderBits h))))] w.
(** AsyncWebSocket.cpp:462-479 sendFrameHeaderAsync: fills the header in, draws the key, starts the same coroutine. *)
Definition start_send_header (h0 : header) (fin : bool) (opcode : N) (size : Z) (w : world) : conf :=
  match sendFrameHeaderAsync h0 fin opcode size w with (_, co, w') => Conf header_init [] [co] w' end.

Lemma prefix_antisym {A} (a b : list A) : prefix a b -> prefix b a -> b = a.
Proof.
  intros [x ->] [y H]. rewrite <- app_assoc in H. rewrite <- (app_nil_r a) in H at 1. apply app_inv_head in H.
  symmetry in H. apply app_eq_nil in H. destruct H as [-> _]. now rewrite app_nil_r.
Qed.
Lemma header_halts react h w o w' :
  s_listening (w_sock w) = false -> io_only (w_in w) -> writeFrameHeader h w = (o, w') ->
  exists st2 c2, halts react (start_header h w) st2 c2 /\ same_end st2 o /\ c_world c2 = er w'.
Proof.
  intros Hl Hio E.
  assert (inv false (s_listener (w_sock w)) (s_buf (w_sock w)) true w) as Hi by (repeat split; try assumption; discriminate).
  pose proof (simT_sim _ _ _ _ _ _ _ _ _ _ _ (writeFrameHeader_sim react false _ _ true h header_init [] [] w o w' Hi E)) as HS.
  rewrite er_id in HS by exact Hl. eapply sim_halts; [exact HS|].
  intros ->. apply keeps_writeFrameHeader in E. destruct E as [_ E]. exact E.
Qed.

(** What is on the wire, at any moment of any schedule, is a beginning of the RFC header described by the Header object, all of it
    if the coroutine has finished, not all of it if it has failed. *)
Theorem C72_header_on_the_wire : forall react h w evs st c,
  s_listening (w_sock w) = false -> io_only (w_in w) -> io_only (arrivals evs) -> (0 <= h_len h < 2 ^ 63)%Z -> h_opcode h < 16 ->
  run react evs (ARun, start_header h w) = (st, c) ->
  (exists p, w_out (c_world c) = w_out w ++ p /\ prefix p (header_wire h) /\
    (st = ADone -> p = header_wire h) /\ (forall e, st = AFail e -> p <> header_wire h)) /\
  (forall u, st <> AUb u) /\ w_log (c_world c) = w_log w.
Proof.
  intros react h w evs st c Hl Hio Har Hlen Hop E.
  set (wg := give w (arrivals evs)).
  assert (io_only (w_in wg)) as Hgo by (apply io_only_app; assumption).
  destruct (writeFrameHeader h wg) as [o w'] eqn:ES.
  destruct (header_halts react h wg o w' Hl Hgo ES) as (st2 & c2 & Hh & Hend & Hw).
  change (start_header h wg) with (arrive (arrivals evs) (start_header h w)) in Hh.
  assert (prefix (w_out w) (w_out (c_world c)) /\ prefix (w_log w) (w_log (c_world c))) as [Hp0 Hl0].
  { destruct (run_star react evs ARun (start_header h w) st c (or_introl eq_refl) Hio Har E) as [[_ Hs]|[_ (c1 & Hs & H1)]].
    - apply star_grows in Hs. destruct Hs as (_ & A & B). now split.
    - apply star_grows in Hs. apply step_grows in H1. destruct Hs as (_ & Hs1 & Hs). destruct H1 as (_ & H0 & H1).
      split; eapply prefix_trans; eassumption. }
  pose proof (writeFrameHeader_bytes h Hlen wg o w' ES) as HB.
  rewrite N.mod_small in HB by exact Hop. fold (header_wire h) in HB. destruct HB as ((q & Hq & Hqo & Hqm) & _).
  pose proof (keeps_writeFrameHeader h wg o w' ES) as [(_ & Hlg & _) _].
  change (w_log wg) with (w_log w) in Hlg. change (w_out wg) with (w_out w) in Hqo.
  assert (forall u, o <> Ub u) as Hu by (intros u; eapply nub_writeFrameHeader; exact ES).
  destruct Hp0 as [p Hp].
  destruct (run_halts react _ ARun (start_header h w) _ _ _ _ (or_introl eq_refl) Hio Har E Hh) as [[Hg Hh2]|(Hn & <- & <-)].
  - apply halts_grows in Hh2. rewrite Hw in Hh2. destruct Hh2 as (_ & H1 & H2).
    change (w_out (er w')) with (w_out w') in H2. change (w_log (er w')) with (w_log w') in H1.
    change (w_out (c_world (arrive (arrivals []) c))) with (w_out (c_world c)) in *.
    split; [|split].
    + exists p. split; [exact Hp|]. split.
      * eapply prefix_trans; [|exact Hq]. rewrite Hp, Hqo in H2. destruct H2 as [t Ht]. exists t.
        rewrite <- app_assoc in Ht. now apply app_inv_head in Ht.
      * destruct Hg as [-> | ->]; split; discriminate.
    + destruct Hg as [-> | ->]; discriminate.
    + rewrite Hlg in H1. now apply prefix_antisym.
  - rewrite Hw in *. change (w_out (er w')) with (w_out w') in *. change (w_log (er w')) with (w_log w').
    assert (p = q) as <- by (rewrite Hp in Hqo; now apply app_inv_head in Hqo).
    split; [|split; [|exact Hlg]].
    + exists p. split; [exact Hp|]. split; [exact Hq|]. split.
      * intros ->. destruct o; cbn in Hend; tauto.
      * intros e ->. destruct o; cbn in Hend; tauto.
    + intros u ->. destruct o; cbn in Hend; try tauto. eapply Hu; reflexivity.
Qed.
Print Assumptions C72_header_on_the_wire.

(** ... and if the connection takes the bytes, it finishes, under any fair schedule. *)
Theorem C72_header_completes : forall react h w,
  s_listening (w_sock w) = false -> io_only (w_in w) -> healthy (w_wr w) -> (0 <= h_len h < 2 ^ 63)%Z -> h_opcode h < 16 ->
  exists n, forall m, (n <= m)%nat -> forall st c, run react (ticks m) (ARun, start_header h w) = (st, c) ->
  st = ADone /\ w_out (c_world c) = w_out w ++ header_wire h.
Proof.
  intros react h w Hl Hio Hhe Hlen Hop.
  destruct (writeFrameHeader h w) as [o w'] eqn:ES.
  destruct (header_halts react h w o w' Hl Hio ES) as (st2 & c2 & Hh & Hend & Hw).
  destruct (C02_header_written h w o w' Hlen Hop Hhe ES) as (-> & Ho & _).
  destruct (halts_ticks react _ _ _ Hh Hio) as [n Hnn]. exists n. intros m Hm st c E.
  rewrite (Hnn _ _ Hm (or_introl eq_refl)) in E. injection E as <- <-.
  destruct st2; cbn in Hend; try tauto. split; [reflexivity|]. rewrite Hw. exact Ho.
Qed.
Print Assumptions C72_header_completes.

(** The header sendFrameHeaderAsync fills in, whatever its argument contained. *)
Definition filled (fin : bool) (opcode : N) (size : Z) (w : world) : bytes :=
  rfc_header (lform_min (Z.to_N size)) fin false false false opcode (next_key_opt w) (Z.to_N size).
Lemma start_send_header_eq h0 fin opcode size w :
  s_listening (w_sock w) = false -> opcode < 16 ->
  exists h w1, start_send_header h0 fin opcode size w = start_header h w1 /\ h_opcode h = opcode /\ h_len h = size /\
   header_wire h = filled fin opcode size w /\ w_out w1 = w_out w /\ w_in w1 = w_in w /\ w_wr w1 = w_wr w /\ w_log w1 = w_log w /\
   w_sock w1 = w_sock w /\ w_rpos w1 = (w_rpos w + drawn w)%nat.
Proof.
  intros Hl Hop. unfold start_send_header, sendFrameHeaderAsync. cbv zeta. cbn [h_hasMask].
  unfold filled, header_wire, start_header, next_key_opt, next_key, drawn, key_of.
  destruct (s_mask (w_sock w)) eqn:Hm.
  - eexists _, _. split; [reflexivity|]. repeat split.
    replace (w_rpos w + 1)%nat with (S (w_rpos w)) by lia. replace (w_rpos w + 2)%nat with (S (S (w_rpos w))) by lia.
    replace (w_rpos w + 3)%nat with (S (S (S (w_rpos w)))) by lia. reflexivity.
  - eexists _, _. split; [reflexivity|]. repeat split. lia.
Qed.

Theorem C72_send_header_on_the_wire : forall react h0 fin opcode size w evs st c,
  s_listening (w_sock w) = false -> io_only (w_in w) -> io_only (arrivals evs) -> (0 <= size < 2 ^ 63)%Z -> opcode < 16 ->
  run react evs (ARun, start_send_header h0 fin opcode size w) = (st, c) ->
  (exists p, w_out (c_world c) = w_out w ++ p /\ prefix p (filled fin opcode size w) /\
    (st = ADone -> p = filled fin opcode size w) /\ (forall e, st = AFail e -> p <> filled fin opcode size w)) /\
  (forall u, st <> AUb u) /\ w_log (c_world c) = w_log w.
Proof.
  intros react h0 fin opcode size w evs st c Hl Hio Har Hlen Hop E.
  destruct (start_send_header_eq h0 fin opcode size w Hl Hop) as (h & w1 & He & Ho & Hs & Hw & Hout & Hin & _ & Hlog & Hsk & _).
  rewrite He in E. rewrite <- Hw, <- Hout, <- Hlog.
  eapply C72_header_on_the_wire; try exact E; try assumption; try congruence; rewrite ?Hs, ?Ho, ?Hin, ?Hsk; assumption.
Qed.
Print Assumptions C72_send_header_on_the_wire.

Theorem C72_send_header_completes : forall react h0 fin opcode size w,
  s_listening (w_sock w) = false -> io_only (w_in w) -> healthy (w_wr w) -> (0 <= size < 2 ^ 63)%Z -> opcode < 16 ->
  exists n, forall m, (n <= m)%nat -> forall st c, run react (ticks m) (ARun, start_send_header h0 fin opcode size w) = (st, c) ->
  st = ADone /\ w_out (c_world c) = w_out w ++ filled fin opcode size w.
Proof.
  intros react h0 fin opcode size w Hl Hio Hhe Hlen Hop.
  destruct (start_send_header_eq h0 fin opcode size w Hl Hop) as (h & w1 & He & Ho & Hs & Hw & Hout & Hin & Hwr & Hlog & Hsk & _).
  rewrite He, <- Hw, <- Hout. apply C72_header_completes; rewrite ?Hs, ?Ho, ?Hin, ?Hsk, ?Hwr; assumption.
Qed.
Print Assumptions C72_send_header_completes.

Example C72_nonvacuous :
  let w := World [] [WAccept 1; WIo IoRetry; WAccept 2] [] (fun i => n2b (N.of_nat i)) 0 [] (sock_new true) in
  s_listening (w_sock w) = false /\ healthy (w_wr w) /\
  (match run echo (ticks 2) (ARun, start_send_header header_init true 2 300 w) with
   | (st, c) => st = ARun /\ w_out (c_world c) = [x82] end) /\
  (match run echo (ticks 20) (ARun, start_send_header header_init true 2 300 w) with
   | (st, c) => st = ADone /\ w_out (c_world c) = [x82; xfe; x01; x2c; x00; x01; x02; x03] /\ w_out (c_world c) = filled true 2 300 w end) /\
  (match run echo (ticks 20) (ARun, start_send_header header_init true 2 300 (set_wr w [] [WAccept 3; WIo IoBroken])) with
   | (st, c) => st = AFail ExAsyncIO /\ w_out (c_world c) = [x82; xfe] end).
Proof.
  cbv zeta. split; [reflexivity|]. split; [repeat constructor|]. split; [|split]; vm_compute; repeat split.
Qed.
