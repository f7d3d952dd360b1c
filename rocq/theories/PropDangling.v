(** C31: the data pointer of masked frames dangles, for every masked message. *)
From Verif Require Import Bytes Frame World WebSocket AsyncWebSocket SpecFrame SpecSend SpecListen SpecAsync
  ProofFrame ProofStream ProofSend ProofHeader ProofListen ProofReading ProofInv ProofAsync ProofAsync2 PropAsync.
From Coq Require Import ZifyBool ZifyNat ZifyN.
Local Open Scope N_scope.
Local Arguments takeN : simpl never.
Local Arguments dropN : simpl never.
Local Arguments lenN : simpl never.
Local Arguments be_enc : simpl never.
Local Arguments be_dec : simpl never.
Notation step := AsyncWebSocket.step.

Lemma star_ticks react c c' : star react c c' -> exists n, forall evs, run react (ticks n ++ evs) (ARun, c) = run react evs (ARun, c').
Proof.
  induction 1 as [c|a b c E _ [n IH]].
  - exists 0%nat. reflexivity.
  - exists (S n). intros evs. cbn [ticks app run tick]. rewrite E. apply IH.
Qed.

Lemma stuck react u evs : forall c, fst (run react evs (AUb u, c)) = AUb u.
Proof. induction evs as [|[|s] evs IH]; intros c; cbn [run tick fst snd]; [reflexivity|apply IH|apply IH]. Qed.
Lemma ticks_app n m : ticks (n + m) = ticks n ++ ticks m.
Proof. induction n; cbn; [reflexivity|now f_equal]. Qed.

(** A read on a connection that has bytes gets some, after finitely many retries. *)
Lemma payload_reads react l us al pr n h s K : 0 < n -> forall scr w, clean scr -> bytes_of scr <> [] -> w_in w = scr -> (Z.of_N n <= al)%Z ->
  exists d w', d <> [] /\ w_log w' = w_log w /\ w_sock w' = w_sock w /\
    star react (Conf h s (CoPayload l us al pr (RpReadData (Z.of_N n)) :: K) w) (Conf h s (CoPayload l us al pr (RpOnData d) :: K) w').
Proof.
  intros Hn. induction scr as [|e scr IH]; intros w Hc Hb Hw Hal; [now cbn in Hb|].
  inversion Hc as [|? ? He Hc']; subst.
  assert (forall r w1, readSomeAsyncInline (Z.of_N n) w = (r, w1) ->
     step react (Conf h s (CoPayload l us al pr (RpReadData (Z.of_N n)) :: K) w) =
     match r with
     | INext d => if (al <? Z.of_N (lenN d))%Z then (AUb UbOverflow, Conf h s [] w1) else (ARun, Conf h s (CoPayload l us al pr (RpOnData d) :: K) w1)
     | IAgain _ => (ARun, Conf h s (CoPayload l us al pr (RpReadData (Z.of_N n)) :: K) w1)
     | IWait => (AWait, Conf h s (CoPayload l us al pr (RpReadData (Z.of_N n)) :: K) w1)
     | IFail => fail ExAsyncIO (Conf h s K w1)
     end) as Hst.
  { intros r w1 Er. cbn [AsyncWebSocket.step step_payload]. rewrite Er. destruct r; reflexivity. }
  unfold readSomeAsyncInline in Hst. destruct (Z.leb_spec (Z.of_N n) 0); [lia|]. rewrite N2Z.id, Hw in Hst.
  destruct e as [b bs|[]|x]; cbn in He; try contradiction.
  - cbn [read_raw] in Hst. specialize (Hst _ _ eq_refl). cbv iota in Hst.
    assert (lenN (takeN n (b :: bs)) <= n) as Hle by (rewrite lenN_takeN; lia).
    destruct (Z.ltb_spec al (Z.of_N (lenN (takeN n (b :: bs))))); [lia|].
    destruct (takeN_cons n b bs Hn) as (x & xs & Ex).
    eexists _, _. split; [|split; [|split; [|apply star_one; exact Hst]]]; [rewrite Ex; discriminate|reflexivity|reflexivity].
  - cbn [read_raw] in Hst. specialize (Hst _ _ eq_refl). cbv iota in Hst.
    destruct (IH (set_sock (set_in w scr) (w_sock w)) Hc' Hb eq_refl Hal) as (d & w' & H1 & H2 & H3 & H4).
    exists d, w'. split; [exact H1|]. split; [exact H2|]. split; [exact H3|]. eapply star_trans; [apply star_one; exact Hst|exact H4].
Qed.

(** Every masked text or binary frame with a payload, in any segmentation, from any peer: if the coroutine returned by the
    listener's readMessage begins by looking at the data it was given, it looks at freed memory. *)
Theorem C31_masked_refuted : forall react w l k lf f rest,
  s_listening (w_sock w) = false -> s_listener (w_sock w) = Some l -> (0 < s_buf (w_sock w))%Z -> open_of (w_sock w) = false ->
  clean (w_in w) -> bytes_of (w_in w) = wire lf f ++ rest ->
  f_opcode f = 1 \/ f_opcode f = 2 -> f_key f = Some k -> f_payload f <> [] -> lform_ok lf (lenN (f_payload f)) = true ->
  (forall d, exists cs, react l (w_log w ++ [(l, EvMsg (f_opcode f) d)]) = CUseData :: cs) ->
  exists n, forall evs, fst (run react (ticks n ++ evs) (ARun, start_listen w)) = AUb UbDangling.
Proof.
  intros react w l k lf f rest Hfl Hli HB Hop Hcl Hb Hopc Hkey Hp Hlf Hre.
  assert (er w = w) as Her by (unfold er; destruct w as [? ? ? ? ? ? []]; cbn in *; now subst).
  assert (io_only (w_in w)) as Hio.
  { eapply Forall_impl; [|exact Hcl]. intros [b bs|[]|x]; cbn; tauto. }
  destruct (readFrameHeader header_init w) as [o w1] eqn:E.
  pose proof E as E0. apply readFrameHeader_spec in E0. destruct E0 as [Hro E0].
  assert (rd_header (bytes_of (w_in w)) = Some (finfo_of f, masked_opt (f_key f) (f_payload f) ++ rest)) as Hrd.
  { rewrite Hb. apply rd_header_wire; [destruct Hopc as [-> | ->]; reflexivity|exact Hlf]. }
  destruct Hro as (R1 & R2 & R3 & R4 & R5 & R6 & R7).
  destruct (R6 (fun k => k = w_sock w) no_ext any_err) as [Hio1 Hsk]; [intros x y []|exact Hio|reflexivity|].
  assert (clean (w_in w1)) as Hcl1.
  { destruct (R6 (fun _ => True) no_ext (fun e => e = IoRetry)) as [Hc1 _]; [auto| |exact I|].
    - eapply Forall_impl; [|exact Hcl]. intros [b bs|[]|x]; cbn; tauto.
    - eapply Forall_impl; [|exact Hc1]. intros [b bs|[]|x]; cbn; try tauto; discriminate. }
  destruct o as [h|e| |u|]; [| | |contradiction|contradiction].
  2: { exfalso. apply E0. eapply Forall_impl; [|exact Hcl]. intros [b bs|[]|x]; cbn; tauto. }
  2: { destruct E0 as [_ E0]. congruence. }
  destruct E0 as (i & Hi & Hm & _). rewrite Hrd in Hi. injection Hi as <- Hb1.
  destruct Hm as (M1 & _ & M3 & M4 & M5 & _ & _). cbn [finfo_of i_fin i_opcode i_key i_len] in *.
  assert (h_hasMask h = true) as Hmask by (rewrite Hkey in M4; destruct (h_hasMask h); [reflexivity|discriminate]).
  assert (lenN (f_payload f) < 2 ^ 63) as H63 by (eapply lform_ok_63; exact Hlf).
  assert (0 < lenN (f_payload f)) as Hpos by (destruct (f_payload f); [congruence|rewrite lenN_cons; lia]).
  rewrite to_i64_small in M5 by exact H63.
  assert (er w1 = w1) as Her1 by (unfold er; destruct w1 as [? ? ? ? ? ? []], w as [? ? ? ? ? ? []]; cbn in *; inversion Hsk; now subst).
  (* up to the handler *)
  set (L0 := CoHandle (Some l) HfAct).
  eapply (readFrameHeader_sim react (s_listening (w_sock w)) (s_listener (w_sock w)) (s_buf (w_sock w)) true header_init (c_hdr (start_listen w)) [] [L0; CoListen]) in E;
    [|split; [exact Hio|repeat (split; [reflexivity|]); intros; discriminate]|reflexivity|reflexivity].
  cbn [sim] in E. destruct E as (_ & hh & ss & [-> ->] & S1). rewrite Her, Her1 in S1.
  assert (star react (start_listen w) (Conf h [] [L0; CoListen] w1)) as S0.
  { econstructor; [|exact S1]. unfold start_listen. cbn [AsyncWebSocket.step h_opcode]. rewrite Hli. reflexivity. }
  (* the handler starts reading the payload *)
  set (w2 := snd (checkForContinuationA h w1)).
  set (want := if (h_len h <? s_buf (w_sock w))%Z then h_len h else s_buf (w_sock w)).
  assert (step react (Conf h [] [L0; CoListen] w1) = (ARun, Conf h [] [CoPayload (Some l) false (s_buf (w_sock w)) 0 RpAct; CoHandle (Some l) HfFinish; CoListen] w2) /\
          w_log w2 = w_log w /\ w_in w2 = w_in w1 /\ s_buf (w_sock w2) = s_buf (w_sock w)) as (S2 & Hlog2 & Hin2 & Hbuf2).
  { assert (checkForContinuationA h w1 = (true, w2)) as Hck.
    { unfold w2, checkForContinuationA. rewrite Hsk. unfold open_of in Hop.
      destruct (_ || _)%bool eqn:Eo; [exfalso; lia|reflexivity]. }
    assert (w_sock w2 = set_last (w_sock w) (if h_fin h then -1 else Z.of_N (h_opcode h)) /\ w_log w2 = w_log w1 /\ w_in w2 = w_in w1) as (K1 & K2 & K3).
    { revert Hck. unfold checkForContinuationA. destruct (_ || _)%bool; [discriminate|]. intros Hck. injection Hck as <-. cbn. rewrite Hsk. auto. }
    split; [|split; [congruence|split; [exact K3|rewrite K1; reflexivity]]].
    unfold L0. cbn [AsyncWebSocket.step]. unfold step_handle. cbv zeta. rewrite M3, Hck. unfold readPayloadAsync. rewrite K1. cbn [set_last s_buf s_listener andb].
    rewrite Hli. destruct (Z.ltb_spec (s_buf (w_sock w)) 0); [lia|]. destruct Hopc as [-> | ->]; reflexivity. }
  assert (step react (Conf h [] [CoPayload (Some l) false (s_buf (w_sock w)) 0 RpAct; CoHandle (Some l) HfFinish; CoListen] w2) =
    (ARun, Conf h [] [CoPayload (Some l) false (s_buf (w_sock w)) 0 (RpReadData (Z.of_N (Z.to_N want))); CoHandle (Some l) HfFinish; CoListen] w2)) as S3.
  { cbn [AsyncWebSocket.step step_payload]. rewrite Hbuf2, Z.sub_0_r. destruct (Z.ltb_spec 0 (h_len h)); [|lia].
    rewrite Z2N.id by (unfold want; destruct (_ <? _)%Z; lia). reflexivity. }
  destruct (payload_reads react (Some l) false (s_buf (w_sock w)) 0 (Z.to_N want) h [] [CoHandle (Some l) HfFinish; CoListen]) with (scr := w_in w1) (w := w2)
    as (d & w3 & D1 & D2 & D3 & S4).
  - unfold want; destruct (_ <? _)%Z; lia.
  - exact Hcl1.
  - rewrite <- Hb1. intros Hnil. apply app_eq_nil in Hnil. destruct Hnil as [Hnil _]. apply (f_equal lenN) in Hnil.
    rewrite lenN_masked_opt in Hnil. change (lenN []) with 0 in Hnil. lia.
  - exact Hin2.
  - unfold want; destruct (Z.ltb_spec (h_len h) (s_buf (w_sock w))); lia.
  - destruct d as [|b d]; [congruence|].
    set (dd := xor_from (h_mask h) 0 (b :: d)).
    destruct (Hre dd) as [cs Hcs].
    assert (star react (start_listen w) (Conf h [] [CoPayload (Some l) false (s_buf (w_sock w)) 0 (RpOnData (b :: d)); CoHandle (Some l) HfFinish; CoListen] w3)) as S5.
    { eapply star_trans; [exact S0|]. econstructor; [exact S2|]. econstructor; [exact S3|exact S4]. }
    apply star_ticks in S5. destruct S5 as [n Hn]. exists (n + 2)%nat. intros evs.
    rewrite ticks_app, <- app_assoc, Hn. cbn [ticks app run tick].
    cbn [AsyncWebSocket.step step_payload]. rewrite Hmask. cbn [call_listener]. change (Z.to_N 0) with 0. fold dd. rewrite M3.
    cbn [set_log w_log]. rewrite D2, Hlog2, Hcs. cbn [tick AsyncWebSocket.step step_user].
    apply stuck.
Qed.
Print Assumptions C31_masked_refuted.

(** The client's frame of C31_masked_witness, in two segments with a retry between them. *)
Example C31_masked_nonvacuous :
  let w := aworld [RData x81 [x81; x01; x02]; RIo IoRetry; RData x03 [x04; x60; x89]] [] in
  let f := RFrame true false false false 1 (Some (Mask4 x01 x02 x03 x04)) [x61] in
  clean (w_in w) /\ bytes_of (w_in w) = wire L7 f ++ [x89] /\ lform_ok L7 (lenN (f_payload f)) = true /\ open_of (w_sock w) = false /\
  (forall d, exists cs, user 7%nat (w_log w ++ [(7%nat, EvMsg (f_opcode f) d)]) = CUseData :: cs) /\
  fst (run user (ticks 20) (ARun, start_listen w)) = AUb UbDangling.
Proof.
  cbv zeta. split; [repeat constructor|]. split; [reflexivity|]. split; [reflexivity|]. split; [reflexivity|]. split; [intros d; exists []; reflexivity|].
  vm_compute. reflexivity.
Qed.
