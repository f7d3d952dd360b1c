(** Proofs about a message object that is changed while it is being sent. *)
From Verif Require Import Bytes Frame World WebSocket AsyncWebSocket Concurrent SpecFrame SpecSend SpecAsync ProofFrame ProofReading ProofConcurrent ProofCoroutines Message SpecMessage.
Local Open Scope N_scope.
Local Arguments takeN : simpl never. Local Arguments dropN : simpl never. Local Arguments lenN : simpl never.
Local Arguments be_enc : simpl never. Local Arguments be_dec : simpl never. Local Arguments packHeaderBits : simpl never.

Lemma woven_mono cs cs' b : incl cs cs' -> woven cs b -> woven cs' b.
Proof.
  intros Hi [(d & Hd & Hl) H]. split; [exists d; auto|]. intros i x Hx. destruct (H i x Hx) as (d' & H1 & H2). exists d'. auto.
Qed.
Lemma woven_self cs d : In d cs -> woven cs d.
Proof. intros H. split; [exists d; auto|]. intros i x Hx. exists d. auto. Qed.
Lemma nth_error_dropN {A} n (l : list A) i : nth_error (dropN n l) i = nth_error l (N.to_nat n + i).
Proof.
  rewrite dropN_skipn. revert l. induction (N.to_nat n) as [|k IH]; intros l; [reflexivity|]. destruct l as [|x l]; cbn [skipn Nat.add nth_error]; [now destruct i|apply IH].
Qed.
(** Replacing what follows the first bytes by what follows them in another content of that size. *)
Lemma woven_splice cs q t d : woven cs (q ++ t) -> In d cs -> lenN q + lenN t = lenN d -> woven cs (q ++ dropN (lenN q) d).
Proof.
  intros [_ H] Hd Hl. split.
  - exists d. split; [exact Hd|]. rewrite lenN_app, lenN_dropN. lia.
  - intros i b Hb. destruct (Nat.lt_ge_cases i (length q)) as [Hi|Hi].
    + rewrite nth_error_app1 in Hb by exact Hi. apply H. now rewrite nth_error_app1.
    + rewrite nth_error_app2 in Hb by exact Hi. exists d. split; [exact Hd|]. rewrite nth_error_dropN in Hb. rewrite <- Hb. f_equal. unfold lenN. lia.
Qed.

Section Inv.
Variables (react : react_t) (op : sendop) (w0 : world) (m0 : bytes).
Hypothesis Hargs : send_args op = (req_fin op, req_opcode op, Some m0).
Notation fin := (req_fin op).
Notation opcode := (req_opcode op).
Notation key := (next_key_opt w0).
Definition hdr_for (n : N) : bytes := rfc_header (lform_min n) fin false false false (opcode mod 16) key n.
Definition hok (h : header) : Prop := h_hasMask h = s_mask (w_sock w0) /\ (h_hasMask h = true -> h_mask h = next_key w0).
Definition okbody (C : list bytes) (b : bytes) : Prop := if s_mask (w_sock w0) then In b C else woven C b.
Lemma okbody_self C b : In b C -> okbody C b.
Proof. unfold okbody. destruct (s_mask _); [auto|apply woven_self]. Qed.
Lemma okbody_mono C C' b : incl C C' -> okbody C b -> okbody C' b.
Proof. unfold okbody. intros H. destruct (s_mask _); [apply H|now apply woven_mono]. Qed.

Definition after (a : bytes) : sf_pc := match a with [] => SfFinish | _ => SfPrepare end.
Inductive J (N0 C : list bytes) : list cor -> world -> bool -> Prop :=
| J_act cur w : In cur N0 -> In cur C -> w_out w = w_out w0 -> w_sock w = w_sock w0 -> w_rnd w = w_rnd w0 -> w_rpos w = w_rpos w0 ->
    J N0 C [CoSend fin opcode (Some cur) header_init SfAct] w false
| J_head h p a cur q w : In a N0 -> In cur C -> (a = [] -> In [] C) -> hok h -> q ++ concat (wf_left h p) = hdr_for (lenN a) -> w_out w = w_out w0 ++ q ->
    J N0 C [CoWrite h p; CoSend fin opcode (Some cur) h (after a)] w false
| J_prep h a cur w : In a N0 -> In cur C -> hok h -> w_out w = w_out w0 ++ hdr_for (lenN a) ->
    J N0 C [CoSend fin opcode (Some cur) h SfPrepare] w false
| J_fin h cur w : In [] N0 -> In [] C -> In cur C -> w_out w = w_out w0 ++ hdr_for 0 ->
    J N0 C [CoSend fin opcode (Some cur) h SfFinish] w false
| J_masked h a d cur q rest w : In a N0 -> In cur C -> In d C -> s_mask (w_sock w0) = true -> hok h -> q ++ rest = masked_opt key d ->
    w_out w = w_out w0 ++ hdr_for (lenN a) ++ q ->
    J N0 C [CoSend fin opcode (Some cur) h (SfWrite rest)] w false
| J_plain h a cur q rest w g : In a N0 -> In cur C -> s_mask (w_sock w0) = false -> hok h -> woven C (q ++ rest) ->
    (g = false -> rest = dropN (lenN q) cur /\ lenN q + lenN rest = lenN cur) ->
    w_out w = w_out w0 ++ hdr_for (lenN a) ++ q ->
    J N0 C [CoSend fin opcode (Some cur) h (SfWrite rest)] w g
| J_end a body w g : In a N0 -> okbody C body -> w_out w = w_out w0 ++ hdr_for (lenN a) ++ masked_opt key body ->
    J N0 C [] w g.

(** What is known of a run that has come to an end before the frame was written. *)
Definition cut (strict : bool) (N0 C : list bytes) (w : world) : Prop :=
  exists a body q r, In a N0 /\ okbody C body /\ hdr_for (lenN a) ++ masked_opt key body = q ++ r /\ (strict = true -> r <> []) /\ w_out w = w_out w0 ++ q.

Definition JJ (N0 C : list bytes) (s : mstate) : Prop :=
  match x_st s with
  | ARun | AWait => J N0 C (c_stack (x_conf s)) (c_world (x_conf s)) (x_gone s)
  | ADone => c_stack (x_conf s) = [] /\ J N0 C [] (c_world (x_conf s)) (x_gone s)
  | AFail e => e = ExAsyncIO /\ c_stack (x_conf s) = [] /\ cut true N0 C (c_world (x_conf s))
  | AUb u => u = UbDangling /\ s_mask (w_sock w0) = false /\ x_gone s = true /\ cut true N0 C (c_world (x_conf s))
  end.

Lemma J_cut N0 C st w g : J N0 C st w g -> cut (match st with CoSend _ _ _ _ (SfWrite (_ :: _)) :: _ => true | _ => false end) N0 C w.
Proof.
  destruct 1.
  - exists cur, cur, []. eexists. split; [assumption|]. split; [now apply okbody_self|]. split; [reflexivity|]. split; [discriminate|]. now rewrite app_nil_r.
  - exists a, cur, q, (concat (wf_left h p) ++ masked_opt key cur). split; [assumption|]. split; [now apply okbody_self|]. split; [rewrite <- H3; now rewrite <- app_assoc|]. split; [discriminate|assumption].
  - exists a, cur, (hdr_for (lenN a)). eexists. split; [assumption|]. split; [now apply okbody_self|]. split; [reflexivity|]. split; [discriminate|assumption].
  - exists [], [], (hdr_for 0). eexists. split; [assumption|]. split; [now apply okbody_self|]. split; [reflexivity|]. split; [discriminate|assumption].
  - exists a, d, (hdr_for (lenN a) ++ q), rest. split; [assumption|]. split; [now apply okbody_self|]. split; [rewrite <- app_assoc; now f_equal|]. split; [|assumption]. destruct rest; discriminate.
  - exists a, (q ++ rest), (hdr_for (lenN a) ++ q), rest. split; [assumption|]. split; [unfold okbody; now rewrite H1|]. split; [|split; [|assumption]].
    + unfold next_key_opt. rewrite H1. cbn [masked_opt]. now rewrite <- app_assoc.
    + destruct rest; discriminate.
  - exists a, body, (hdr_for (lenN a) ++ masked_opt key body), []. split; [assumption|]. split; [assumption|]. split; [now rewrite app_nil_r|]. split; [discriminate|assumption].
Qed.

Lemma cut_mono b N0 C N1 C1 w : incl N0 N1 -> incl C C1 -> cut b N0 C w -> cut b N1 C1 w.
Proof. intros HN HC (a & bd & q & r & H1 & H2 & H3 & H4 & H5). exists a, bd, q, r. split; [auto|]. split; [now apply (okbody_mono C)|]. auto. Qed.

(** The application changes the object. *)
Lemma J_changed N0 C st w g d live (b : bool) : J N0 C st w g -> (live = true -> g = false) ->
  (live = true -> b = negb (forallb (same_size d) st)) -> (live = false -> b = true \/ g = true) ->
  J (N0 ++ [d]) (C ++ [d]) (map (changed live d) st) w (g || b && existsb points_into st).
Proof.
  intros HJ Hlive Hb1 Hb2.
  assert (forall x, In x N0 -> In x (N0 ++ [d])) as HN by (intros; apply in_or_app; auto).
  assert (forall x, In x C -> In x (C ++ [d])) as HC by (intros; apply in_or_app; auto).
  assert (In d (N0 ++ [d])) as Hd1 by (apply in_or_app; cbn; auto).
  assert (In d (C ++ [d])) as Hd2 by (apply in_or_app; cbn; auto).
  destruct HJ; cbn [map changed existsb points_into orb andb] in *.
  - rewrite andb_false_r. apply J_act; auto.
  - destruct a as [|x a]; cbn [after orb]; rewrite andb_false_r; [eapply (J_head _ _ h p [] d q)|eapply (J_head _ _ h p (x :: a) d q)]; auto.
  - rewrite andb_false_r. eapply (J_prep _ _ h a); auto.
  - rewrite andb_false_r. eapply J_fin; eauto.
  - replace (h_hasMask h) with true by (destruct H3 as [-> _]; auto). cbn [negb andb orb]. rewrite !andb_false_r. cbn [andb]. rewrite ?andb_false_r. eapply (J_masked _ _ h a d0 d q rest); auto.
  - destruct H2 as [Hh1 Hh2]. rewrite Hh1, H1 in *. cbn [negb andb orb forallb same_size] in *.
    assert (hok h) as Hh by (split; congruence).
    assert (woven (C ++ [d]) (q ++ rest)) as Hw by (eapply woven_mono; [|eassumption]; exact HC).
    rewrite !andb_true_r in *. destruct live; cbn [andb].
    + rewrite (Hlive eq_refl) in *. rewrite (Hb1 eq_refl). cbn [orb]. destruct (H4 eq_refl) as (Hr & Hl).
      destruct (lenN d =? lenN cur) eqn:El; cbn [negb].
      * assert (lenN cur - lenN rest = lenN q) as -> by lia.
        eapply (J_plain _ _ h a d q (dropN (lenN q) d)); auto.
        -- eapply woven_splice; eauto. lia.
        -- intros _. split; [reflexivity|]. rewrite lenN_dropN. lia.
      * eapply (J_plain _ _ h a d q rest); auto. discriminate.
    + replace (g || b) with true by (destruct (Hb2 eq_refl) as [-> | ->]; [now rewrite orb_true_r|reflexivity]).
      eapply (J_plain _ _ h a d q rest); auto. discriminate.
  - apply (J_end _ _ a body); auto. eapply okbody_mono; [|eassumption]. exact HC.
Qed.

Lemma J_nil N0 C N1 C1 w g g' : incl N0 N1 -> incl C C1 -> J N0 C [] w g -> J N1 C1 [] w g'.
Proof. intros HN HC HJ. inversion HJ as [| | | | | |a body w1 g1 Ha Hb Hw]. eapply (J_end _ _ a body); [auto|eapply okbody_mono; eassumption|assumption]. Qed.

Lemma JJ_changed N0 C s e : shares op = true -> JJ N0 C s -> JJ (N0 ++ given e) (C ++ given e) (match e with MTick => s | _ => mstep react op e s end).
Proof.
  intros Hsh H. destruct e as [|d|d]; cbn [given]; [now rewrite !app_nil_r| |].
  all: assert (incl N0 (N0 ++ [d])) as HN by (intros ? ?; apply in_or_app; auto).
  all: assert (incl C (C ++ [d])) as HC by (intros ? ?; apply in_or_app; auto).
  all: unfold mstep; rewrite Hsh; unfold JJ in *; destruct s as [st [hd sh stk w] g]; cbn [x_st x_conf x_gone c_stack c_world change c_hdr c_short] in *.
  - assert (J N0 C stk w g -> J (N0 ++ [d]) (C ++ [d]) (map (changed (negb g) d) stk) w (g || negb (forallb (same_size d) stk) && existsb points_into stk)) as HJ.
    { intros HJ. eapply J_changed; [exact HJ| | |]; destruct g; cbn [negb]; auto; discriminate. }
    destruct st; try (exact (HJ H)).
    + destruct H as [-> H]. split; [reflexivity|]. eapply J_nil; eassumption.
    + destruct H as (-> & -> & H). split; [reflexivity|]. split; [reflexivity|]. eapply cut_mono; eassumption.
    + destruct H as (-> & Hm & -> & H). split; [reflexivity|]. split; [exact Hm|]. split; [reflexivity|]. eapply cut_mono; eassumption.
  - assert (J N0 C stk w g -> J (N0 ++ [d]) (C ++ [d]) (map (changed false d) stk) w (g || existsb points_into stk)) as HJ.
    { intros HJ. apply (J_changed N0 C stk w g d false true HJ); auto; discriminate. }
    destruct st; try (exact (HJ H)).
    + destruct H as [-> H]. split; [reflexivity|]. eapply J_nil; eassumption.
    + destruct H as (-> & -> & H). split; [reflexivity|]. split; [reflexivity|]. eapply cut_mono; eassumption.
    + destruct H as (-> & Hm & -> & H). split; [reflexivity|]. split; [exact Hm|]. split; [reflexivity|]. eapply cut_mono; eassumption.
Qed.

(** The executor runs the coroutine. *)
Lemma header_left cur w : lenN cur < 2 ^ 63 -> size_ok w cur ->
  w_sock w = w_sock w0 -> w_rnd w = w_rnd w0 -> w_rpos w = w_rpos w0 ->
  let h := fst (frame_header fin opcode (Some cur) w) in
  concat (wf_left h (WfAct (be_enc 2 (fst (packHeaderBits h))))) = hdr_for (lenN cur) /\ hok h.
Proof.
  intros Hl Hz Hs Hr Hp. cbv zeta.
  assert (next_key_opt w = key) as Hk by (unfold next_key_opt, next_key; now rewrite Hs, Hr, Hp).
  assert (hok (fst (frame_header fin opcode (Some cur) w))) as Hh.
  { unfold hok, frame_header. rewrite <- Hs. destruct (s_mask (w_sock w)) eqn:Em; cbn [fst set_mask h_hasMask h_mask]; [|split; congruence].
    split; [congruence|]. intros _. unfold next_key, mask_of. rewrite Hr, Hp. cbn [seq map]. rewrite !Nat.add_succ_r, Nat.add_0_r. reflexivity. }
  split; [|exact Hh].
  pose proof (concat_writes fin opcode (Some cur) w Hl Hz) as HC. rewrite writes_left, concat_app, Hk in HC. cbn [msg_of] in HC.
  unfold raw_wire, wire, raw_frame in HC. cbn [f_fin f_rsv1 f_rsv2 f_rsv3 f_opcode f_key f_payload] in HC. fold (hdr_for (lenN cur)) in HC.
  assert (concat (payload_write (fst (frame_header fin opcode (Some cur) w)) (Some cur)) = masked_opt key cur) as Hpw.
  { unfold payload_write. destruct Hh as [Hh1 Hh2]. unfold next_key_opt. rewrite Hh1. destruct cur as [|x cur]; [now destruct (s_mask (w_sock w0))|].
    destruct (s_mask (w_sock w0)) eqn:Em; cbn [concat masked_opt]; rewrite app_nil_r; [|reflexivity]. rewrite xor_from_rfc. rewrite Hh2 by congruence. reflexivity. }
  rewrite Hpw in HC. exact (app_inv_tail _ _ _ HC).
Qed.

Lemma tick_J N0 C hd sh stk w g :
  sizes_ok w0 N0 -> sizes_ok w0 C -> J N0 C stk w g -> (g && reads_pointer (Conf hd sh stk w))%bool = false ->
  let r := step react (Conf hd sh stk w) in JJ N0 C (MState (fst r) (snd r) g).
Proof.
  intros HN HC HJ Hg. cbv zeta. destruct HJ.
  - (* SfAct *)
    unfold sizes_ok in HN. rewrite Forall_forall in HN. destruct (HN _ H) as [Hl Hz].
    assert (size_ok w cur) as Hz' by (unfold size_ok in *; now rewrite H2).
    destruct (header_left cur w Hl Hz' H2 H3 H4) as [E1 E2]. cbv zeta in E1, E2.
    set (h := fst (frame_header fin opcode (Some cur) w)) in *.
    assert (forall w', w_out w' = w_out w -> JJ N0 C (MState ARun (Conf hd sh [CoWrite h (WfAct (be_enc 2 (fst (packHeaderBits h)))); CoSend fin opcode (Some cur) h (after cur)] w') false)) as HH.
    { intros w' Hw'. unfold JJ. cbn [x_st x_conf x_gone c_stack c_world]. eapply (J_head N0 C h _ cur cur []); auto.
      - now intros ->. - now rewrite Hw', app_nil_r. }
    cbn [step step_send]. unfold sendFrameHeaderAsync. unfold h, frame_header in HH.
    destruct cur as [|x cur]; destruct (s_mask (w_sock w)) eqn:Em; cbn [h_hasMask]; apply HH; reflexivity.
  - (* the header *)
    cbn [step]. unfold step_writeFrame.
    assert (Hgo : forall p' q' w', q' ++ concat (wf_left h p') = hdr_for (lenN a) -> w_out w' = w_out w0 ++ q' ->
       JJ N0 C (MState ARun (Conf hd sh [CoWrite h p'; CoSend fin opcode (Some cur) h (after a)] w') false)).
    { intros p' q' w' E1 E2. unfold JJ. cbn [x_st x_conf x_gone c_stack c_world]. eapply (J_head N0 C h p' a cur q'); auto. }
    assert (Hfin : forall q' w', q' = hdr_for (lenN a) -> w_out w' = w_out w0 ++ q' ->
       JJ N0 C (MState ARun (Conf hd sh [CoSend fin opcode (Some cur) h (after a)] w') false)).
    { intros q' w' -> E2. unfold JJ. cbn [x_st x_conf x_gone c_stack c_world]. destruct a as [|x a]; [eapply J_fin|eapply (J_prep _ _ h (x :: a))]; auto. }
    assert (HW : forall d P r, 
       q ++ d ++ r = hdr_for (lenN a) -> p = P d -> (forall d', concat (wf_left h (P d')) = d' ++ r) ->
       forall X, (d = [] -> JJ N0 C (MState ARun (X w) false)) ->
       let R := match writeExactAsyncInline d w with
         | (INext _, w') => (ARun, X w')
         | (IAgain d', w') => (ARun, Conf hd sh [CoWrite h (P d'); CoSend fin opcode (Some cur) h (after a)] w')
         | (IWait, w') => (AWait, Conf hd sh [CoWrite h p; CoSend fin opcode (Some cur) h (after a)] w')
         | (IFail, w') => fail ExAsyncIO (Conf hd sh [CoSend fin opcode (Some cur) h (after a)] w')
         end in JJ N0 C (MState (fst R) (snd R) false)).
    { intros d P r Hq Hp HP X HX. cbv zeta. pose proof (write_full w d) as Hwf. destruct (writeExactAsyncInline d w) as [[x|d'| |] w'] eqn:Ewr.
      - destruct Hwf as [-> ->]. now apply HX.
      - destruct Hwf as (b & -> & W1 & W2 & W3 & W4 & W5). cbn [fst snd]. eapply (Hgo (P d') (q ++ b)).
        + rewrite HP, <- Hq, <- !app_assoc. reflexivity.
        + now rewrite W1, H4, app_assoc.
      - destruct Hwf as [-> Hwf]. cbn [fst snd]. unfold JJ. cbn [x_st x_conf x_gone c_stack c_world]. eapply (J_head N0 C h p a cur q); auto.
      - destruct Hwf as (W1 & _). unfold fail. cbn [c_stack unwind c_hdr c_short c_world fst snd]. unfold JJ. cbn [x_st x_conf x_gone c_stack c_world].
        split; [reflexivity|]. split; [reflexivity|]. exists a, cur, q, (concat (wf_left h p) ++ masked_opt key cur). split; [assumption|]. split; [now apply okbody_self|].
        split; [rewrite <- H3; now rewrite <- app_assoc|]. split; [|congruence]. intros _. rewrite Hp, HP. destruct d; [discriminate Ewr|discriminate]. }
    destruct p as [d| |d| |d]; cbn [wf_left concat] in H3.
    + refine (HW d WfAct (concat (len_write h ++ mask_write h)) H3 eq_refl (fun _ => eq_refl) (fun w' => Conf hd sh [CoWrite h WfOnBb; CoSend fin opcode (Some cur) h (after a)] w') _).
      intros ->. apply (Hgo WfOnBb q w); [exact H3|exact H4].
    + unfold len_write in H3. destruct (snd (packHeaderBits h) =? 2); [|destruct (snd (packHeaderBits h) =? 3)]; cbn [fst snd].
      * apply (Hgo (WfWriteLen _) q w); [exact H3|exact H4].
      * apply (Hgo (WfWriteLen _) q w); [exact H3|exact H4].
      * apply (Hgo WfOnLen q w); [exact H3|exact H4].
    + refine (HW d WfWriteLen (concat (mask_write h)) H3 eq_refl (fun _ => eq_refl) (fun w' => Conf hd sh [CoWrite h WfOnLen; CoSend fin opcode (Some cur) h (after a)] w') _).
      intros ->. apply (Hgo WfOnLen q w); [exact H3|exact H4].
    + unfold mask_write in H3. destruct (h_hasMask h); cbn [fst snd].
      * apply (Hgo (WfWriteMask _) q w); [exact H3|exact H4].
      * apply (Hfin q w); [|exact H4]. cbn [concat] in H3. now rewrite app_nil_r in H3.
    + refine (HW d WfWriteMask [] H3 eq_refl (fun _ => eq_refl) (fun w' => Conf hd sh [CoSend fin opcode (Some cur) h (after a)] w') _).
      intros ->. apply (Hfin q w); [|exact H4]. cbn [app] in H3. now rewrite app_nil_r in H3.
  - (* SfPrepare *)
    cbn [step step_send]. destruct H1 as [Hh1 Hh2]. assert (hok h) as Hh by (split; assumption). rewrite Hh1 in *.
    unfold sizes_ok in HC. rewrite Forall_forall in HC. destruct (HC _ H0) as [Hl Hz].
    destruct (s_mask (w_sock w0)) eqn:Em.
    + replace (2 ^ 31 <=? lenN cur) with false by (symmetry; apply N.leb_gt; exact (Hz Em)).
      unfold JJ. cbn [fst snd x_st x_conf x_gone c_stack c_world]. eapply (J_masked _ _ h a cur cur []); auto.
      * cbn [app]. unfold next_key_opt. rewrite Em. cbn [masked_opt]. rewrite xor_from_rfc, Hh2; reflexivity.
      * now rewrite app_nil_r.
    + unfold JJ. cbn [fst snd x_st x_conf x_gone c_stack c_world]. eapply (J_plain _ _ h a cur [] cur); auto.
      * now apply woven_self.
      * intros _. split; [now rewrite dropN_0|]. change (lenN (@nil byte)) with 0. lia.
      * now rewrite app_nil_r.
  - cbn [step step_send]. unfold JJ. cbn [fst snd x_st x_conf x_gone c_stack c_world]. eapply (J_end _ _ [] []); [auto|now apply okbody_self|].
    change (lenN (@nil byte)) with 0. rewrite H2. f_equal. now destruct key; rewrite app_nil_r.
  - (* masked *)
    cbn [step step_send]. pose proof (write_full w rest) as Hwf. destruct (writeExactAsyncInline rest w) as [[x|d'| |] w'] eqn:Ewr.
    + destruct Hwf as [-> ->]. unfold JJ. cbn [fst snd x_st x_conf x_gone c_stack c_world]. rewrite app_nil_r in H4. subst q.
      eapply (J_end _ _ a d); auto. now apply okbody_self.
    + destruct Hwf as (b & -> & W1 & W2 & W3 & W4 & W5). unfold JJ. cbn [fst snd x_st x_conf x_gone c_stack c_world].
      eapply (J_masked _ _ h a d cur (q ++ b)); auto. { now rewrite <- app_assoc. } now rewrite W1, H5, <- !app_assoc.
    + destruct Hwf as [-> _]. unfold JJ. cbn [fst snd x_st x_conf x_gone c_stack c_world]. eapply (J_masked _ _ h a d cur q); auto.
    + destruct Hwf as (W1 & _). unfold fail. cbn [c_stack unwind c_hdr c_short c_world fst snd]. unfold JJ. cbn [x_st x_conf x_gone c_stack c_world].
      split; [reflexivity|]. split; [reflexivity|]. exists a, d, (hdr_for (lenN a) ++ q), rest. split; [assumption|]. split; [now apply okbody_self|]. split; [rewrite <- app_assoc; now f_equal|]. split; [|congruence].
      destruct rest; [discriminate Ewr|discriminate].
  - (* not masked *)
    assert (rest <> [] -> cut true N0 C w) as Hcut.
    { intros Hr. assert (J N0 C [CoSend fin opcode (Some cur) h (SfWrite rest)] w g) as HJ by (eapply (J_plain _ _ h a cur q rest); eassumption).
      apply J_cut in HJ. destruct rest; [contradiction|exact HJ]. }
    cbn [step step_send]. pose proof (write_full w rest) as Hwf. destruct (writeExactAsyncInline rest w) as [[x|d'| |] w'] eqn:Ew.
    + destruct Hwf as [-> ->]. unfold JJ. cbn [fst snd x_st x_conf x_gone c_stack c_world]. rewrite app_nil_r in H3.
      eapply (J_end _ _ a q); auto. { unfold okbody. now rewrite H1. } unfold next_key_opt. now rewrite H1.
    + destruct rest as [|r0 rest]; [discriminate|].
      assert (g = false) as ->. { destruct g; [|reflexivity]. cbn [andb reads_pointer c_stack] in Hg. destruct H2 as [Hh _]. rewrite Hh, H1 in Hg. discriminate. }
      destruct (H4 eq_refl) as (Hd & Hl).
      destruct Hwf as (b & Eb & W1 & W2 & W3 & W4 & W5). unfold JJ. cbn [fst snd x_st x_conf x_gone c_stack c_world].
      eapply (J_plain _ _ h a cur (q ++ b) d'); auto.
      * now rewrite <- app_assoc, <- Eb.
      * intros _. rewrite Eb, lenN_app in Hl. rewrite lenN_app. split; [|lia].
        rewrite <- dropN_dropN, <- Hd, Eb. symmetry. now apply dropN_app_exact.
      * now rewrite W1, H5, <- !app_assoc.
    + destruct Hwf as [-> _]. unfold JJ. cbn [fst snd x_st x_conf x_gone c_stack c_world]. eapply (J_plain _ _ h a cur q rest); eassumption.
    + destruct Hwf as (W1 & _). unfold fail. cbn [c_stack unwind c_hdr c_short c_world fst snd]. unfold JJ. cbn [x_st x_conf x_gone c_stack c_world].
      split; [reflexivity|]. split; [reflexivity|]. unfold cut in *. rewrite W1. apply Hcut. destruct rest; [discriminate Ew|discriminate].
  - cbn [step]. unfold JJ. cbn [fst snd x_st x_conf x_gone c_stack c_world]. split; [reflexivity|]. eapply J_end; eassumption.
Qed.

Lemma JJ_tick N0 C s : sizes_ok w0 N0 -> sizes_ok w0 C -> JJ N0 C s -> JJ N0 C (mstep react op MTick s).
Proof.
  intros HN HC H. destruct s as [st [hd sh stk w] g]. cbn [mstep x_st x_conf x_gone] in *.
  destruct (g && reads_pointer (Conf hd sh stk w)) eqn:Eg.
  - assert (cut true N0 C w /\ s_mask (w_sock w0) = false) as [Hc Hm].
    { apply andb_prop in Eg. destruct Eg as [-> Er]. unfold reads_pointer in Er. cbn [c_stack] in Er.
      destruct stk as [|[| | | |? ? ? ? [| |[|? ?]|]| | |] stk]; try discriminate. unfold JJ in H. cbn [x_st x_conf x_gone c_stack c_world] in H.
      destruct st; try (destruct H as (_ & H & _); discriminate); try (destruct H as (H & _); discriminate).
      1,2: split; [exact (J_cut _ _ _ _ _ H)|]; inversion H; subst; try discriminate; assumption.
      destruct H as (_ & H1 & _ & H2). auto. }
    unfold JJ. cbn [x_st x_conf x_gone c_stack c_world]. auto.
  - destruct st; cbn [tick].
    1,2: pose proof (tick_J N0 C hd sh stk w g HN HC H Eg) as HT; cbv zeta in HT; destruct (step react (Conf hd sh stk w)); exact HT.
    all: exact H.
Qed.

Lemma JJ_start : JJ [m0] [m0] (MState ARun (start_sending op w0) false).
Proof.
  unfold JJ, start_sending, start_send. rewrite Hargs. cbn [x_st x_conf x_gone c_stack c_world]. apply J_act; cbn; auto.
Qed.

Lemma sizes_app cs ds : sizes_ok w0 (cs ++ ds) -> sizes_ok w0 cs.
Proof. unfold sizes_ok. now rewrite Forall_app. Qed.

Lemma mrun_snoc evs e s : mrun react op (evs ++ [e]) s = mstep react op e (mrun react op evs s).
Proof. unfold mrun. now rewrite fold_left_app. Qed.

Lemma contents_snoc evs e : contents m0 (evs ++ [e]) = contents m0 evs ++ given e.
Proof. unfold contents. rewrite flat_map_app. cbn [flat_map app]. now rewrite app_nil_r. Qed.

Lemma run_JJ evs : shares op = true -> sizes_ok w0 (contents m0 evs) ->
  JJ (contents m0 evs) (contents m0 evs) (message_run react op evs w0) /\
  (in_place (lenN m0) evs -> x_gone (message_run react op evs w0) = false).
Proof.
  intros Hsh. induction evs as [|e evs IH] using List.rev_ind; intros Hs.
  - split; [exact JJ_start|reflexivity].
  - rewrite contents_snoc in *. pose proof (sizes_app _ _ Hs) as Hs'. destruct (IH Hs') as [HJ Hp].
    unfold message_run in *. rewrite mrun_snoc. set (s := mrun react op evs _) in *. split.
    + pose proof (JJ_changed _ _ s e Hsh HJ) as Hc. destruct e as [|d|d]; [|exact Hc|exact Hc].
      cbn [given] in *. rewrite app_nil_r in *. now apply JJ_tick.
    + unfold in_place in *. rewrite Forall_app. intros [H1 H2]. specialize (Hp H1). apply Forall_cons_iff in H2. destruct H2 as [H2 _].
      destruct e as [|d|d]; [| |contradiction].
      * cbn [mstep]. rewrite Hp. cbn [andb]. destruct (tick react _). reflexivity.
      * cbn [mstep]. rewrite Hsh, Hp. cbn [x_gone orb].
        assert (forallb (same_size d) (c_stack (x_conf s)) = true) as ->; [|reflexivity].
        assert (forall cur, In cur (contents m0 evs) -> lenN d =? lenN cur = true) as Hall.
        { intros cur Hc. apply N.eqb_eq. rewrite H2. clear -Hc H1. unfold contents in Hc. destruct Hc as [<-|Hc]; [reflexivity|].
          apply in_flat_map in Hc. destruct Hc as (e & He & Hc). rewrite Forall_forall in H1. specialize (H1 e He). destruct e as [|d|d]; cbn in *; [contradiction| |contradiction].
          destruct Hc as [<-|[]]. now symmetry. }
        unfold JJ in HJ. destruct (x_st s).
        1,2: destruct HJ; cbn [forallb same_size]; rewrite ?Hall by assumption; reflexivity.
        -- destruct HJ as [-> _]. reflexivity.
        -- destruct HJ as (_ & -> & _). reflexivity.
        -- destruct HJ as (_ & _ & HJ & _). congruence.
Qed.

(** The first step of the coroutine. *)
Lemma first_tick : sizes_ok w0 [m0] -> exists h w',
  step react (start_sending op w0) = (ARun, Conf header_init [] [CoWrite h (WfAct (be_enc 2 (fst (packHeaderBits h)))); CoSend fin opcode (Some m0) h (after m0)] w') /\
  w_out w' = w_out w0 /\ w_wr w' = w_wr w0 /\ hok h /\ concat (wf_left h (WfAct (be_enc 2 (fst (packHeaderBits h))))) = hdr_for (lenN m0).
Proof.
  intros Hs. apply Forall_cons_iff in Hs. destruct Hs as [[Hl Hz] _].
  destruct (header_left m0 w0 Hl Hz eq_refl eq_refl eq_refl) as [E1 E2]. cbv zeta in E1, E2.
  exists (fst (frame_header fin opcode (Some m0) w0)), (snd (frame_header fin opcode (Some m0) w0)).
  split; [|split; [|split; [|split; [exact E2|exact E1]]]].
  - clear E1 E2 Hl Hz. unfold start_sending, start_send. rewrite Hargs. cbn [step step_send]. unfold sendFrameHeaderAsync, frame_header.
    destruct m0 as [|x m]; destruct (s_mask (w_sock w0)) eqn:Em; cbn [h_hasMask]; reflexivity.
  - unfold frame_header. destruct (s_mask (w_sock w0)); reflexivity.
  - unfold frame_header. destruct (s_mask (w_sock w0)); reflexivity.
Qed.
End Inv.

(** On a connection that takes everything, the coroutine gets to its end. *)
Definition nz (d : bytes) : nat := match d with [] => 0 | _ => 1 end.
Inductive shape : list cor -> nat -> Prop :=
| sh_head h p fin opcode m a : lenN (msg_of m) < 2 ^ 31 \/ h_hasMask h = false ->
    shape [CoWrite h p; CoSend fin opcode m h (after a)]
      (match p with WfAct d => 11 + nz d | WfOnBb => 10 | WfWriteLen d => 8 + nz d | WfOnLen => 7 | WfWriteMask d => 5 + nz d end)
| sh_prep h fin opcode m : lenN (msg_of m) < 2 ^ 31 \/ h_hasMask h = false -> shape [CoSend fin opcode m h SfPrepare] 4
| sh_fin h fin opcode m : shape [CoSend fin opcode m h SfFinish] 4
| sh_write h fin opcode m d : shape [CoSend fin opcode m h (SfWrite d)] (2 + nz d)
| sh_end : shape [] 1.

Lemma shape_pos st n : shape st n -> (1 <= n <= 12)%nat.
Proof. destruct 1; try destruct p; unfold nz; try destruct d; try destruct left; lia. Qed.

Lemma write_open d w : w_wr w = [] -> writeExactAsyncInline d w = match d with [] => (INext [], w) | _ => (IAgain [], set_wr w (w_out w ++ d) []) end.
Proof. intros H. unfold writeExactAsyncInline. destruct d; [reflexivity|]. now rewrite H. Qed.

Lemma shape_step react hd sh st w n : w_wr w = [] -> shape st n ->
  (st = [] /\ step react (Conf hd sh st w) = (ADone, Conf hd sh st w)) \/
  exists st' w' n', step react (Conf hd sh st w) = (ARun, Conf hd sh st' w') /\ shape st' n' /\ (n' < n)%nat /\ w_wr w' = [].
Proof.
  intros Hw H. destruct H as [h p fin opcode m a Hm|h fin opcode m Hm|h fin opcode m|h fin opcode m d|]; [right|right|right|right|left; auto].
  - cbn [step]. unfold step_writeFrame. destruct p as [d| |d| |d].
    + rewrite (write_open d w Hw). destruct d as [|x d]; do 3 eexists; (split; [reflexivity|]); (split; [apply sh_head; exact Hm|]); (split; [|now auto]); cbn; lia.
    + destruct (snd (packHeaderBits h) =? 2); [|destruct (snd (packHeaderBits h) =? 3)]; do 3 eexists; (split; [reflexivity|]); (split; [apply sh_head; exact Hm|]); (split; [|now auto]); try (unfold nz; match goal with |- context[match ?x with [] => _ | _ => _ end] => destruct x end); lia.
    + rewrite (write_open d w Hw). destruct d as [|x d]; do 3 eexists; (split; [reflexivity|]); (split; [apply sh_head; exact Hm|]); (split; [|now auto]); cbn; lia.
    + destruct (h_hasMask h) eqn:Eh.
      * do 3 eexists; (split; [reflexivity|]); (split; [apply sh_head; now rewrite Eh|]); (split; [|now auto]); cbn; lia.
      * destruct a as [|x a]; do 3 eexists; (split; [reflexivity|]); (split; [first [apply sh_fin|apply sh_prep; now rewrite Eh]|]); (split; [|now auto]); lia.
    + rewrite (write_open d w Hw). destruct d as [|x d].
      * destruct a as [|x a]; do 3 eexists; (split; [reflexivity|]); (split; [first [apply sh_fin|apply sh_prep; exact Hm]|]); (split; [|now auto]); cbn; lia.
      * do 3 eexists; (split; [reflexivity|]); (split; [apply sh_head; exact Hm|]); (split; [|now auto]); cbn; lia.
  - cbn [step step_send]. destruct (h_hasMask h) eqn:Eh.
    + destruct Hm as [Hm|Hm]; [|congruence]. destruct m as [m|]; cbn [msg_of] in Hm; (replace (2 ^ 31 <=? _) with false by (symmetry; apply N.leb_gt; exact Hm));
        do 3 eexists; (split; [reflexivity|]); (split; [apply sh_write|]); (split; [|now auto]); unfold nz; match goal with |- context[match ?x with [] => _ | _ => _ end] => destruct x end; lia.
    + do 3 eexists; (split; [reflexivity|]); (split; [apply sh_write|]); (split; [|now auto]); unfold nz; match goal with |- context[match ?x with [] => _ | _ => _ end] => destruct x end; lia.
  - cbn [step step_send]. do 3 eexists; (split; [reflexivity|]); (split; [apply sh_end|]); (split; [|now auto]); lia.
  - cbn [step step_send]. rewrite (write_open d w Hw). destruct d as [|x d]; do 3 eexists; (split; [reflexivity|]); (split; [first [apply sh_end|apply sh_write]|]); (split; [|now auto]); cbn; lia.
Qed.

Lemma done_stays react op k c g : c_stack c = [] -> mrun react op (repeat MTick k) (MState ADone c g) = MState ADone c g.
Proof.
  intros Hc. unfold mrun. induction k as [|k IH]; [reflexivity|]. cbn [repeat fold_left mstep x_gone x_conf x_st]. unfold reads_pointer. rewrite Hc, andb_false_r. exact IH.
Qed.

Lemma shape_done react op k : forall hd sh st w n, w_wr w = [] -> shape st n -> (n <= k)%nat ->
  exists c, mrun react op (repeat MTick k) (MState ARun (Conf hd sh st w) false) = MState ADone c false.
Proof.
  induction k as [|k IH]; intros hd sh st w n Hw Hs Hk; [apply shape_pos in Hs; lia|].
  cbn [repeat]. unfold mrun. cbn [fold_left mstep x_gone x_conf x_st andb tick].
  destruct (shape_step react hd sh st w n Hw Hs) as [[Hn Hst]|(st' & w' & n' & Hst & Hs' & Hlt & Hw')]; rewrite Hst.
  - eexists. apply done_stays. exact Hn.
  - apply (IH hd sh st' w' n' Hw' Hs'). lia.
Qed.
