(** C96: what is sent when the application changes a message object it has passed to an asynchronous sending call. *)
From Verif Require Import Bytes Frame World WebSocket AsyncWebSocket SpecFrame SpecListen SpecSend SpecAsync ProofFrame ProofReading ProofConcurrent Message SpecMessage ProofMessage.
Local Open Scope N_scope.
Local Arguments takeN : simpl never. Local Arguments dropN : simpl never. Local Arguments lenN : simpl never.
Local Arguments be_enc : simpl never. Local Arguments be_dec : simpl never.

Lemma nth_error_eq {A} (a b : list A) : (forall i, nth_error a i = nth_error b i) -> a = b.
Proof.
  revert b. induction a as [|x a IH]; intros [|y b] H; [reflexivity|discriminate (H 0%nat)|discriminate (H 0%nat)|].
  f_equal; [specialize (H 0%nat); cbn in H; congruence|]. apply IH. intros i. exact (H (S i)).
Qed.
Lemma shares_args op : shares op = true -> send_args op = (req_fin op, req_opcode op, Some (req_payload op)).
Proof. destruct op as [fin c [m|]|code [m|]| |[m|]|[m|]|[m|]|[m|]]; cbn; try discriminate; reflexivity. Qed.

(** An application that leaves the object alone: the coroutine is that of the other theorems about sending. *)
Theorem C96_untouched : forall react op w evs, only_ticks evs ->
  (x_st (message_run react op evs w), x_conf (message_run react op evs w)) = run react (ticks (length evs)) (ARun, start_sending op w).
Proof.
  intros react op w evs H. unfold message_run, mrun.
  assert (forall st c, let s := fold_left (fun s e => mstep react op e s) evs (MState st c false) in (x_st s, x_conf s) = run react (ticks (length evs)) (st, c)) as HG; [|apply HG].
  induction H as [|e evs He H IH]; intros st c; [reflexivity|]. subst e. cbn [fold_left mstep x_gone x_conf x_st andb length ticks run].
  destruct (tick react (st, c)) as [st' c']. apply IH.
Qed.
Print Assumptions C96_untouched.

Lemma message_shares op m : message op = Some m -> shares op = true /\ req_payload op = m.
Proof. destruct op as [fin c [x|]|code [x|]| |[x|]|[x|]|[x|]|[x|]]; cbn; try discriminate; intros E; injection E as <-; auto. Qed.

(** The message of sendCloseAsync(code, message) may be changed or destroyed as soon as the call has returned: changes have no effect. *)
Theorem C96_close_partial : forall react op w evs, (exists code m, op = SoClose code m) \/ op = SoClose0 ->
  message_run react op evs w = message_run react op (filter (fun e => match e with MTick => true | _ => false end) evs) w.
Proof.
  intros react op w evs Hs. assert (shares op = false) as Hsh by (destruct Hs as [(code & m & ->)| ->]; reflexivity). clear Hs.
  unfold message_run, mrun. generalize (MState ARun (start_sending op w) false).
  induction evs as [|[|d|d] evs IH]; intros s; cbn [filter fold_left]; [reflexivity|apply IH| |]; cbn [mstep]; rewrite Hsh; apply IH.
Qed.
Print Assumptions C96_close_partial.

(** Whatever the application does to the object and whatever the connection does: what has been written is the beginning of a header announcing the size of one of the contents, followed
    - with masking - by one of the contents in full, or - without - by a mixture of the contents; undefined behaviour is possible only without masking, if the string was reallocated, and
    before everything has been written. *)
Theorem C96_any_change_partial : forall react op m w evs, message op = Some m -> sizes_ok w (contents m evs) ->
  let s := message_run react op evs w in
  exists p a body, w_out (c_world (x_conf s)) = w_out w ++ p /\
  In a (contents m evs) /\
  (if s_mask (w_sock w) then In body (contents m evs) else woven (contents m evs) body) /\
  prefix p (announced (next_key_opt w) op (lenN a) body) /\
  match x_st s with
  | ARun | AWait => True
  | ADone => p = announced (next_key_opt w) op (lenN a) body
  | AFail e => e = ExAsyncIO /\ p <> announced (next_key_opt w) op (lenN a) body
  | AUb u => u = UbDangling /\ p <> announced (next_key_opt w) op (lenN a) body /\ s_mask (w_sock w) = false /\ ~ in_place (lenN m) evs
  end.
Proof.
  intros react op m w evs Hmsg Hz. cbv zeta. destruct (message_shares op m Hmsg) as [Hs <-].
  destruct (run_JJ react op w (req_payload op) (shares_args op Hs) evs Hs Hz) as [HJ Hp].
  set (s := message_run react op evs w) in *. set (C := contents (req_payload op) evs) in *.
  assert (forall b, cut op w b C C (c_world (x_conf s)) -> exists p a body, w_out (c_world (x_conf s)) = w_out w ++ p /\ In a C /\
     (if s_mask (w_sock w) then In body C else woven C body) /\ prefix p (announced (next_key_opt w) op (lenN a) body) /\ (b = true -> p <> announced (next_key_opt w) op (lenN a) body)) as HC.
  { intros b (a & bd & q & r & H1 & H2 & H3 & H4 & H5). exists q, a, bd. split; [exact H5|]. split; [exact H1|]. split; [exact H2|]. split; [exists r; exact H3|].
    intros Hb E. apply (H4 Hb). unfold announced in E. unfold hdr_for in H3. rewrite <- E in H3. rewrite <- (app_nil_r q) in H3 at 1. apply app_inv_head in H3. now symmetry. }
  unfold JJ in HJ. destruct (x_st s) as [| | |e|u].
  - destruct (HC _ (J_cut _ _ _ _ _ _ _ HJ)) as (p & a & b & H1 & H2 & H3 & H4 & _). exists p, a, b. auto.
  - destruct (HC _ (J_cut _ _ _ _ _ _ _ HJ)) as (p & a & b & H1 & H2 & H3 & H4 & _). exists p, a, b. auto.
  - destruct HJ as [_ HJ]. inversion HJ as [| | | | | |a body w1 g1 Ha Hb Hw]. eexists _, a, body. split; [exact Hw|].
    split; [exact Ha|]. split; [exact Hb|]. split; [exists []; now rewrite app_nil_r|reflexivity].
  - destruct HJ as (-> & _ & HJ). destruct (HC _ HJ) as (p & a & b & H1 & H2 & H3 & H4 & H5). exists p, a, b. auto 8.
  - destruct HJ as (-> & Hm & Hg & HJ). destruct (HC _ HJ) as (p & a & b & H1 & H2 & H3 & H4 & H5). exists p, a, b.
    repeat (split; [assumption|]). split; [reflexivity|]. split; [exact (H5 eq_refl)|]. split; [exact Hm|]. intros Hi. rewrite (Hp Hi) in Hg. discriminate.
Qed.
Print Assumptions C96_any_change_partial.

Lemma in_place_size n m evs : in_place n evs -> lenN m = n -> forall d, In d (contents m evs) -> lenN d = n.
Proof.
  intros H Hm d [<-|Hd]; [exact Hm|]. apply in_flat_map in Hd. destruct Hd as (e & He & Hd). unfold in_place in H. rewrite Forall_forall in H. specialize (H e He).
  destruct e as [|x|x]; cbn in *; [contradiction| |contradiction]. destruct Hd as [<-|[]]. exact H.
Qed.

(** The bytes of the object may be overwritten: one well-formed frame of the announced length is sent, its payload a mixture of the contents the object had. *)
Theorem C96_in_place_partial : forall react op m w evs, message op = Some m -> sizes_ok w (contents m evs) -> in_place (lenN m) evs ->
  let s := message_run react op evs w in
  exists p body, w_out (c_world (x_conf s)) = w_out w ++ p /\ woven (contents m evs) body /\
  lenN body = lenN m /\
  prefix p (wire (lform_min (lenN body)) (RFrame (req_fin op) false false false (req_opcode op mod 16) (next_key_opt w) body)) /\
  (x_st s = ADone -> p = wire (lform_min (lenN body)) (RFrame (req_fin op) false false false (req_opcode op mod 16) (next_key_opt w) body)) /\
  (forall u, x_st s <> AUb u).
Proof.
  intros react op m w evs Hmsg Hz Hi. cbv zeta.
  destruct (C96_any_change_partial react op m w evs Hmsg Hz) as (p & a & body & H1 & H2 & H3 & H4 & H5). cbv zeta in H1, H5.
  pose proof (in_place_size _ _ _ Hi eq_refl) as HA.
  assert (woven (contents m evs) body) as Hw by (destruct (s_mask (w_sock w)); [now apply woven_self|exact H3]).
  assert (lenN body = lenN m) as Hb. { destruct Hw as [(d & Hd & ->) _]. now apply HA. }
  assert (announced (next_key_opt w) op (lenN a) body = wire (lform_min (lenN body)) (RFrame (req_fin op) false false false (req_opcode op mod 16) (next_key_opt w) body)) as Hann.
  { unfold announced, wire. cbn [f_fin f_rsv1 f_rsv2 f_rsv3 f_opcode f_key f_payload]. rewrite (HA a H2), Hb. reflexivity. }
  rewrite Hann in *. exists p, body. split; [exact H1|]. split; [exact Hw|]. split; [exact Hb|]. split; [exact H4|]. split.
  - intros E. now rewrite E in H5.
  - intros u E. rewrite E in H5. destruct H5 as (_ & _ & _ & H5). contradiction.
Qed.
Print Assumptions C96_in_place_partial.

(** Once the coroutine has finished, the object may be changed at will. *)
Theorem C96_finished : forall react op m w evs evs', message op = Some m -> sizes_ok w (contents m evs) ->
  x_st (message_run react op evs w) = ADone ->
  message_run react op (evs ++ evs') w = MState ADone (x_conf (message_run react op evs w)) (x_gone (message_run react op evs w)).
Proof.
  intros react op m w evs evs' Hmsg Hz Hd. destruct (message_shares op m Hmsg) as [Hs <-]. destruct (run_JJ react op w (req_payload op) (shares_args op Hs) evs Hs Hz) as [HJ _].
  unfold message_run, mrun in *. rewrite fold_left_app. set (s := fold_left _ evs _) in *.
  unfold JJ in HJ. rewrite Hd in HJ. destruct HJ as [HJ _]. destruct s as [st c g]. cbn [x_st x_conf x_gone] in *. subst st.
  assert (c = Conf (c_hdr c) (c_short c) [] (c_world c)) as Hc by (rewrite <- HJ; now destruct c).
  induction evs' as [|[|d|d] evs' IH]; [reflexivity| | |]; cbn [fold_left mstep x_st x_conf x_gone].
  - unfold reads_pointer. rewrite HJ, andb_false_r. exact IH.
  - rewrite Hs. unfold change. rewrite HJ. cbn [map existsb forallb negb andb]. rewrite orb_false_r, <- Hc. exact IH.
  - rewrite Hs. unfold change. rewrite HJ. cbn [map existsb forallb negb andb]. rewrite orb_false_r, <- Hc. exact IH.
Qed.
Print Assumptions C96_finished.

Lemma announced_frame k op n body : n < 2 ^ 63 -> is_frame (announced k op n body) -> lenN body = n.
Proof.
  intros Hn (lf & f & Ho & Hl & E). pose proof (rd_header_wire lf f [] Ho Hl) as H. rewrite <- E, app_nil_r in H. unfold announced in H.
  rewrite rd_header_rfc in H; [|apply N.mod_lt; discriminate|apply lform_ok_fits, lform_min_ok; exact Hn].
  unfold finfo_of in H. assert (k = f_key f /\ n = lenN (f_payload f) /\ masked_opt k body = masked_opt (f_key f) (f_payload f) ++ []) as (-> & -> & Hm).
  { inversion H. auto. }
  rewrite app_nil_r in Hm. rewrite <- (lenN_masked_opt (f_key f) body), Hm. apply lenN_masked_opt.
Qed.

(** Refuted: the string gets another size after the coroutine has been run once. The sending call completes, and what it has written is not a frame: the header announces the old size,
    the new content follows. *)
Theorem C96_resized_refuted : forall react op m w d k, message op = Some m -> w_wr w = [] -> sizes_ok w [m; d] ->
  m <> [] -> lenN d <> lenN m -> (13 <= k)%nat ->
  let s := message_run react op (MTick :: MAssign d :: repeat MTick k) w in
  x_st s = ADone /\ exists p, w_out (c_world (x_conf s)) = w_out w ++ p /\
  p = announced (next_key_opt w) op (lenN m) d /\ ~ is_frame p.
Proof.
  intros react op m w d k Hmsg Hw Hz Hm Hd Hk. cbv zeta. destruct (message_shares op m Hmsg) as [Hs <-]. pose proof (shares_args op Hs) as Ha.
  assert (sizes_ok w [req_payload op]) as Hz1 by (apply Forall_cons_iff in Hz; repeat constructor; apply Hz).
  assert (sizes_ok w [d]) as Hz2 by (apply Forall_cons_iff in Hz; apply Hz).
  destruct (first_tick react op w _ Ha Hz1) as (h & w' & E & Ho & Hwr & Hh & Hl).
  assert (message_run react op (MTick :: MAssign d :: repeat MTick k) w =
     mrun react op (repeat MTick k) (MState ARun (Conf header_init [] [CoWrite h (WfAct (be_enc 2 (fst (packHeaderBits h)))); CoSend (req_fin op) (req_opcode op) (Some d) h SfPrepare] w') false)) as ->.
  { unfold message_run, mrun. cbn [fold_left mstep x_gone andb x_st x_conf tick]. rewrite E. cbn [x_gone x_st x_conf]. rewrite Hs. unfold change.
    cbn [c_stack c_hdr c_short c_world map changed existsb points_into orb]. destruct (req_payload op) as [|x m]; [contradiction|]. reflexivity. }
  set (s0 := MState ARun _ false).
  assert (JJ op w [req_payload op] [d] s0) as HJ0.
  { unfold JJ, s0. cbn [x_st x_conf x_gone c_stack c_world]. 
    replace SfPrepare with (after (req_payload op)) by (destruct (req_payload op); [contradiction|reflexivity]).
    eapply (J_head _ _ _ _ h _ (req_payload op) d []); cbn [In app]; auto. now rewrite app_nil_r. }
  assert (forall j s, JJ op w [req_payload op] [d] s -> JJ op w [req_payload op] [d] (mrun react op (repeat MTick j) s)) as HJr.
  { unfold mrun. induction j as [|j IH]; intros s H; [exact H|]. cbn [repeat fold_left]. apply IH. apply JJ_tick; assumption. }
  assert (exists c, mrun react op (repeat MTick k) s0 = MState ADone c false) as [c Hc].
  { destruct (shape_done react op k header_init [] [CoWrite h (WfAct (be_enc 2 (fst (packHeaderBits h)))); CoSend (req_fin op) (req_opcode op) (Some d) h (after (req_payload op))] w' 12) as [c Hc].
    - congruence.
    - assert (nz (be_enc 2 (fst (packHeaderBits h))) = 1%nat) as Hn. { destruct (be_enc 2 _) eqn:Eb; [|reflexivity]. apply (f_equal lenN) in Eb. rewrite lenN_be_enc in Eb. discriminate. }
      pose proof (sh_head h (WfAct (be_enc 2 (fst (packHeaderBits h)))) (req_fin op) (req_opcode op) (Some d) (req_payload op)) as Hsh. cbv beta iota in Hsh. rewrite Hn in Hsh. apply Hsh.
      cbn [msg_of]. destruct Hh as [Hh _]. destruct (s_mask (w_sock w)) eqn:Em; [left|right; exact Hh]. apply Forall_cons_iff in Hz2. destruct Hz2 as [[_ Hz2] _]. exact (Hz2 Em).
    - lia.
    - exists c. rewrite <- Hc. unfold s0. destruct (req_payload op); [contradiction|reflexivity]. }
  specialize (HJr k s0 HJ0). rewrite Hc in *. cbn [x_st x_conf]. split; [reflexivity|].
  unfold JJ in HJr. cbn [x_st x_conf x_gone c_stack c_world] in HJr. destruct HJr as [_ HJr].
  inversion HJr as [| | | | | |a body w1 g1 Ha1 Hb Hw1]. destruct Ha1 as [<-|[]].
  assert (body = d \/ woven [d] body) as Hbd.
  { unfold okbody in Hb. destruct (s_mask (w_sock w)); [|now right]. destruct Hb as [->|[]]. now left. }
  assert (body = d) as ->.
  { destruct Hbd as [->|[(d' & [<-|[]] & Hl1) Hn]]; [reflexivity|]. clear -Hl1 Hn. apply nth_error_eq. intros i. destruct (nth_error body i) as [b|] eqn:Eb.
    - destruct (Hn i b Eb) as (d' & [<-|[]] & H). congruence.
    - symmetry. apply nth_error_None. apply nth_error_None in Eb. unfold lenN in Hl1. lia. }
  exists (announced (next_key_opt w) op (lenN (req_payload op)) d). split; [exact Hw1|]. split; [reflexivity|].
  intros Hf. apply announced_frame in Hf; [contradiction|]. apply Forall_cons_iff in Hz1. apply Hz1.
Qed.
Print Assumptions C96_resized_refuted.

(** Refuted: without masking, the string is given other memory while its bytes are being written (the header and some of the payload, but not all of it, have been sent): the next step of
    the coroutine reads freed memory. *)
Theorem C96_reassigned_refuted : forall react op m w evs d q, message op = Some m -> s_mask (w_sock w) = false -> sizes_ok w (contents m evs) ->
  in_place (lenN m) evs ->
  let s := message_run react op evs w in
  (x_st s = ARun \/ x_st s = AWait) ->
  w_out (c_world (x_conf s)) = w_out w ++ announced None op (lenN m) q -> 0 < lenN q < lenN m ->
  x_st (message_run react op (evs ++ [MAssign d; MTick]) w) = AUb UbDangling.
Proof.
  intros react op m w evs d q Hmsg Hmask Hz Hi s Hst Ho Hq. destruct (message_shares op m Hmsg) as [Hs <-].
  destruct (run_JJ react op w (req_payload op) (shares_args op Hs) evs Hs Hz) as [HJ Hg]. specialize (Hg Hi). fold s in HJ, Hg.
  assert (J op w (contents (req_payload op) evs) (contents (req_payload op) evs) (c_stack (x_conf s)) (c_world (x_conf s)) (x_gone s)) as HJ'.
  { unfold JJ in HJ. destruct Hst as [E|E]; rewrite E in HJ; exact HJ. }
  pose proof (in_place_size _ _ _ Hi eq_refl) as HA.
  assert (message_run react op (evs ++ [MAssign d; MTick]) w = mstep react op MTick (mstep react op (MAssign d) s)) as ->.
  { unfold s, message_run, mrun. now rewrite fold_left_app. }
  set (n := lenN (req_payload op)) in *. unfold announced in Ho. cbn [masked_opt] in Ho.
  assert (next_key_opt w = None) as Hk by (unfold next_key_opt; now rewrite Hmask).
  assert (forall m, hdr_for op w m = rfc_header (lform_min m) (req_fin op) false false false (req_opcode op mod 16) None m) as HH by (intros; unfold hdr_for; now rewrite Hk).
  rewrite <- HH in Ho.
  assert (forall A B : bytes, w_out w ++ A = w_out w ++ B -> lenN A = lenN B) as Hlen. { intros A B E. now apply app_inv_head in E; rewrite E. }
  destruct s as [st [hd sh stk w'] g]. cbn [x_st x_conf x_gone c_stack c_world] in *. subst g.
  inversion HJ' as [cur w1 A1 A2 A3|h p a cur q1 w1 A1 A2 A3 A4 A5 A6|h a cur w1 A1 A2 A3 A4|h cur w1 A1 A2 A3 A4|h a d1 cur q1 rest w1 A1 A2 A3 A4|
                    h a cur q1 rest w1 g1 A1 A2 A3 A4 A5 A7 A8|a body w1 g1 A1 A2 A3]; subst.
  - rewrite A3 in Ho. rewrite <- (app_nil_r (w_out w)) in Ho at 1. apply Hlen in Ho. rewrite lenN_app in Ho. change (lenN (@nil byte)) with 0 in Ho. lia.
  - rewrite A6 in Ho. apply Hlen in Ho. apply (f_equal lenN) in A5. rewrite (HA a A1) in A5. rewrite lenN_app in *. lia.
  - rewrite A4 in Ho. apply Hlen in Ho. rewrite (HA a A1) in Ho. rewrite lenN_app in *. lia.
  - specialize (HA [] A1). change (lenN (@nil byte)) with 0 in HA. lia.
  - congruence.
  - rewrite A8 in Ho. apply Hlen in Ho. rewrite (HA a A1) in Ho. rewrite !lenN_app in Ho. destruct (A7 eq_refl) as (_ & Hl). rewrite (HA cur A2) in Hl.
    cbn [mstep x_st x_conf x_gone]. rewrite Hs. unfold change. cbn [c_stack c_hdr c_short c_world map changed existsb points_into andb orb x_gone x_conf x_st].
    destruct A4 as [Hh _]. rewrite Hh, Hmask. cbn [negb orb andb]. unfold reads_pointer. cbn [c_stack]. destruct rest as [|r0 rest].
    + change (lenN (@nil byte)) with 0 in Hl. lia.
    + rewrite Hh, Hmask. reflexivity.
  - rewrite A3 in Ho. apply Hlen in Ho. rewrite (HA a A1), !lenN_app, lenN_masked_opt in Ho. unfold okbody in A2. rewrite Hmask in A2. destruct A2 as [(d' & Hd' & Hl) _].
    rewrite (HA d' Hd') in Hl. lia.
Qed.
Print Assumptions C96_reassigned_refuted.

(** ** Concrete cases *)
Definition world96 (m : bool) (wr : list wev) : world := World [] wr [] (fun i => if Nat.even i then x0f else xf0) 0 [] (Sock m 16 (Some 0%nat) (-1) true).
Example C96_nonvacuous :
  (* "abc" is overwritten with "xyz" after the header and "a" have been written; then the whole frame is sent *)
  (let s := message_run (fun _ _ => []) (SoText (Some [x61; x62; x63])) (repeat MTick 7 ++ MOverwrite [x78; x79; x7a] :: repeat MTick 6) (world96 false [WAccept 2; WAccept 1; WIo IoRetry]) in
   (x_st s, w_out (c_world (x_conf s)))) = (ADone, [x81; x03; x61; x79; x7a]) /\
  (* it is replaced by "wxyz" *)
  (let s := message_run (fun _ _ => []) (SoText (Some [x61; x62; x63])) (MTick :: MAssign [x77; x78; x79; x7a] :: repeat MTick 13) (world96 false []) in
   (x_st s, w_out (c_world (x_conf s)))) = (ADone, [x81; x03; x77; x78; x79; x7a]) /\
  (* the header and one byte have been written when the string gets other memory *)
  (let s := message_run (fun _ _ => []) (SoText (Some [x61; x62; x63])) (repeat MTick 7) (world96 false [WAccept 2; WAccept 1; WBlock]) in
   (x_st s, w_out (c_world (x_conf s)))) = (ARun, [] ++ announced None (SoText (Some [x61; x62; x63])) 3 [x61]) /\
  x_st (message_run (fun _ _ => []) (SoText (Some [x61; x62; x63])) (repeat MTick 7 ++ [MAssign []; MTick]) (world96 false [WAccept 2; WAccept 1; WBlock])) = AUb UbDangling /\
  (* a close message is copied when the call is made *)
  (let s := message_run (fun _ _ => []) (SoClose 1000 (Some [x61])) (MTick :: MAssign [] :: repeat MTick 13) (world96 false []) in
   (x_st s, w_out (c_world (x_conf s)))) = (ADone, [x88; x03; x03; xe8; x61]).
Proof. vm_compute. repeat split. Qed.
