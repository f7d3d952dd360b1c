(** Helper lemmas for the property theorems about listening. *)
From Verif Require Import Bytes Frame World WebSocket SpecFrame SpecSend SpecListen SpecApi
  ProofFrame ProofStream ProofSend ProofHeader ProofListen ProofReading ProofApi ProofInv ProofRel ProofSilent.
From Coq Require Import ZifyBool ZifyNat ZifyN.
Local Open Scope N_scope.
Local Open Scope m_scope.
Local Arguments takeN : simpl never.
Local Arguments dropN : simpl never.
Local Arguments lenN : simpl never.
Local Arguments be_enc : simpl never.
Local Arguments be_dec : simpl never.

(** * Blocking points *)
Definition blocked (w : world) : Prop := w_in w = [] \/ exists q, w_wr w = WBlock :: q.
Definition wq {A} (m : M A) : Prop := forall w w', m w = (Wait, w') -> blocked w'.

Lemma wq_ret {A} (a : A) : wq (ret a). Proof. intros w w' E; discriminate. Qed.
Lemma wq_throw {A} e : wq (@throw A e). Proof. intros w w' E; discriminate. Qed.
Lemma wq_undef {A} u : wq (@undef A u). Proof. intros w w' E; discriminate. Qed.
Lemma wq_fuel {A} : wq (@out_of_fuel A). Proof. intros w w' E; discriminate. Qed.
Lemma wq_get : wq get. Proof. intros w w' E; discriminate. Qed.
Lemma wq_sock f : wq (modify_sock f). Proof. intros w w' E; discriminate. Qed.
Lemma wq_rnd n : wq (randomBytes n). Proof. intros w w' E; discriminate. Qed.
Lemma wq_bind {A B} (m : M A) (f : A -> M B) : wq m -> (forall a, wq (f a)) -> wq (bind m f).
Proof.
  intros Hm Hf w w' E. unfold bind in E. destruct (m w) as [[a|e| |u|] w1] eqn:E1; try discriminate.
  - eapply Hf; exact E.
  - injection E as <-. eapply Hm; exact E1.
Qed.
Lemma wq_try m : wq m -> wq (try_ m).
Proof.
  intros Hm w w' E. unfold try_ in E. destruct (m w) as [[a|e| |u|] w1] eqn:E1; try discriminate.
  injection E as <-. eapply Hm; exact E1.
Qed.
Lemma read_raw_pending n s : forall k s' k', read_raw n s k = (RPending, s', k') -> s' = [].
Proof.
  induction s as [|e s IH]; intros k s' k' E; cbn [read_raw] in E; [congruence|].
  destruct e; try discriminate. eapply IH; exact E.
Qed.
Lemma wq_readSimple n : wq (readSimple n).
Proof.
  intros w w' E. unfold readSimple in E. destruct (n <? 0)%Z; [discriminate|]. destruct (n =? 0)%Z; [discriminate|].
  destruct (read_raw _ _ _) as [[r s'] k'] eqn:E1. destruct r; try discriminate.
  injection E as <-. left. cbn. eapply read_raw_pending; exact E1.
Qed.
Lemma readExact_pending s : forall n k s' k', readExact_raw n s k = (XPending, s', k') -> s' = [].
Proof.
  induction s as [|e s IH]; intros n k s' k' E; cbn [readExact_raw] in E;
    destruct (n =? 0); try discriminate; [congruence|].
  destruct e as [b bs|[]|x]; try discriminate.
  - destruct (n <=? _); [discriminate|].
    destruct (readExact_raw _ s k) as [[r s1] k1] eqn:E1. destruct r; try discriminate. 
    assert (s1 = s') as <- by congruence. eapply IH; exact E1.
  - eapply IH; exact E.
  - eapply IH; exact E.
Qed.
Lemma wq_readExact n : wq (readExactSizeDataSimple n).
Proof.
  intros w w' E. unfold readExactSizeDataSimple in E.
  destruct (readExact_raw _ _ _) as [[r s'] k'] eqn:E1. destruct r; try discriminate.
  injection E as <-. left. cbn. eapply readExact_pending; exact E1.
Qed.
Lemma writeExact_pending q : forall d a q', writeExact_raw d q = (WPending, a, q') -> exists q1, q' = WBlock :: q1.
Proof.
  induction q as [|e q IH]; intros d a q' E; destruct d as [|b d]; cbn [writeExact_raw] in E; try discriminate.
  destruct e as [n|[]|]; try discriminate.
  - destruct (writeExact_raw _ q) as [[r a1] q1] eqn:E1. assert (r = WPending) as -> by congruence.
    assert (q1 = q') as <- by congruence. eapply IH; exact E1.
  - eapply IH; exact E.
  - injection E as _ <-. eauto.
Qed.
Lemma wq_write d : wq (writeExactSizeDataSimple d).
Proof.
  intros w w' E. unfold writeExactSizeDataSimple in E.
  destruct (writeExact_raw _ _) as [[r a] q'] eqn:E1. destruct r; try discriminate.
  injection E as <-. right. cbn. eapply writeExact_pending; exact E1.
Qed.

Ltac wq_go_with base :=
  repeat first
    [ base | apply wq_ret | apply wq_throw | apply wq_undef | apply wq_fuel | apply wq_get | apply wq_sock | apply wq_rnd
    | apply wq_readSimple | apply wq_readExact | apply wq_write
    | apply wq_bind; [|intros ?] | apply wq_try
    | match goal with |- wq (let (_, _) := ?x in _) => destruct x end
    | match goal with |- wq (if ?x then _ else _) => destruct x end
    | match goal with |- wq (match ?x with _ => _ end) => destruct x end ].

Ltac wq_go := wq_go_with fail.

Lemma wq_sendOneFrame fin op m : wq (sendOneFrame fin op m).
Proof. unfold sendOneFrame, sendFrameHeader, writeFrameHeader. wq_go. Qed.
Lemma wq_send op : wq (send op).
Proof.
  destruct op; unfold send, sendChecked, stopListening; wq_go_with ltac:(apply wq_sendOneFrame).
Qed.

Section Wq.
Variable react : react_t.
Lemma wq_cmds cs : wq (exec_cmds cs).
Proof.
  induction cs as [|c cs IH]; cbn [exec_cmds]; [apply wq_ret|]. apply wq_bind; [|intros _; exact IH].
  destruct c as [| | |[]| | |fin0 opc0 msg0]; cbn [exec_cmd]; unfold stopListening; wq_go_with ltac:(apply wq_send).
  unfold demand. wq_go_with ltac:(apply wq_sendOneFrame).
Qed.
Lemma wq_notify ev : wq (notify react ev).
Proof.
  intros w w' E. unfold notify in E. destruct (s_listener (w_sock w)); [|discriminate].
  eapply wq_cmds; exact E.
Qed.
Lemma wq_loop fuel : forall h short alloc p, wq (readPayload_loop react fuel h short alloc p).
Proof.
  induction fuel as [|fuel IH]; intros; cbn [readPayload_loop]; wq_go_with ltac:(first [apply IH|apply wq_notify]).
Qed.
Lemma wq_payload h short : wq (readPayload react h short).
Proof. unfold readPayload. wq_go_with ltac:(first [apply wq_loop|apply wq_notify]). Qed.
Lemma wq_header h : wq (readFrameHeader h).
Proof. unfold readFrameHeader. wq_go. Qed.
Lemma wq_handle h : wq (handleFrame react h).
Proof.
  unfold handleFrame, checkForContinuation.
  destruct (h_opcode h) as [|[[[[p|p|]|[p|p|]|]|[[p|p|]|[p|p|]|]|]|[[[p|p|]|[p|p|]|]|[[p|p|]|[p|p|]|]|]|]];
    wq_go_with ltac:(first [apply wq_payload|apply wq_notify]).
Qed.
Lemma wq_listen_loop fuel : forall h, wq (listen_loop react fuel h).
Proof. induction fuel as [|fuel IH]; intros h; cbn [listen_loop]; wq_go_with ltac:(first [apply wq_header|apply wq_handle|apply IH]). Qed.
Lemma wq_listen : wq (listen react).
Proof. unfold listen. wq_go_with ltac:(apply wq_listen_loop). Qed.
Lemma wq_iterate h : wq (iterateFrame react h).
Proof. unfold iterateFrame. wq_go_with ltac:(first [apply wq_header|apply wq_handle]). Qed.
End Wq.

(** * Logs and transcripts *)

Lemma transcript_nil_log B new : Forall (ev_size B) new -> transcript new = [] -> new = [].
Proof.
  destruct new as [|[l2 e2] r2]; intros Hr Et; [reflexivity|]. inversion Hr as [|? ? E3 _]; subst.
  destruct e2 as [op [|b d]|op|x|x|y x]; try discriminate. cbn in E3. destruct E3. unfold lenN in *; cbn in *; lia.
Qed.

Lemma map_OByte_no_close op d c m : ~ In (OClose c m) (map (OByte op) d).
Proof. intros H. apply in_map_iff in H. destruct H as (x & H & _). discriminate. Qed.

(** A transcript that ends in a close observation belongs to a log that ends in onClose. *)
Lemma transcript_snoc_close B l c m : forall new os,
  Forall (fun e => fst e = l) new -> Forall (ev_size B) new ->
  transcript new = os ++ [OClose c m] ->
  exists n1, new = n1 ++ [(l, EvClose c m)] /\ transcript n1 = os.
Proof.
  intros new. induction new as [|e new _] using List.rev_ind; intros os H1 H2 H; [destruct os; discriminate|].
  apply Forall_app in H1. destruct H1 as [H1 H1']. apply Forall_app in H2. destruct H2 as [H2 H2'].
  inversion H1' as [|? ? E1 _]; subst. inversion H2' as [|? ? E2 _]; subst.
  rewrite transcript_app in H. unfold transcript at 2 in H. cbn [flat_map] in H. rewrite app_nil_r in H.
  destruct e as [l ev]. cbn [fst snd] in *. exists new.
  destruct ev as [op d|op|x|x|y x]; cbn [observe] in H.
  - destruct d as [|b d _] using List.rev_ind; [cbn in E2; unfold lenN in E2; cbn in E2; lia|].
    rewrite map_app, app_assoc in H. cbn [map] in H. apply app_inj_tail in H. destruct H; discriminate.
  - apply app_inj_tail in H. destruct H; discriminate.
  - apply app_inj_tail in H. destruct H; discriminate.
  - apply app_inj_tail in H. destruct H; discriminate.
  - apply app_inj_tail in H. destruct H as [H [= -> ->]]. auto.
Qed.

Lemma addressed_fst (k : sock) l new :
  s_listener k = Some l -> Forall (fun e : nat * event => s_listener k = Some (fst e)) new ->
  Forall (fun e => fst e = l) new.
Proof. intros H. apply Forall_impl. intros e E. congruence. Qed.

(** * Listening, with a listener *)

Lemma good_hyps react w : good react w ->
  clean (w_in w) /\ healthy (w_wr w) /\ polite_react react /\ never_stops react /\ (0 < s_buf (w_sock w))%Z /\ last_ok (w_sock w).
Proof. exact (fun H => H). Qed.

Lemma good_calm react w : good react w -> calm react w.
Proof. intros (H1 & H2 & H3 & H4 & H5 & H6). split; [now apply clean_steady|]. auto. Qed.

Lemma listen_hist react w o w' fs bs :
  good react w -> bs_of w = wires fs ++ bs -> history_ok (opn_of w) fs = true ->
  listen react w = (o, w') ->
  exists new, w_log w' = w_log w ++ new /\ Forall (fun e => s_listener (w_sock w) = Some (fst e)) new /\
    transcript new = seen (w_sock w) (frames_shown fs ++ stream_reading (open_after (opn_of w) fs) bs) /\
    Forall (ev_size (s_buf (w_sock w))) new /\
    match stream_ending (open_after (opn_of w) fs) bs with
    | Blocked => o = Wait /\ w_in w' = []
    | Closed rest | Rejected rest => o = Ret tt /\ bs_of w' = rest
    | Stopped _ => False
    end.
Proof.
  intros (H1 & H2 & H3 & H4 & H5 & H6) Hbs Hok E.
  pose proof (binv_listen react (s_buf (w_sock w)) (tame_buf _ _ (polite_tame _ H3)) w o w') as Hb.
  destruct Hb as (_ & (new' & Hn' & Hsz) & _);
    [split; [apply stop_only_buf, clean_stop_only, H1|reflexivity]|exact E|].
  destruct (listen_history react w o w' fs bs) as (new & G1 & G2 & G3 & G4 & _); try assumption.
  exists new. assert (new' = new) as -> by (rewrite G1 in Hn'; now apply app_inv_head in Hn').
  auto.
Qed.

Lemma seen_some k l os : s_listener k = Some l -> seen k os = os.
Proof. unfold seen. now intros ->. Qed.
Lemma seen_none k os : s_listener k = None -> seen k os = [].
Proof. unfold seen. now intros ->. Qed.

(** A frame whose header is rejected after an accepted history. *)
Lemma rejects react w o w' fs lf fin r1 r2 r3 op k n rest :
  good react w -> history_ok (opn_of w) fs = true -> op < 16 -> lform_fits lf n ->
  bs_of w = wires fs ++ rfc_header lf fin r1 r2 r3 op k n ++ rest ->
  accepts (open_after (opn_of w) fs) (FInfo fin (rsv_of r1 r2 r3) op k n) = false ->
  listen react w = (o, w') ->
  o = Ret tt /\ bs_of w' = rest /\
  exists new, w_log w' = w_log w ++ new /\ transcript new = seen (w_sock w) (frames_shown fs).
Proof.
  intros Hg Hok Hop Hlf Hbs Ha E.
  destruct (reading_rejected (open_after (opn_of w) fs) (rfc_header lf fin r1 r2 r3 op k n ++ rest)
     (FInfo fin (rsv_of r1 r2 r3) op k n) rest) as [R1 R2];
    [now apply rd_header_rfc|exact Ha|].
  destruct (listen_hist _ _ _ _ _ _ Hg Hbs Hok E) as (new & G1 & G2 & G3 & _ & G4).
  rewrite R1, app_nil_r in G3. rewrite R2 in G4. destruct G4 as [-> G4].
  split; [reflexivity|]. split; [exact G4|]. eauto.
Qed.

(** The same under any failure and any listener that does not reconfigure. *)
Lemma rejects_safe react w o w' fs lf fin r1 r2 r3 op k n rest :
  stop_only (w_in w) -> last_ok (w_sock w) -> tame_react react ->
  history_ok (opn_of w) fs = true -> op < 16 -> lform_fits lf n ->
  bs_of w = wires fs ++ rfc_header lf fin r1 r2 r3 op k n ++ rest ->
  accepts (open_after (opn_of w) fs) (FInfo fin (rsv_of r1 r2 r3) op k n) = false ->
  listen react w = (o, w') ->
  exists new, w_log w' = w_log w ++ new /\ prefix (transcript new) (frames_shown fs).
Proof.
  intros Hs Hl Ht Hok Hop Hlf Hbs Ha E.
  destruct (reading_rejected (open_after (opn_of w) fs) (rfc_header lf fin r1 r2 r3 op k n ++ rest)
     (FInfo fin (rsv_of r1 r2 r3) op k n) rest) as [R1 R2];
    [now apply rd_header_rfc|exact Ha|].
  destruct (listen_safe _ _ _ _ Hs Hl Ht E) as (_ & new & G1 & _ & G3 & _).
  exists new. split; [exact G1|]. rewrite Hbs in G3.
  destruct (stream_wires fs (opn_of w) (rfc_header lf fin r1 r2 r3 op k n ++ rest) Hok) as [S1 _].
  rewrite S1, R1, app_nil_r in G3. exact G3.
Qed.

(** A frame read in full after an accepted history. *)
Lemma listens_frame react w o w' fs lf f rest :
  good react w -> history_ok (opn_of w) (fs ++ [(lf, f)]) = true ->
  bs_of w = wires fs ++ wire lf f ++ rest ->
  listen react w = (o, w') ->
  exists new, w_log w' = w_log w ++ new /\ Forall (fun e => s_listener (w_sock w) = Some (fst e)) new /\
    transcript new = seen (w_sock w) (frames_shown fs ++ frame_shown f ++
       stream_reading (open_after (opn_of w) (fs ++ [(lf, f)])) rest).
Proof.
  intros Hg Hok Hbs E.
  assert (bs_of w = wires (fs ++ [(lf, f)]) ++ rest) as Hbs'.
  { rewrite Hbs. unfold wires. rewrite flat_map_app. cbn [flat_map fst snd]. now rewrite app_nil_r, app_assoc. }
  destruct (listen_hist _ _ _ _ _ _ Hg Hbs' Hok E) as (new & G1 & G2 & G3 & _).
  exists new. split; [exact G1|]. split; [exact G2|]. rewrite G3. f_equal. unfold frames_shown. rewrite flat_map_app.
  cbn [flat_map snd]. now rewrite app_nil_r, <- app_assoc.
Qed.

(** * Truncated streams *)

Lemma rd_header_app p q i rest : rd_header p = Some (i, rest) -> rd_header (p ++ q) = Some (i, rest ++ q).
Proof.
  destruct p as [|b0 [|b1 r]]; try discriminate. cbn [app]. unfold rd_header. cbv zeta.
  set (ext := if b2n b1 mod 128 =? 126 then 2 else if b2n b1 mod 128 =? 127 then 8 else 0).
  destruct (N.ltb_spec (lenN r) ext) as [H|H]; [discriminate|].
  destruct (N.ltb_spec (lenN (r ++ q)) ext) as [H'|H']; [rewrite lenN_app in H'; lia|].
  rewrite takeN_app, dropN_app. replace (ext - lenN r) with 0 by lia. rewrite takeN_0, dropN_0, app_nil_r.
  destruct (b2n b1 <? 128).
  - intros E. assert (dropN ext r = rest) as <- by congruence.
    assert (forall A B (x y : A) (z z' : B), Some (x, z) = Some (y, z') -> x = y) as Hi by (intros; congruence).
    apply Hi in E. rewrite E. reflexivity.
  - destruct (dropN ext r) as [|k0 [|k1 [|k2 [|k3 r3]]]]; try discriminate. cbn [app].
    intros E. assert (r3 = rest) as <- by congruence.
    assert (forall A B (x y : A) (z z' : B), Some (x, z) = Some (y, z') -> x = y) as Hi by (intros; congruence).
    apply Hi in E. rewrite E. reflexivity.
Qed.

Lemma rfc_masked_app_prefix k p q : prefix (masked_opt k p) (masked_opt k (p ++ q)).
Proof.
  destruct k as [k|]; cbn [masked_opt]; [|eexists; reflexivity].
  rewrite <- !xor_from_rfc. exists (xor_from k (0 + lenN p) q). apply xor_from_app.
Qed.

Lemma shown_prefix op fin a b c : prefix a b -> prefix (shown op fin a false) (shown op fin b c).
Proof.
  intros [t ->]. unfold shown. cbn [andb].
  destruct op as [|[[[[p|p|]|[p|p|]|]|[[p|p|]|[p|p|]|]|]|[[[p|p|]|[p|p|]|]|[[p|p|]|[p|p|]|]|]|]];
    first [ destruct c; apply prefix_nil
          | rewrite map_app, app_nil_r, <- app_assoc; apply prefix_app_r ].
Qed.

Lemma reading_trunc k : forall opn p q, prefix (fst (reading k opn p)) (fst (reading k opn (p ++ q))).
Proof.
  induction k as [|k IH]; intros opn p q; [apply prefix_nil|]. cbn [reading].
  destruct (rd_header p) as [[i rest]|] eqn:E; [|apply prefix_nil].
  rewrite (rd_header_app _ _ _ _ E). destruct (negb (accepts opn i)); [apply prefix_nil|].
  set (n := eff_len (i_len i)).
  destruct (N.leb_spec n (lenN rest)) as [Hn|Hn]; cbn [negb].
  - destruct (N.leb_spec n (lenN (rest ++ q))) as [Hn'|Hn']; [|rewrite lenN_app in Hn'; lia]. cbn [negb].
    rewrite takeN_app, dropN_app. replace (n - lenN rest) with 0 by lia. rewrite takeN_0, dropN_0, app_nil_r.
    destruct (i_opcode i =? 8); [apply prefix_refl|].
    specialize (IH (next_open opn i) (dropN n rest) q).
    destruct (reading k _ (dropN n rest)) as [m1 e1]. destruct (reading k _ (dropN n rest ++ q)) as [m2 e2].
    cbn [fst] in *. now apply prefix_app_l.
  - set (c := n <=? lenN (rest ++ q)).
    assert (prefix (shown (i_opcode i) (i_fin i) (masked_opt (i_key i) (takeN n rest)) false)
              (shown (i_opcode i) (i_fin i) (masked_opt (i_key i) (takeN n (rest ++ q))) c)) as HP.
    { apply shown_prefix. rewrite takeN_app. apply rfc_masked_app_prefix. }
    destruct c; cbn [negb]; [|exact HP].
    destruct (i_opcode i =? 8); [exact HP|]. destruct (reading k _ _) as [m2 e2]. cbn [fst] in *.
    destruct HP as [t HP]. rewrite HP. exists (t ++ m2). now rewrite app_assoc.
Qed.

Lemma stream_trunc opn p q : prefix (stream_reading opn p) (stream_reading opn (p ++ q)).
Proof.
  pose proof (stream_enough (S (length (p ++ q))) opn p) as H1.
  rewrite app_length in H1. specialize (H1 ltac:(lia)).
  pose proof (reading_trunc (S (length (p ++ q))) opn p q) as H. rewrite app_length in H. rewrite H1 in H.
  unfold stream_reading at 2. rewrite app_length. exact H.
Qed.

(** * Sent sequences *)

Lemma plain_opcode op k : plain_send op -> lenN (req_payload op) < 2 ^ 63 ->
  f_opcode (frame_for k op) < 16 /\ lform_ok (lform_min (lenN (req_payload op))) (lenN (req_payload op)) = true /\
  accepts false (finfo_of (frame_for k op)) = true /\ f_opcode (frame_for k op) <> 8 /\
  next_open false (finfo_of (frame_for k op)) = false /\ frame_shown (frame_for k op) = received op.
Proof.
  intros Hp Hl. split; [cbn; apply N.mod_lt; lia|]. split; [now apply lform_min_ok|].
  assert (forall m, lenN (msg_of m) <= 125 -> (eff_len (lenN (msg_of m)) <=? 125) = true) as He.
  { intros m Hm. unfold eff_len. destruct (_ <? _); lia. }
  destruct op as [fin o m|c m| |m|m|m|m]; try contradiction; cbn in Hp; unfold req_payload in *; cbn [request snd] in *;
    (split; [cbn; try apply He; auto|]; split; [cbn; lia|]; split; reflexivity).
Qed.

(** The frames of a sequence of plain sends, whatever the keys. *)
Definition sent_frames (kops : list (option mask4 * sendop)) : list (lform * frame) :=
  map (fun x => (lform_min (lenN (req_payload (snd x))), frame_for (fst x) (snd x))) kops.

Lemma sent_history kops :
  Forall (fun x => plain_send (snd x) /\ lenN (req_payload (snd x)) < 2 ^ 63) kops ->
  history_ok false (sent_frames kops) = true /\ open_after false (sent_frames kops) = false /\
  frames_shown (sent_frames kops) = flat_map (fun x => received (snd x)) kops.
Proof.
  induction 1 as [|[k op] r [Hp Hl] _ (IH1 & IH2 & IH3)]; [auto|]. cbn [fst snd] in *.
  destruct (plain_opcode op k Hp Hl) as (H1 & H2 & H3 & H4 & H5 & H6).
  unfold sent_frames in *. cbn [map history_ok open_after fst snd frames_shown flat_map].
  split; [|split].
  - rewrite !andb_true_iff. repeat split; try assumption; [lia|lia|]. now rewrite H5.
  - now rewrite H5.
  - fold (frames_shown (map (fun x => (lform_min (lenN (req_payload (snd x))), frame_for (fst x) (snd x))) r)).
    now rewrite H6, IH3.
Qed.

Lemma flat_map_snd (f : sendop -> list obs) (kops : list (option mask4 * sendop)) :
  flat_map (fun x => f (snd x)) kops = flat_map f (map snd kops).
Proof. induction kops as [|x r IH]; cbn; [reflexivity|now rewrite IH]. Qed.

Lemma send_all_healthy ops : forall w o w', healthy (w_wr w) -> Forall (fits (s_mask (w_sock w))) ops ->
  send_all ops w = (o, w') ->
  o = Ret tt /\ healthy (w_wr w') /\ w_sock w' = w_sock w /\
  exists kops, map snd kops = ops /\ Forall (fun x => has_key (fst x) = s_mask (w_sock w)) kops /\
    w_out w' = w_out w ++ wires (sent_frames kops).
Proof.
  induction ops as [|op r IH]; intros w o w' Hh Hf E; cbn [send_all] in E.
  - injection E as <- <-. repeat split; auto. exists []. cbn. rewrite app_nil_r. auto.
  - inversion Hf as [|? ? [F1 F2] F3]; subst. unfold bind in E. destruct (send op w) as [o1 w1] eqn:E1.
    apply send_spec in E1; [|exact F1]. destruct E1 as (p & _ & Ho & _ & _ & _ & _ & _ & _ & Hx).
    destruct (Hx Hh F2) as (-> & -> & Hh1 & Hs1). 
    destruct (IH w1 o w') as (-> & H2 & H3 & kops & H4 & H5 & H6); [exact Hh1|now rewrite Hs1|exact E|].
    split; [reflexivity|]. split; [exact H2|]. split; [congruence|].
    exists ((next_key_opt w, op) :: kops). cbn [map snd fst sent_frames wires flat_map]. rewrite H4. split; [reflexivity|].
    split.
    + constructor; [unfold next_key_opt; cbn; now destruct (s_mask (w_sock w))|]. now rewrite Hs1 in H5.
    + rewrite H6, Ho. fold (sent_frames kops). fold (wires (sent_frames kops)).
      unfold sent_wire. cbn [app]. now rewrite app_assoc.
Qed.

(** Whatever the connection does, what a sequence of sends leaves on the wire is a prefix of its frames. *)
Lemma send_all_prefix ops : forall w o w', Forall (fun op => lenN (req_payload op) < 2 ^ 63) ops ->
  Forall (fun op => forall fin c m, op <> SoFrame fin c m) ops ->
  send_all ops w = (o, w') ->
  exists kops p, map snd kops = ops /\ w_out w' = w_out w ++ p /\ prefix p (wires (sent_frames kops)).
Proof.
  induction ops as [|op r IH]; intros w o w' Hf Hnf E; cbn [send_all] in E.
  - injection E as <- <-. exists [], []. cbn. rewrite app_nil_r. split; [reflexivity|]. split; [reflexivity|]. apply prefix_refl.
  - inversion Hf as [|? ? F1 F3]; subst. inversion Hnf as [|? ? N1 N2]; subst.
    unfold bind in E. destruct (send op w) as [o1 w1] eqn:E1.
    apply send_spec in E1; [|exact F1]. destruct E1 as (p & Hp & Ho & _ & _ & _ & Hret & _ & _ & _).
    assert (exists kr : list (option mask4 * sendop), map snd kr = r) as [kr Hkr].
    { exists (map (fun o => (None, o)) r). rewrite map_map. cbn. apply map_id. }
    assert (w1 = w' ->
      exists (kops : list (option mask4 * sendop)) p0, map snd kops = op :: r /\ w_out w' = w_out w ++ p0 /\
        prefix p0 (wires (sent_frames kops))) as Hstop.
    { intros <-. exists ((next_key_opt w, op) :: kr), p. cbn [map snd]. rewrite Hkr. split; [reflexivity|].
      split; [exact Ho|]. destruct Hp as [t Ht]. exists (t ++ wires (sent_frames kr)).
      cbn [sent_frames map wires flat_map fst snd]. rewrite app_assoc. f_equal. exact Ht. }
    destruct o1 as [[]|e| |u|]; try (apply Hstop; congruence).
    destruct (IH w1 o w' F3 N2 E) as (kops & p2 & H4 & H5 & [t H6]).
    rewrite (Hret eq_refl N1) in Ho.
    exists ((next_key_opt w, op) :: kops), (sent_wire (next_key_opt w) op ++ p2). cbn [map snd]. rewrite H4.
    split; [reflexivity|]. split; [rewrite H5, Ho; now rewrite app_assoc|].
    exists t. cbn [sent_frames map wires flat_map fst snd]. fold (sent_frames kops). fold (wires (sent_frames kops)).
    rewrite H6. now rewrite app_assoc.
Qed.
