(** Lemmas about histories of frames, close observations, stops. *)
From Verif Require Import Bytes Frame World WebSocket SpecFrame SpecSend SpecListen SpecApi
  ProofFrame ProofStream ProofSend ProofHeader ProofListen ProofReading ProofApi ProofInv ProofRel ProofSilent ProofProps.
From Coq Require Import ZifyBool ZifyNat ZifyN.
Local Open Scope N_scope.
Local Open Scope m_scope.
Local Arguments takeN : simpl never.
Local Arguments dropN : simpl never.
Local Arguments lenN : simpl never.
Local Arguments be_enc : simpl never.
Local Arguments be_dec : simpl never.

(** * Close is last *)
Lemma shown_no_close op fin av c : op <> 8 -> forall code m, ~ In (OClose code m) (shown op fin av c).
Proof.
  intros H8 code m. unfold shown.
  assert (forall x, ~ In (OClose code m) (map (OByte x) av ++ (if c && fin then [OEnd x] else []))) as Hd.
  { intros x Hin. apply in_app_or in Hin. destruct Hin as [Hin|Hin].
    - eapply map_OByte_no_close; exact Hin.
    - destruct (c && fin); [|contradiction]. destruct Hin as [?|[]]; discriminate. }
  destruct op as [|[[[[p|p|]|[p|p|]|]|[[p|p|]|[p|p|]|]|]|[[[p|p|]|[p|p|]|]|[[p|p|]|[p|p|]|]|]|]];
    try exact (Hd _); try congruence; destruct c; cbn; intuition discriminate.
Qed.

Lemma app_cons_split {A} (P : A -> Prop) (l1 l2 a b : list A) x :
  (forall y, In y l1 -> ~ P y) -> P x -> l1 ++ l2 = a ++ x :: b -> exists a', l2 = a' ++ x :: b /\ a = l1 ++ a'.
Proof.
  revert a; induction l1 as [|y r IH]; intros a Hn Hx E; [eauto|].
  destruct a as [|z a]; cbn in E; injection E as -> E.
  - exfalso. apply (Hn x); [left; reflexivity|exact Hx].
  - destruct (IH a) as (a' & -> & ->); [intros w Hw; apply Hn; now right|exact Hx|exact E|]. eauto.
Qed.

Lemma close_obs_is p : exists c m, close_obs p = OClose c m.
Proof. destruct p as [|a [|b r]]; cbn; eauto. Qed.

Lemma reading_close_last k : forall opn bs a c m b, fst (reading k opn bs) = a ++ OClose c m :: b -> b = [].
Proof.
  induction k as [|k IH]; intros opn bs a c m b E; cbn [reading] in E; [destruct a; discriminate|].
  destruct (rd_header bs) as [[i rest]|]; [|destruct a; discriminate].
  destruct (negb (accepts opn i)); [destruct a; discriminate|].
  set (n := eff_len (i_len i)) in *. set (av := masked_opt (i_key i) (takeN n rest)) in *.
  assert (forall cc, shown (i_opcode i) (i_fin i) av cc = a ++ OClose c m :: b -> b = []) as Hsh.
  { intros cc Es. destruct (N.eq_dec (i_opcode i) 8) as [H8|H8].
    - rewrite H8 in Es. cbn in Es. destruct cc; [|destruct a; discriminate].
      destruct a as [|? a]; cbn in Es; [congruence|]. destruct a; discriminate.
    - exfalso. apply (shown_no_close _ (i_fin i) av cc H8 c m). rewrite Es. apply in_or_app. right; left; reflexivity. }
  destruct (negb (n <=? lenN rest)); [now apply Hsh in E|].
  destruct (N.eqb_spec (i_opcode i) 8) as [H8|H8]; [now apply Hsh in E|].
  destruct (reading k _ _) as [more e] eqn:Er. cbn [fst] in E.
  apply (app_cons_split (fun o => match o with OClose _ _ => True | _ => False end)) in E; [|intros y Hy Hp|exact I].
  - destruct E as (a' & -> & _). eapply (IH _ _ a'). rewrite Er. reflexivity.
  - destruct y; try contradiction. eapply shown_no_close; eassumption.
Qed.

(** * Openness *)
Lemma open_started fs : forall opn, history_ok opn fs = true -> open_after opn fs = (opn || started fs)%bool.
Proof.
  induction fs as [|[lf f] r IH]; intros opn H; cbn [open_after started existsb]; [now rewrite orb_false_r|].
  cbn [history_ok] in H. rewrite !andb_true_iff in H. destruct H as ((((H1 & H2) & H3) & H4) & H5).
  rewrite IH by exact H5. cbn [snd]. fold (started r). unfold is_data. unfold accepts, next_open in *.
  cbn [finfo_of i_opcode i_fin i_len] in *.
  destruct (N.eqb_spec (f_opcode f) 1) as [E1|E1]; [rewrite E1 in *; cbn [orb andb] in *|].
  - destruct opn; [discriminate H3|]. destruct (f_fin f); reflexivity.
  - destruct (N.eqb_spec (f_opcode f) 2) as [E2|E2]; [rewrite E2 in *; cbn [orb andb] in *|].
    + destruct opn; [discriminate H3|]. destruct (f_fin f); reflexivity.
    + cbn [orb andb]. clear IH H5. destruct (f_opcode f) as [|[[p|p|]|[p|p|]|]]; try reflexivity; lia.
Qed.

Lemma msg_open_started fs : forall b, msg_open b fs = true -> b = true \/ started fs = true.
Proof.
  induction fs as [|[lf f] r IH]; intros b H; cbn [msg_open started existsb] in *; [auto|]. cbn [snd]. fold (started r).
  destruct (is_data f); cbn [andb].
  - apply IH in H. destruct (f_fin f); cbn in *; [destruct H; [discriminate|auto]|auto].
  - cbn [orb]. apply IH in H. destruct ((f_opcode f =? 0) && f_fin f); [destruct H; [discriminate|auto]|exact H].
Qed.

(** * Cleaned frames *)
Lemma wires_app a b : wires (a ++ b) = wires a ++ wires b.
Proof. unfold wires. apply flat_map_app. Qed.
Lemma frames_shown_app a b : frames_shown (a ++ b) = frames_shown a ++ frames_shown b.
Proof. unfold frames_shown. apply flat_map_app. Qed.

Lemma history_ok_app a : forall opn b, history_ok opn (a ++ b) = (history_ok opn a && history_ok (open_after opn a) b)%bool.
Proof.
  induction a as [|[lf f] r IH]; intros opn b; cbn [app history_ok open_after]; [reflexivity|].
  rewrite IH. now rewrite !andb_assoc.
Qed.
Lemma open_after_app a : forall opn b, open_after opn (a ++ b) = open_after (open_after opn a) b.
Proof. induction a as [|[lf f] r IH]; intros opn b; cbn; [reflexivity|apply IH]. Qed.

Lemma cleaned_frame opn f :
  accepts opn (finfo_of (cleaned f)) = accepts opn (finfo_of f) /\
  next_open opn (finfo_of (cleaned f)) = next_open opn (finfo_of f) /\ frame_shown (cleaned f) = frame_shown f.
Proof.
  unfold accepts, next_open, frame_shown, shown, cleaned, is_control. cbn [finfo_of i_opcode i_fin i_len f_opcode f_fin f_payload].
  destruct (f_opcode f) as [|[[[[p|p|]|[p|p|]|]|[[p|p|]|[p|p|]|]|]|[[[p|p|]|[p|p|]|]|[[p|p|]|[p|p|]|]|]|]]; cbn [N.eqb Pos.eqb orb];
    rewrite ?orb_false_r; auto.
Qed.

Definition clean_all (fs : list (lform * frame)) : list (lform * frame) := map (fun x => (fst x, cleaned (snd x))) fs.

Lemma cleaned_history fs : forall opn,
  history_ok opn (clean_all fs) = history_ok opn fs /\ open_after opn (clean_all fs) = open_after opn fs /\
  frames_shown (clean_all fs) = frames_shown fs.
Proof.
  induction fs as [|[lf f] r IH]; intros opn; [auto|]. unfold clean_all in *. cbn [map history_ok open_after fst snd].
  destruct (cleaned_frame opn f) as (H1 & H2 & H3). rewrite H1, H2.
  destruct (IH (next_open opn (finfo_of f))) as (G1 & G2 & G3). rewrite G1, G2.
  split; [reflexivity|]. split; [reflexivity|].
  unfold frames_shown in *. cbn [flat_map snd]. now rewrite H3, G3.
Qed.

(** * Readings of histories, cut at any frame *)
Lemma reading_hist_cut fs opn bs k : history_ok opn fs = true -> (k <= length fs)%nat ->
  reading k opn (wires fs ++ bs) = (frames_shown (firstn k fs), Stopped (wires (skipn k fs) ++ bs)).
Proof.
  intros H Hk. rewrite <- (firstn_skipn k fs) in H at 1. rewrite history_ok_app, andb_true_iff in H. destruct H as [H _].
  rewrite <- (firstn_skipn k fs) at 1. rewrite wires_app, <- app_assoc.
  assert (k = length (firstn k fs) + 0)%nat as E by (rewrite firstn_length; lia).
  rewrite E at 1. rewrite reading_wires by exact H. cbn. now rewrite app_nil_r.
Qed.

(** * Stops *)
Lemma listen_stop_hist react w o w' fs tail l :
  clean (w_in w) -> healthy (w_wr w) -> polite_react react -> (0 < s_buf (w_sock w))%Z -> last_ok (w_sock w) ->
  s_listener (w_sock w) = Some l ->
  bs_of w = wires fs ++ tail -> history_ok (opn_of w) fs = true ->
  listen react w = (o, w') ->
  exists new, w_log w' = w_log w ++ new /\
   ((exists fs1 x fs2 n1 n2, fs = fs1 ++ x :: fs2 /\ new = n1 ++ n2 /\
       transcript n1 = frames_shown fs1 /\ transcript n2 = frame_shown (snd x) /\
       stops react (w_log w) n1 = false /\ stops react (w_log w ++ n1) n2 = true /\
       o = Ret tt /\ bs_of w' = wires fs2 ++ tail) \/
    (exists n1 n2, new = n1 ++ n2 /\ transcript n1 = frames_shown fs /\ stops react (w_log w) n1 = false)).
Proof.
  intros Hc Hh Hp Hb Hlo Hl Hbs Hok E.
  destruct (listen_unfold react w o w') as (o1 & _ & H & ->);
    [now apply clean_stop_only|exact Hlo|now apply polite_tame|exact E|].
  assert (calm react (entered w)) as C.
  { apply calm_entered. split; [now apply clean_steady|]. auto. }
  destruct H as (new & os & k & Hf & Htr & _ & _ & Hm & Hbef).
  specialize (Hbef C eq_refl).
  destruct Hf as (H1 & _ & _ & _ & _ & _ & _ & H8 & _).
  destruct (H8 C) as (_ & _ & H9). destruct (H9 Hc) as [_ Hlis]. cbn in Hlis.
  change (w_log (entered w)) with (w_log w) in *.
  change (bytes_of (w_in (entered w))) with (bytes_of (w_in w)) in *.
  change (open_of (w_sock (entered w))) with (open_of (w_sock w)) in *.
  assert (forall x, seen (w_sock (entered w)) x = x) as Hseen by (intros x; now apply (seen_some _ l)).
  rewrite Hseen in Htr. exists new. split; [exact H1|]. rewrite Hbs in *.
  destruct (le_gt_dec k (length fs)) as [Hk|Hk].
  - left. rewrite (reading_hist_cut _ _ _ _ Hok Hk) in Hm. cbn [fst snd] in Hm.
    destruct o1 as [[]|e| |u|].
    2:{ destruct (Hm C); discriminate. } 2:{ destruct (Hm C) as (_ & ? & _); discriminate. } 2:{ destruct Hm; contradiction. } 2: contradiction.
    destruct Hm as [Hos [Hm|[Hm Hlf]]]; [discriminate|]. injection Hm as Hm.
    assert (stops react (w_log w) new = true) as Hst.
    { rewrite Hlf in Hlis. now destruct (stops react (w_log w) new). }
    destruct k as [|j].
    { exfalso. cbn in Hos. subst os. assert (new = []) as ->.
      { pose proof (binv_listen react (s_buf (w_sock w)) (tame_buf _ _ (polite_tame _ Hp)) w (Ret tt) w') as Hbn.
        destruct Hbn as (_ & (new' & Hn' & Hsz) & _);
          [split; [apply stop_only_buf, clean_stop_only, Hc|reflexivity]|exact E|].
        assert (new' = new) as -> by (rewrite H1 in Hn'; now apply app_inv_head in Hn').
        eapply transcript_nil_log; eassumption. }
      discriminate. }
    destruct (Hbef j ltac:(lia)) as (n1 & n2 & rest & -> & T1 & T2 & _).
    rewrite (reading_hist_cut _ _ _ _ Hok) in T1 by lia. cbn [fst] in T1. rewrite Hseen in T1.
    destruct (skipn j fs) as [|x fs2] eqn:Ej.
    { apply (f_equal (@length _)) in Ej. rewrite skipn_length in Ej. cbn in Ej. lia. }
    assert (firstn (S j) fs = firstn j fs ++ [x]) as Efst.
    { rewrite <- (firstn_skipn j fs) at 1. rewrite Ej, firstn_app, firstn_firstn.
      replace (Nat.min (S j) j) with j by lia. f_equal. rewrite firstn_length.
      replace (S j - Nat.min j (length fs))%nat with 1%nat by lia. reflexivity. }
    assert (skipn (S j) fs = fs2) as Eskp.
    { rewrite <- (firstn_skipn j fs) at 1. rewrite Ej, skipn_app, firstn_length.
      rewrite skipn_all2 by (rewrite firstn_length; lia).
      replace (S j - Nat.min j (length fs))%nat with 1%nat by lia. reflexivity. }
    exists (firstn j fs), x, fs2, n1, n2.
    split; [rewrite <- (firstn_skipn j fs) at 1; now rewrite Ej|]. split; [reflexivity|].
    split; [exact T1|]. split.
    { rewrite transcript_app, Hos, Efst, frames_shown_app, T1 in Htr. apply app_inv_head in Htr.
      cbn in Htr. now rewrite app_nil_r in Htr. }
    split; [exact T2|]. split.
    { rewrite stops_app in Hst. change (w_log (entered w)) with (w_log w) in T2. rewrite T2 in Hst. exact Hst. }
    split; [reflexivity|]. now rewrite <- Hm, Eskp.
  - right. destruct (Hbef (length fs) ltac:(lia)) as (n1 & n2 & rest & -> & T1 & T2 & _).
    rewrite (reading_hist_cut _ _ _ _ Hok) in T1 by lia. cbn [fst] in T1. rewrite Hseen, firstn_all in T1.
    exists n1, n2. auto.
Qed.

(** A stop that arrives before the last byte of frame [x]. *)
Lemma stop_tail_app s1 s2 : exists t, stop_tail (s1 ++ RExt XStop :: s2) = Some t /\ lenN (bytes_of s2) <= lenN (bytes_of t).
Proof.
  induction s1 as [|e s IH]; cbn [app stop_tail].
  - exists s2. split; [reflexivity|lia].
  - destruct e as [b bs|e|[| |]]; try exact IH. eexists; split; [reflexivity|].
    clear. induction s as [|e s IH]; cbn [app bytes_of]; [lia|]. destruct e as [b bs|e|x]; cbn [bytes_of]; rewrite ?lenN_cons, ?lenN_app; lia.
Qed.

Lemma listen_ext_stop react w o w' fs lf f rest s1 s2 :
  calm react w -> last_ok (w_sock w) ->
  w_in w = s1 ++ RExt XStop :: s2 -> bs_of w = wires fs ++ wire lf f ++ rest ->
  history_ok (opn_of w) fs = true ->
  f_opcode f < 16 -> lform_ok lf (lenN (f_payload f)) = true -> accepts (open_after (opn_of w) fs) (finfo_of f) = true ->
  lenN rest < lenN (bytes_of s2) ->
  listen react w = (o, w') ->
  o = Ret tt /\ lenN rest <= lenN (bs_of w').
Proof.
  intros C Hlo Hin Hbs Hok Hop Hlf Ha Hlen E.
  destruct (listen_unfold react w o w') as (o1 & _ & H & ->);
    [apply steady_stop_only, C|exact Hlo|apply polite_tame, C|exact E|].
  apply calm_entered in C.
  destruct H as (new & os & k & Hf & Htr & _ & _ & Hm & Hbef).
  specialize (Hbef C eq_refl).
  change (w_in (entered w)) with (w_in w) in *.
  change (open_of (w_sock (entered w))) with (open_of (w_sock w)) in *.
  destruct (stop_tail_app s1 s2) as (t & Et & Hle). rewrite <- Hin in Et.
  assert (reading (length fs + 1) (opn_of w) (bs_of w) =
            if f_opcode f =? 8 then (frames_shown fs ++ frame_shown f, Closed rest)
            else (frames_shown fs ++ frame_shown f ++ [], Stopped rest)) as HR.
  { rewrite Hbs, reading_wires by exact Hok. rewrite reading_wire by assumption.
    destruct (f_opcode f =? 8); reflexivity. }
  assert (k <= length fs + 1)%nat as Hk.
  { destruct (le_gt_dec k (length fs + 1)) as [Hk|Hk]; [exact Hk|exfalso].
    destruct (Hbef (length fs + 1)%nat ltac:(lia)) as (n1 & n2 & r & _ & _ & _ & T1 & T2).
    rewrite HR in T1. destruct (f_opcode f =? 8); [discriminate|]. cbn in T1. injection T1 as <-.
    specialize (T2 t Et). lia. }
  assert (exists r, (snd (reading k (opn_of w) (bs_of w)) = Stopped r \/ snd (reading k (opn_of w) (bs_of w)) = Closed r) /\
            lenN rest <= lenN r) as (r & Hr & Hrl).
  { destruct (le_gt_dec k (length fs)) as [Hk'|Hk'].
    - rewrite Hbs, (reading_hist_cut _ _ _ _ Hok Hk'). eexists. split; [left; reflexivity|]. rewrite !lenN_app. lia.
    - replace k with (length fs + 1)%nat by lia. rewrite HR. exists rest.
      split; [destruct (f_opcode f =? 8); auto|lia]. }
  destruct o1 as [[]|e| |u|].
  - split; [reflexivity|]. destruct Hm as [_ [Hm|[Hm _]]]; rewrite Hm in Hr; destruct Hr as [Hr|Hr]; try discriminate;
      injection Hr as ->; exact Hrl.
  - destruct (Hm C) as [_ Hm']. rewrite Hm' in Hr. destruct Hr; discriminate.
  - destruct (Hm C) as (_ & Hm' & _). rewrite Hm' in Hr. destruct Hr; discriminate.
  - destruct Hm; contradiction.
  - contradiction.
Qed.

(** * RFC readings *)
Lemma rfc_step msk i :
  rfc_accepts msk None i = true ->
  (if i_opcode i <? 8 then i_fin i && negb (i_opcode i =? 0) else true) = true ->
  accepts false i = true /\ next_open false i = false /\ rfc_next None i = None /\ rfc_op None i = i_opcode i /\
  eff_len (i_len i) = i_len i.
Proof.
  unfold rfc_accepts. rewrite !andb_true_iff. intros (((H1 & H2) & H3) & H4) H5.
  assert (eff_len (i_len i) = i_len i) as He by (unfold eff_len; now rewrite H3).
  unfold accepts, next_open, rfc_next, rfc_op. rewrite He.
  destruct (i_opcode i) as [|[[[[p|p|]|[p|p|]|]|[[p|p|]|[p|p|]|]|]|[[[p|p|]|[p|p|]|]|[[p|p|]|[p|p|]|]|]|]]; try discriminate;
    cbn in H5; try (apply andb_true_iff in H4; destruct H4 as [H4 H4']);
    rewrite ?andb_true_r in H5; rewrite ?H5, ?H4, ?H4'; auto.
Qed.

Lemma rfc_same k : forall msk bs, unfragmented k bs = true -> not_rejected (snd (rfc_reading k msk None bs)) = true ->
  reading k false bs = rfc_reading k msk None bs.
Proof.
  induction k as [|k IH]; intros msk bs Hu Hn; [reflexivity|]. cbn [reading rfc_reading unfragmented] in *.
  destruct (rd_header bs) as [[i rest]|]; [|reflexivity].
  apply andb_true_iff in Hu. destruct Hu as [Hu1 Hu2].
  destruct (rfc_accepts msk None i) eqn:Ha; cbn [negb] in *; [|discriminate].
  destruct (rfc_step _ _ Ha Hu1) as (-> & -> & H3 & -> & ->). cbn [negb].
  destruct (i_len i <=? lenN rest); cbn [negb] in *; [|reflexivity].
  destruct (i_opcode i =? 8); [reflexivity|]. rewrite H3 in *.
  rewrite (IH msk); [reflexivity|exact Hu2|].
  destruct (rfc_reading k msk None (dropN (i_len i) rest)); exact Hn.
Qed.

(** Up to the first violation the library shows what the RFC prescribes. *)
Lemma rfc_prefix k : forall msk bs, unfragmented k bs = true ->
  prefix (fst (rfc_reading k msk None bs)) (fst (reading k false bs)).
Proof.
  induction k as [|k IH]; intros msk bs Hu; [apply prefix_nil|]. cbn [reading rfc_reading unfragmented] in *.
  destruct (rd_header bs) as [[i rest]|]; [|apply prefix_nil].
  apply andb_true_iff in Hu. destruct Hu as [Hu1 Hu2].
  destruct (rfc_accepts msk None i) eqn:Ha; cbn [negb] in *; [|apply prefix_nil].
  destruct (rfc_step _ _ Ha Hu1) as (-> & -> & H3 & -> & ->). cbn [negb].
  destruct (i_len i <=? lenN rest); cbn [negb] in *; [|apply prefix_refl].
  destruct (i_opcode i =? 8); [apply prefix_refl|]. rewrite H3 in *.
  specialize (IH msk _ Hu2).
  destruct (rfc_reading k msk None (dropN (i_len i) rest)), (reading k false (dropN (i_len i) rest)).
  now apply prefix_app_l.
Qed.

(** A frame of effective length zero is shown and what follows its header is read on. *)
Lemma stream_empty_frame opn bs i rest :
  rd_header bs = Some (i, rest) -> eff_len (i_len i) = 0 -> accepts opn i = true -> i_opcode i <> 8 ->
  stream_reading opn bs = shown (i_opcode i) (i_fin i) [] true ++ stream_reading (next_open opn i) rest.
Proof.
  intros Hh Hn Ha H8. unfold stream_reading at 1. cbn [reading]. rewrite Hh, Hn, Ha. cbn [negb].
  rewrite takeN_0, dropN_0. destruct (N.leb_spec 0 (lenN rest)); [|lia]. cbn [negb].
  destruct (N.eqb_spec (i_opcode i) 8); [contradiction|].
  assert (masked_opt (i_key i) [] = []) as -> by (destruct (i_key i); reflexivity).
  apply rd_header_len in Hh. pose proof (stream_enough (length bs) (next_open opn i) rest ltac:(lia)) as HS.
  destruct (reading (length bs) (next_open opn i) rest) as [more e]. cbn [fst]. f_equal. congruence.
Qed.
