(** Payload reading, frame handling and the listen loop against the reading of the byte stream. *)
From Verif Require Import Bytes Frame World WebSocket SpecFrame SpecSend SpecListen ProofFrame ProofStream ProofSend ProofHeader.
From Coq Require Import ZifyBool ZifyNat ZifyN.
Local Open Scope N_scope.
Local Open Scope m_scope.
Local Arguments takeN : simpl never.
Local Arguments dropN : simpl never.
Local Arguments lenN : simpl never.
Local Arguments be_enc : simpl never.
Local Arguments be_dec : simpl never.

Lemma stops_app react log n1 n2 :
  stops react log (n1 ++ n2) = (stops react log n1 || stops react (log ++ n1) n2)%bool.
Proof.
  revert log; induction n1 as [|e r IH]; intros log; cbn.
  - now rewrite app_nil_r.
  - rewrite IH, <- app_assoc. cbn. now rewrite Bool.orb_assoc.
Qed.

Lemma polite_tame react : polite_react react -> tame_react react.
Proof.
  intros H l log. specialize (H l log). eapply Forall_impl; [|exact H].
  intros []; cbn; tauto.
Qed.

Lemma keeps_exec_cmds cs : Forall tame_cmd cs -> keeps (exec_cmds cs).
Proof.
  induction 1 as [|c cs Hc _ IH]; cbn [exec_cmds]; [auto with keeps|].
  apply keeps_bind; [|intros _; exact IH].
  destruct c as [| | |catch op| | |fin0 opc0 msg0]; cbn [exec_cmd tame_cmd] in *; try contradiction; auto with keeps.
  destruct catch; auto using keeps_try with keeps.
Qed.

Lemma exec_cmds_polite cs w o w' :
  Forall polite_cmd cs -> healthy (w_wr w) -> exec_cmds cs w = (o, w') ->
  o = Ret tt /\ s_listening (w_sock w') = (s_listening (w_sock w) && negb (existsb is_stop_cmd cs))%bool.
Proof.
  intros Hc. revert w; induction Hc as [|c cs Hc _ IH]; intros w Hw E; cbn [exec_cmds] in E.
  - injection E as <- <-. cbn. now rewrite Bool.andb_true_r.
  - unfold bind in E. destruct (exec_cmd c w) as [o1 w1] eqn:E1.
    assert (o1 = Ret tt /\ healthy (w_wr w1) /\
            s_listening (w_sock w1) = (s_listening (w_sock w) && negb (is_stop_cmd c))%bool) as (-> & Hw1 & Hl).
    { assert (forall op, lenN (req_payload op) < 2 ^ 31 -> forall o1 w1, send op w = (o1, w1) ->
               o1 = Ret tt /\ healthy (w_wr w1) /\ s_listening (w_sock w1) = s_listening (w_sock w)) as Hs.
      { intros op Hop o2 w2 E2. apply send_spec in E2; [|lia].
        destruct E2 as (p & _ & _ & _ & _ & _ & _ & _ & _ & H).
        destruct (H Hw (fun _ => Hop)) as (H1 & _ & H2 & H3). rewrite H3. auto. }
      destruct c as [| | |catch op| | |fin0 opc0 msg0]; cbn [exec_cmd polite_cmd is_stop_cmd] in *; try contradiction.
      - injection E1 as <- <-. cbn. now rewrite Bool.andb_false_r.
      - rewrite Bool.andb_true_r. destruct catch.
        + unfold try_ in E1. destruct (send op w) as [o2 w2] eqn:E2. apply Hs in E2; [|exact Hc].
          destruct E2 as (-> & H2 & H3). injection E1 as <- <-. auto.
        + apply Hs in E1; [|exact Hc]. exact E1.
      - injection E1 as <- <-. rewrite Bool.andb_true_r. auto.
      - rewrite Bool.andb_true_r. apply demand_healthy in E1; [|lia|exact Hw|intros _; exact Hc]. destruct E1 as [-> E1].
        apply (Hs (SoFrame fin0 opc0 msg0)) in E1; [|exact Hc]. tauto. }
    apply IH in E; [|exact Hw1]. destruct E as [-> E]. split; [reflexivity|].
    rewrite E, Hl. cbn [existsb]. rewrite Bool.negb_orb. now rewrite Bool.andb_assoc.
Qed.

Section L.
Variable react : react_t.
Hypothesis Htame : tame_react react.

Notation calm := (calm react).

(** [step w new w']: from [w] to [w'] the listener calls [new] were made. *)
Definition step (w : world) (new : list (nat * event)) (w' : world) : Prop :=
  w_log w' = w_log w ++ new /\
  Forall (fun e => s_listener (w_sock w) = Some (fst e)) new /\
  stop_only (w_in w') /\ tame (w_sock w) (w_sock w') /\
  (calm w -> calm w' /\ (s_listening (w_sock w') = true -> stops react (w_log w) new = false) /\
     (clean (w_in w) -> clean (w_in w') /\
        s_listening (w_sock w') = (s_listening (w_sock w) && negb (stops react (w_log w) new))%bool)) /\
  (s_listening (w_sock w') = true -> stop_tail (w_in w') = stop_tail (w_in w)).

Lemma step_refl w : stop_only (w_in w) -> step w [] w.
Proof.
  intros H. unfold step. rewrite app_nil_r. split; [reflexivity|]. split; [constructor|]. split; [exact H|].
  split; [apply tame_refl|]. cbn. rewrite Bool.andb_true_r. auto.
Qed.

Lemma step_trans w n1 w1 n2 w2 : step w n1 w1 -> step w1 n2 w2 -> step w (n1 ++ n2) w2.
Proof.
  intros (H1 & H2 & H3 & H4 & H5 & H6) (G1 & G2 & G3 & G4 & G5 & G6). unfold step.
  split; [rewrite G1, H1; now rewrite app_assoc|].
  split.
  { apply Forall_app. split; [exact H2|]. destruct H4 as (_ & _ & H4 & _). now rewrite H4 in G2. }
  split; [exact G3|]. split; [eapply tame_trans; eassumption|].
  assert (s_listening (w_sock w2) = true -> s_listening (w_sock w1) = true) as Hl by apply G4.
  split.
  - intros Hc. destruct (H5 Hc) as (H7 & H8 & H9). destruct (G5 H7) as (G7 & G8 & G9). split; [exact G7|].
    rewrite H1 in G8, G9. rewrite stops_app. split.
    + intros L. rewrite (H8 (Hl L)), (G8 L). reflexivity.
    + intros Cl. destruct (H9 Cl) as [H10 H11]. destruct (G9 H10) as [G10 G11]. split; [exact G10|].
      rewrite G11, H11, Bool.negb_orb. now rewrite Bool.andb_assoc.
  - intros L. rewrite (G6 L). auto.
Qed.

Lemma step_trans_nil w n1 w1 w2 : step w n1 w1 -> step w1 [] w2 -> step w n1 w2.
Proof. intros H1 H2. rewrite <- (app_nil_r n1). eapply step_trans; eassumption. Qed.

Lemma step_ronly w w' : ronly w w' -> stop_only (w_in w) -> step w [] w'.
Proof.
  intros Hr Hs. unfold step. rewrite app_nil_r. destruct (ronly_tame _ _ Hr Hs) as [H1 H2].
  pose proof Hr as (G1 & G2 & G3 & G4 & G5 & _ & G7).
  split; [congruence|]. split; [constructor|]. split; [exact H1|]. split; [exact H2|]. split; [|auto].
  intros (C1 & C2 & C3 & C4). split.
  - unfold SpecListen.calm. pose proof (ronly_steady _ _ Hr C1). destruct H2 as (_ & -> & _). rewrite G1. auto.
  - split; [reflexivity|]. intros Cl. destruct (ronly_clean _ _ Hr Cl) as [H3 H4].
    rewrite H4. cbn. rewrite Bool.andb_true_r. auto.
Qed.

Lemma notify_spec ev w o w' :
  stop_only (w_in w) -> notify react ev w = (o, w') ->
  exists new, step w new w' /\ transcript new = seen (w_sock w) (observe ev) /\
              w_in w' = w_in w /\ send_out o /\ (calm w -> o = Ret tt).
Proof.
  intros Hs E. unfold notify in E. unfold seen. destruct (s_listener (w_sock w)) as [l|] eqn:El.
  - exists [(l, ev)].
    pose proof (keeps_exec_cmds _ (Htame l (w_log w ++ [(l, ev)])) _ _ _ E) as [(H1 & H2 & H3 & H4 & H5 & H6) H7].
    cbn [w_in w_log w_wr w_sock set_log] in *.
    split.
    + unfold step. split; [exact H2|]. split; [constructor; [exact El|constructor]|].
      split; [rewrite H1; exact Hs|]. split; [exact H4|]. split; [|rewrite H1; auto].
      intros (C1 & C2 & C3 & C4).
      apply exec_cmds_polite in E; [|apply C3|exact C2]. cbn [stops fst]. rewrite Bool.orb_false_r.
      destruct E as [_ E]. cbn [w_sock set_log] in E. split; [|split].
      * unfold SpecListen.calm. destruct H4 as (_ & H4 & _). rewrite H1, H4. auto.
      * intros L. rewrite L in E. destruct (existsb _ _); [|reflexivity].
        rewrite Bool.andb_false_r in E. discriminate.
      * intros Cl. rewrite H1. auto.
    + split; [cbn; apply app_nil_r|]. split; [exact H1|]. split; [exact H7|].
      intros (C1 & C2 & C3 & C4). apply exec_cmds_polite in E; [|apply C3|exact C2]. exact (proj1 E).
  - injection E as <- <-. exists []. split; [apply step_refl; exact Hs|]. cbn. auto.
Qed.

(** * readPayload *)

Lemma transcript_app a b : transcript (a ++ b) = transcript a ++ transcript b.
Proof. unfold transcript. apply flat_map_app. Qed.

Lemma seen_app k a b : seen k (a ++ b) = seen k a ++ seen k b.
Proof. unfold seen. destruct (s_listener k); reflexivity. Qed.

Lemma seen_nil k : seen k [] = [].
Proof. unfold seen. destruct (s_listener k); reflexivity. Qed.

Lemma seen_tame k k' os : tame k k' -> seen k' os = seen k os.
Proof. intros (_ & _ & H & _). unfold seen. now rewrite H. Qed.

Definition plain (h : header) (progress : Z) (d : bytes) : bytes :=
  if h_hasMask h then xor_from (h_mask h) (Z.to_N progress) d else d.

Lemma plain_app h progress d1 d2 :
  (0 <= progress)%Z ->
  plain h progress (d1 ++ d2) = plain h progress d1 ++ plain h (progress + Z.of_N (lenN d1)) d2.
Proof.
  intros Hp. unfold plain. destruct (h_hasMask h); [|reflexivity]. rewrite xor_from_app. do 2 f_equal. lia.
Qed.

Definition loop_result (h : header) (short : option bytes) (progress : Z)
   (w : world) (o : outcome (option bytes)) (w' : world) : Prop :=
  let rem := Z.to_N (h_len h - progress) in
  let avail := takeN rem (bytes_of (w_in w)) in
  let pl := plain h progress avail in
  exists new p,
    step w new w' /\ prefix p pl /\
    transcript new = (match short with None => seen (w_sock w) (map (OByte (h_opcode h)) p) | Some _ => [] end) /\
    (script_size (w_in w') <= script_size (w_in w))%nat /\
    match o with
    | Ret s => p = pl /\ bytes_of (w_in w) = avail ++ bytes_of (w_in w') /\ lenN avail = rem /\
               s = match short with Some x => Some (x ++ pl) | None => None end
    | Throw _ => ~ calm w
    | Wait => calm w -> p = pl /\ w_in w' = [] /\ lenN avail < rem
    | Ub u => u = UbSigned /\ ~ calm w
    | OutOfFuel => False
    end.

Lemma script_size_le_0 s : script_size s = 0%nat -> s = [].
Proof. destruct s as [|[]]; cbn; [reflexivity|lia|lia|lia]. Qed.

Lemma loop_spec fuel : forall h short progress w o w',
  (script_size (w_in w) < fuel)%nat -> stop_only (w_in w) -> (0 <= s_buf (w_sock w))%Z -> (0 <= progress)%Z ->
  readPayload_loop react fuel h short (s_buf (w_sock w)) progress w = (o, w') ->
  loop_result h short progress w o w'.
Proof.
  induction fuel as [|fuel IH]; intros h short progress w o w' Hf Hs Hb Hp E; [lia|].
  cbn [readPayload_loop] in E. unfold loop_result. cbv zeta.
  destruct (progress <? h_len h)%Z eqn:Elt.
  2:{ injection E as <- <-. replace (Z.to_N (h_len h - progress)) with 0 by lia.
      rewrite takeN_0. assert (plain h progress [] = []) as Hpl by (unfold plain; destruct (h_hasMask h); reflexivity).
      rewrite Hpl. exists [], []. split; [now apply step_refl|]. split; [apply prefix_refl|].
      split; [cbn; rewrite seen_nil; now destruct short|]. split; [lia|].
      split; [reflexivity|]. split; [reflexivity|]. split; [reflexivity|].
      destruct short; [now rewrite app_nil_r|reflexivity]. }
  unfold bind at 1 in E. unfold get in E.
  set (rem := Z.to_N (h_len h - progress)).
  set (desired := (if h_len h - progress <? s_buf (w_sock w) then h_len h - progress else s_buf (w_sock w))%Z) in *.
  unfold bind at 1 in E. unfold readSimple in E.
  replace (desired <? 0)%Z with false in E by (unfold desired; destruct (_ <? s_buf _)%Z eqn:?; lia).
  destruct (Z.eqb_spec desired 0) as [Ed|Ed].
  { (* a zero-sized read buffer *)
    injection E as <- <-. exists [], []. split; [now apply step_refl|]. split; [apply prefix_nil|].
    split; [cbn; rewrite seen_nil; now destruct short|]. split; [lia|].
    intros (_ & _ & _ & H). unfold desired in Ed. destruct (_ <? s_buf _)%Z eqn:?; lia. }
  assert (0 < desired)%Z as Hdes by (unfold desired in *; destruct (_ <? s_buf _)%Z eqn:?; lia).
  assert (desired <= s_buf (w_sock w))%Z as Hdb by (unfold desired in *; destruct (_ <? s_buf _)%Z eqn:?; lia).
  assert (Z.to_N desired <= rem) as Hdr by (unfold desired, rem in *; destruct (_ <? s_buf _)%Z eqn:?; lia).
  destruct (read_raw (Z.to_N desired) (w_in w) (w_sock w)) as [[r s1] k1] eqn:E1.
  assert (0 < Z.to_N desired) as HdN by lia.
  pose proof (read_raw_bytes _ _ _ _ _ _ HdN E1) as Hrb.
  set (w1 := set_sock (set_in w s1) k1) in *.
  assert (ronly w w1) as Hro.
  { unfold ronly; cbn. do 5 (split; [reflexivity|]). split.
    - intros J px pe HJ Hs' Hk. split; [eapply read_raw_ok; eassumption|eapply read_raw_inv; eassumption].
    - intros L Hs'. eapply read_raw_tail; eassumption. }
  pose proof (step_ronly _ _ Hro Hs) as Hst1.
  assert (stop_only (w_in w1)) as Hs1 by apply Hst1.
  assert (tame (w_sock w) (w_sock w1)) as Ht1 by apply Hst1.
  assert (s_buf (w_sock w1) = s_buf (w_sock w)) as Hb1 by apply Ht1.
  destruct r as [data|e|].
  - (* data *)
    destruct Hrb as (Hby & Hd0 & Hdle & Hsz). change (bytes_of s1) with (bytes_of (w_in w1)) in Hby.
    change (script_size s1) with (script_size (w_in w1)) in Hsz.
    replace (s_buf (w_sock w) <? Z.of_N (lenN data))%Z with false in E by lia.
    change (if h_hasMask h then xor_from (h_mask h) (Z.to_N progress) data else data)
      with (plain h progress data) in E.
    set (progress' := (progress + Z.of_N (lenN data))%Z) in *.
    set (rem' := Z.to_N (h_len h - progress')).
    assert (rem = lenN data + rem') as Hrem by (unfold rem, rem', progress'; lia).
    assert (takeN rem (bytes_of (w_in w)) = data ++ takeN rem' (bytes_of (w_in w1))) as Hav.
    { rewrite Hby, Hrem, takeN_add, takeN_app_exact, dropN_app_exact by reflexivity. reflexivity. }
    rewrite Hav, plain_app by exact Hp. fold progress'. rewrite lenN_app.
    assert (forall w2 n1, step w1 n1 w2 -> w_in w2 = w_in w1 ->
              transcript n1 = (match short with None => seen (w_sock w) (map (OByte (h_opcode h)) (plain h progress data)) | Some _ => [] end) ->
              readPayload_loop react fuel h (match short with Some s => Some (s ++ plain h progress data) | None => None end)
                 (s_buf (w_sock w)) progress' w2 = (o, w') ->
              exists new p,
                step w new w' /\ prefix p (plain h progress data ++ plain h progress' (takeN rem' (bytes_of (w_in w1)))) /\
                transcript new = (match short with None => seen (w_sock w) (map (OByte (h_opcode h)) p) | Some _ => [] end) /\
                (script_size (w_in w') <= script_size (w_in w))%nat /\
                match o with
                | Ret s => p = plain h progress data ++ plain h progress' (takeN rem' (bytes_of (w_in w1))) /\
                           bytes_of (w_in w) = (data ++ takeN rem' (bytes_of (w_in w1))) ++ bytes_of (w_in w') /\
                           lenN data + lenN (takeN rem' (bytes_of (w_in w1))) = rem /\
                           s = match short with Some x => Some (x ++ plain h progress data ++ plain h progress' (takeN rem' (bytes_of (w_in w1)))) | None => None end
                | Throw _ => ~ calm w
                | Wait => calm w -> p = plain h progress data ++ plain h progress' (takeN rem' (bytes_of (w_in w1))) /\
                            w_in w' = [] /\ lenN data + lenN (takeN rem' (bytes_of (w_in w1))) < rem
                | Ub u => u = UbSigned /\ ~ calm w
                | OutOfFuel => False
                end) as Hrec.
    { intros w2 n1 Hst2 Hin2 Htr2 E2.
      pose proof (step_trans _ _ _ _ _ Hst1 Hst2) as Hst12. cbn [app] in Hst12.
      assert (tame (w_sock w) (w_sock w2)) as Ht2 by apply Hst12.
      assert (s_buf (w_sock w2) = s_buf (w_sock w)) as Hb2 by apply Ht2.
      rewrite <- Hb2 in E2. apply IH in E2; [|rewrite Hin2; lia|rewrite Hin2; exact Hs1|lia|unfold progress'; lia].
      unfold loop_result in E2. cbv zeta in E2. fold rem' in E2. rewrite Hin2 in E2.
      destruct E2 as (new & p & G1 & G2 & G3 & G4 & G5).
      exists (n1 ++ new), (plain h progress data ++ p).
      split; [eapply step_trans; eassumption|]. split; [now apply prefix_app_l|].
      split.
      { rewrite transcript_app, Htr2, G3. destruct short as [s|]; [reflexivity|].
        rewrite (seen_tame _ _ _ Ht2). now rewrite map_app, seen_app. }
      split; [lia|].
      assert (calm w -> calm w2) as Hcalm by (intros C; now apply Hst12).
      destruct o as [s|e| |u|].
      - destruct G5 as (-> & G6 & G7 & G8). split; [reflexivity|].
        split; [rewrite Hby, G6 at 1; now rewrite app_assoc|]. split; [lia|].
        rewrite G8. destruct short; [now rewrite app_assoc|reflexivity].
      - intros C. apply G5, Hcalm, C.
      - intros C. destruct (G5 (Hcalm C)) as (-> & G6 & G7). split; [reflexivity|]. split; [exact G6|lia].
      - destruct G5 as [G5 G6]. split; [exact G5|]. intros C. apply G6, Hcalm, C.
      - exact G5. }
    destruct short as [s|].
    + apply (Hrec w1 []); [now apply step_refl|reflexivity|reflexivity|exact E].
    + unfold bind in E. destruct (notify react (EvMsg (h_opcode h) (plain h progress data)) w1) as [o2 w2] eqn:E2.
      apply notify_spec in E2; [|exact Hs1]. destruct E2 as (n1 & Hst2 & Htr2 & Hin2 & Hso & Hcr).
      rewrite (seen_tame _ _ _ Ht1) in Htr2. cbn [observe] in Htr2.
      pose proof (step_trans _ _ _ _ _ Hst1 Hst2) as Hst12. cbn [app] in Hst12.
      assert (calm w -> calm w1) as Hcalm by (intros C; now apply Hst1).
      destruct o2 as [[]|e| |u|]; [apply (Hrec w2 n1); assumption|injection E as <- <-..].
      all: exists n1, (plain h progress data); split; [exact Hst12|]; split; [apply prefix_app_r|];
        split; [exact Htr2|]; split; [rewrite Hin2; lia|].
      * intros C. apply Hcalm, Hcr in C. discriminate.
      * intros C. apply Hcalm, Hcr in C. discriminate.
      * split; [exact Hso|]. intros C. apply Hcalm, Hcr in C. discriminate.
      * exact Hso.
  - (* error *)
    destruct Hrb as (Hby & Hsz). change (bytes_of s1) with (bytes_of (w_in w1)) in Hby.
    change (script_size s1) with (script_size (w_in w1)) in Hsz.
    destruct e.
    + rewrite <- Hb1 in E. apply IH in E; [|lia|exact Hs1|lia|exact Hp].
      unfold loop_result in E. cbv zeta in E. fold rem in E. rewrite <- Hby in E.
      destruct E as (new & p & G1 & G2 & G3 & G4 & G5). exists new, p.
      split; [exact (step_trans _ _ _ _ _ Hst1 G1)|]. split; [exact G2|].
      split; [destruct short; [exact G3|]; rewrite G3; apply seen_tame; exact Ht1|]. split; [lia|].
      assert (calm w -> calm w1) as Hcalm by (intros C; now apply Hst1).
      destruct o; intuition.
    + injection E as <- <-. exists [], []. split; [exact Hst1|]. split; [apply prefix_nil|].
      split; [cbn; rewrite seen_nil; now destruct short|]. split; [lia|].
      intros (C1 & _). destruct (read_raw_steady _ _ _ _ _ _ E1 C1) as (_ & H). specialize (H _ eq_refl). discriminate.
    + injection E as <- <-. exists [], []. split; [exact Hst1|]. split; [apply prefix_nil|].
      split; [cbn; rewrite seen_nil; now destruct short|]. split; [lia|].
      intros (C1 & _). destruct (read_raw_steady _ _ _ _ _ _ E1 C1) as (_ & H). specialize (H _ eq_refl). discriminate.
  - (* pending *)
    destruct Hrb as (Hby & ->). injection E as <- <-. exists [], []. split; [exact Hst1|]. split; [apply prefix_nil|].
    split; [cbn; rewrite seen_nil; now destruct short|]. split; [cbn; lia|].
    intros _. rewrite Hby. rewrite takeN_all by (rewrite lenN_nil; lia). split; [unfold plain; destruct (h_hasMask h); reflexivity|].
    split; [reflexivity|]. rewrite lenN_nil. lia.
Qed.


(** * handleFrame *)

(** The relation between the code's header object and the specification's. *)
Lemma len_eff h i : hdr_match h i -> Z.to_N (h_len h) = eff_len (i_len i).
Proof.
  intros (_ & _ & _ & _ & Hl & Hlt & _). rewrite Hl. unfold eff_len, to_i64. rewrite N.mod_small by lia.
  destruct (i_len i <? 2 ^ 63) eqn:E; lia.
Qed.

Lemma plain_masked h i d : hdr_match h i -> plain h 0 d = masked_opt (i_key i) d.
Proof.
  intros (_ & _ & _ & Hk & _). unfold plain. rewrite Hk. destruct (h_hasMask h); [|reflexivity].
  cbn [masked_opt Z.to_N]. apply xor_from_rfc.
Qed.

(** What a data frame's reading yields, in terms of the model's header. *)
Definition payload_result (h : header) (short : bool)
   (w : world) (o : outcome (option bytes)) (w' : world) : Prop :=
  let n := Z.to_N (h_len h) in
  let rest := bytes_of (w_in w) in
  let pl := plain h 0 (takeN n rest) in
  let full := map (OByte (h_opcode h)) pl ++ (if ((n <=? lenN rest) && h_fin h)%bool then [OEnd (h_opcode h)] else []) in
  exists new os,
    step w new w' /\ transcript new = (if short then [] else seen (w_sock w) os) /\
    prefix os full /\
    (script_size (w_in w') <= script_size (w_in w))%nat /\
    match o with
    | Ret s => os = full /\ n <= lenN rest /\ bytes_of (w_in w') = dropN n rest /\
               s = (if short then Some pl else None)
    | Throw _ => calm w -> short = true /\ 125 < n /\ w' = w
    | Wait => calm w -> os = full /\ lenN rest < n /\ w_in w' = []
    | Ub u => u = UbSigned /\ ~ calm w
    | OutOfFuel => False
    end.

Lemma readPayload_spec h (short : bool) w o w' :
  stop_only (w_in w) ->
  readPayload react h (if short then Some [] else None) w = (o, w') ->
  payload_result h short w o w' /\ (short = true -> 125 < Z.to_N (h_len h) -> (exists e, o = Throw e) /\ w' = w).
Proof.
  intros Hs E. unfold readPayload in E.
  destruct (short && (125 <? h_len h)%Z)%bool eqn:Ebig.
  { apply andb_true_iff in Ebig as [-> Ebig]. cbn [andb] in E. rewrite Ebig in E. injection E as <- <-.
    split; [|eauto]. exists [], []. split; [now apply step_refl|]. split; [reflexivity|].
    split; [apply prefix_nil|]. split; [lia|]. intros _. split; [reflexivity|]. split; [lia|reflexivity]. }
  match type of E with (if ?c then _ else _) w = _ =>
    replace c with false in E by (destruct short; cbn [andb] in *; congruence) end.
  split.
  2:{ intros -> Hbig. cbn [andb] in Ebig. lia. }
  cbv iota in E. unfold bind at 1 in E. unfold get in E.
  destruct (s_buf (w_sock w) <? 0)%Z eqn:Eneg.
  { injection E as <- <-. exists [], []. split; [now apply step_refl|].
    split; [cbn; rewrite seen_nil; now destruct short|].
    split; [apply prefix_nil|]. split; [lia|]. intros (_ & _ & _ & C). lia. }
  unfold bind at 1 in E.
  destruct (readPayload_loop react (S (script_size (w_in w))) h (if short then Some [] else None)
             (s_buf (w_sock w)) 0 w) as [o1 w1] eqn:E1.
  apply loop_spec in E1; [|lia|exact Hs|lia|lia].
  unfold loop_result in E1. cbv zeta in E1. rewrite Z.sub_0_r in E1.
  unfold payload_result. cbv zeta.
  set (n := Z.to_N (h_len h)) in *. set (rest := bytes_of (w_in w)) in *.
  set (pl := plain h 0 (takeN n rest)) in *.
  set (full := map (OByte (h_opcode h)) pl ++ _).
  destruct E1 as (new & p & Hst & Hp & Htr & Hsz & Hm).
  assert (prefix (map (OByte (h_opcode h)) p) full) as Hpf.
  { eapply prefix_trans; [apply prefix_map; exact Hp|apply prefix_app_r]. }
  assert (transcript new = if short then [] else seen (w_sock w) (map (OByte (h_opcode h)) p)) as Htr'.
  { rewrite Htr. destruct short; reflexivity. }
  destruct o1 as [s1|e| |u|].
  2,3,4,5: injection E as <- <-; exists new, (map (OByte (h_opcode h)) p);
    split; [exact Hst|]; split; [exact Htr'|]; split; [exact Hpf|]; split; [exact Hsz|].
  2:{ intros C. now apply Hm in C. }
  2:{ intros C. destruct (Hm C) as (-> & Hin & Hlt). rewrite lenN_takeN in Hlt.
      assert (n <=? lenN rest = false) as Hc by lia. unfold full. rewrite Hc. cbn [andb]. rewrite app_nil_r.
      split; [reflexivity|]. split; [lia|exact Hin]. }
  2:{ exact Hm. }
  2:{ exact Hm. }
  destruct Hm as (-> & Hby & Hlen & Hs1).
  rewrite lenN_takeN in Hlen.
  assert (n <=? lenN rest = true) as Hc by lia.
  assert (bytes_of (w_in w1) = dropN n rest) as Hrest.
  { rewrite <- (take_drop n rest) in Hby at 1. now apply app_inv_head in Hby. }
  destruct short.
  - (* control frame: nothing reported here *)
    cbn [bind] in E. unfold bind, ret in E. injection E as <- <-.
    exists new, full. split; [exact Hst|]. split; [exact Htr|]. split; [apply prefix_refl|]. split; [exact Hsz|].
    split; [reflexivity|]. split; [lia|]. split; [exact Hrest|exact Hs1].
  - subst s1. unfold bind in E. destruct (h_fin h) eqn:Efin.
    + destruct (notify react (EvEnd (h_opcode h)) w1) as [o2 w2] eqn:E2.
      apply notify_spec in E2; [|apply Hst]. destruct E2 as (n2 & Hst2 & Htr2 & Hin2 & Hso & Hcr).
      assert (tame (w_sock w) (w_sock w1)) as Ht1 by apply Hst.
      rewrite (seen_tame _ _ _ Ht1) in Htr2. cbn [observe] in Htr2.
      pose proof (step_trans _ _ _ _ _ Hst Hst2) as Hst12.
      assert (transcript (new ++ n2) = seen (w_sock w) full) as Htr12.
      { rewrite transcript_app, Htr, Htr2, <- seen_app. unfold full. rewrite Hc. reflexivity. }
      assert (calm w -> calm w1) as Hcalm by (intros C; now apply Hst).
      destruct o2 as [[]|e| |u|]; injection E as <- <-; exists (new ++ n2), full;
        (split; [exact Hst12|]; split; [exact Htr12|]; split; [apply prefix_refl|]; split; [rewrite Hin2; exact Hsz|]).
      * split; [reflexivity|]. split; [lia|]. split; [rewrite Hin2; exact Hrest|reflexivity].
      * intros C. apply Hcalm, Hcr in C. discriminate.
      * intros C. apply Hcalm, Hcr in C. discriminate.
      * split; [exact Hso|]. intros C. apply Hcalm, Hcr in C. discriminate.
      * exact Hso.
    + injection E as <- <-. exists new, full. split; [exact Hst|]. unfold full. rewrite Hc. cbn [andb]. rewrite app_nil_r.
      split; [exact Htr|]. split; [apply prefix_refl|]. split; [exact Hsz|].
      split; [reflexivity|]. split; [lia|]. split; [exact Hrest|reflexivity].
Qed.

(** As [step], but allowing the fragmentation state to change. *)
Definition fstep (w : world) (new : list (nat * event)) (w' : world) : Prop :=
  w_log w' = w_log w ++ new /\
  Forall (fun e => s_listener (w_sock w) = Some (fst e)) new /\
  stop_only (w_in w') /\
  s_mask (w_sock w') = s_mask (w_sock w) /\ s_buf (w_sock w') = s_buf (w_sock w) /\
  s_listener (w_sock w') = s_listener (w_sock w) /\
  (s_listening (w_sock w') = true -> s_listening (w_sock w) = true) /\
  (calm w -> calm w' /\ (s_listening (w_sock w') = true -> stops react (w_log w) new = false) /\
     (clean (w_in w) -> clean (w_in w') /\
        s_listening (w_sock w') = (s_listening (w_sock w) && negb (stops react (w_log w) new))%bool)) /\
  (s_listening (w_sock w') = true -> stop_tail (w_in w') = stop_tail (w_in w)).

Lemma step_fstep w new w' : step w new w' -> fstep w new w'.
Proof.
  intros (H1 & H2 & H3 & (T1 & T2 & T3 & T4 & T5) & H5 & H6). unfold fstep. auto 12.
Qed.

Lemma fstep_trans w n1 w1 n2 w2 : fstep w n1 w1 -> fstep w1 n2 w2 -> fstep w (n1 ++ n2) w2.
Proof.
  intros (H1 & H2 & H3 & T1 & T2 & T3 & T4 & H5 & H6) (G1 & G2 & G3 & S1 & S2 & S3 & S4 & G5 & G6). unfold fstep.
  split; [rewrite G1, H1; now rewrite app_assoc|].
  split; [apply Forall_app; split; [exact H2|now rewrite T3 in G2]|].
  split; [exact G3|]. split; [congruence|]. split; [congruence|]. split; [congruence|]. split; [auto|].
  split.
  - intros Hc. destruct (H5 Hc) as (H7 & H8 & H9). destruct (G5 H7) as (G7 & G8 & G9). split; [exact G7|].
    rewrite H1 in G8, G9. rewrite stops_app. split.
    + intros L. rewrite (H8 (S4 L)), (G8 L). reflexivity.
    + intros Cl. destruct (H9 Cl) as [H10 H11]. destruct (G9 H10) as [G10 G11]. split; [exact G10|].
      rewrite G11, H11, Bool.negb_orb. now rewrite Bool.andb_assoc.
  - intros L. rewrite (G6 L). auto.
Qed.

Lemma fstep_set_last w z : stop_only (w_in w) -> fstep w [] (set_sock w (set_last (w_sock w) z)).
Proof.
  intros Hs. unfold fstep; cbn. rewrite app_nil_r. do 7 (split; [auto|]). split; [|auto]. intros C.
  split; [exact C|]. rewrite Bool.andb_true_r. auto.
Qed.

Definition frame_result (i : finfo) (w : world) (o : outcome unit) (w' : world) : Prop :=
  let rest := bytes_of (w_in w) in
  let n := eff_len (i_len i) in
  let opn := open_of (w_sock w) in
  let complete := n <=? lenN rest in
  let full := if accepts opn i
              then shown (i_opcode i) (i_fin i) (masked_opt (i_key i) (takeN n rest)) complete else [] in
  exists new os,
    fstep w new w' /\ transcript new = seen (w_sock w) os /\ prefix os full /\
    (script_size (w_in w') <= script_size (w_in w))%nat /\
    last_ok (w_sock w') /\
    (accepts opn i = false -> bytes_of (w_in w') = rest /\ match o with Throw _ => True | _ => False end /\ w_sock w' = w_sock w) /\
    match o with
    | Ret _ => accepts opn i = true /\ os = full /\ complete = true /\ bytes_of (w_in w') = dropN n rest /\
               open_of (w_sock w') = next_open opn i
    | Throw _ => calm w -> accepts opn i = false
    | Wait => calm w -> os = full /\ complete = false /\ w_in w' = []
    | Ub u => u = UbSigned /\ ~ calm w
    | OutOfFuel => False
    end.

Lemma data_frame h i w o w' :
  hdr_match h i -> stop_only (w_in w) -> last_ok (w_sock w) ->
  (i_opcode i = 0 \/ i_opcode i = 1 \/ i_opcode i = 2) ->
  (readPayload react h None ;;; ret tt) w = (o, w') ->
  let rest := bytes_of (w_in w) in
  let n := eff_len (i_len i) in
  let complete := n <=? lenN rest in
  let full := shown (i_opcode i) (i_fin i) (masked_opt (i_key i) (takeN n rest)) complete in
  exists new os,
    step w new w' /\ transcript new = seen (w_sock w) os /\ prefix os full /\
    (script_size (w_in w') <= script_size (w_in w))%nat /\
    match o with
    | Ret _ => os = full /\ complete = true /\ bytes_of (w_in w') = dropN n rest
    | Throw _ => ~ calm w
    | Wait => calm w -> os = full /\ complete = false /\ w_in w' = []
    | Ub u => u = UbSigned /\ ~ calm w
    | OutOfFuel => False
    end.
Proof.
  intros Hh Hs Hl Hop E. cbv zeta.
  unfold bind in E. destruct (readPayload react h None w) as [o1 w1] eqn:E1.
  apply (readPayload_spec h false) in E1; [|exact Hs]. destruct E1 as [E1 _].
  unfold payload_result in E1. cbv zeta in E1.
  rewrite (len_eff _ _ Hh), (plain_masked _ _ _ Hh) in E1.
  pose proof Hh as (Hf & _ & Ho & _). rewrite Hf, Ho in E1.
  set (n := eff_len (i_len i)) in *. set (rest := bytes_of (w_in w)) in *.
  set (pl := masked_opt (i_key i) (takeN n rest)) in *.
  assert (shown (i_opcode i) (i_fin i) pl (n <=? lenN rest) =
          map (OByte (i_opcode i)) pl ++ (if ((n <=? lenN rest) && i_fin i)%bool then [OEnd (i_opcode i)] else [])) as ->.
  { destruct Hop as [->|[->| ->]]; reflexivity. }
  destruct E1 as (new & os & Hst & Htr & Hp & Hsz & Hm).
  destruct o1 as [s|e| |u|]; injection E as <- <-; exists new, os;
    (split; [exact Hst|]; split; [exact Htr|]; split; [exact Hp|]; split; [exact Hsz|]).
  - destruct Hm as (-> & Hle & Hb & _). split; [reflexivity|]. split; [lia|exact Hb].
  - intros C. destruct (Hm C); discriminate.
  - intros C. destruct (Hm C) as (-> & Hlt & Hin). split; [reflexivity|]. split; [lia|exact Hin].
  - exact Hm.
  - exact Hm.
Qed.

Lemma open_tame k k' : tame k k' -> open_of k' = open_of k.
Proof. intros (_ & _ & _ & H & _). unfold open_of. now rewrite H. Qed.
Lemma last_ok_tame k k' : tame k k' -> last_ok k -> last_ok k'.
Proof. intros (_ & _ & _ & H & _). unfold last_ok. now rewrite H. Qed.

Lemma close_code_obs p : EvClose (close_code p) (close_reason p) =
  match close_obs p with OClose c m => EvClose c m | _ => EvPing [] end.
Proof.
  unfold close_code, close_reason, close_obs. destruct p as [|a [|b r]]; try reflexivity.
  rewrite !lenN_cons. replace (2 <=? 1 + (1 + lenN r)) with true by lia.
  change (a :: b :: r) with ([a; b] ++ r). rewrite takeN_app_exact, dropN_app_exact by reflexivity.
  f_equal. change (be_dec [a; b]) with (b2n a * 256 ^ lenN [b] + (b2n b * 256 ^ lenN (@nil byte) + 0)).
  change (lenN [b]) with 1. change (lenN (@nil byte)) with 0. lia.
Qed.

Lemma control_frame h i w o w' ev ob :
  hdr_match h i -> stop_only (w_in w) -> last_ok (w_sock w) ->
  (i_opcode i = 8 \/ i_opcode i = 9 \/ i_opcode i = 10) ->
  (forall p, observe (ev p) = [ob p]) ->
  (forall p c, shown (i_opcode i) (i_fin i) p c = if c then [ob p] else []) ->
  (p <- readPayload react h (Some []) ;; notify react (ev (str p))) w = (o, w') ->
  frame_result i w o w'.
Proof.
  intros Hh Hs Hl Hop Hev Hsh E. unfold frame_result. cbv zeta.
  unfold bind in E. destruct (readPayload react h (Some []) w) as [o1 w1] eqn:E1.
  apply (readPayload_spec h true) in E1; [|exact Hs]. destruct E1 as [E1 Hsmall].
  specialize (Hsmall eq_refl).
  unfold payload_result in E1. cbv zeta in E1.
  rewrite (len_eff _ _ Hh) in *. rewrite (plain_masked _ _ _ Hh) in E1.
  set (n := eff_len (i_len i)) in *. set (rest := bytes_of (w_in w)) in *.
  set (pl := masked_opt (i_key i) (takeN n rest)) in *.
  assert (accepts (open_of (w_sock w)) i = (n <=? 125)) as Hacc.
  { unfold accepts. destruct Hop as [->|[->| ->]]; reflexivity. }
  rewrite Hacc. rewrite Hsh.
  destruct E1 as (new & os & Hst & Htr & Hp & Hsz & Hm).
  assert (tame (w_sock w) (w_sock w1)) as Ht1 by apply Hst.
  assert (forall b, next_open b i = b) as Hno.
  { intros b. unfold next_open. destruct Hop as [->|[->| ->]]; reflexivity. }
  destruct (N.leb_spec n 125) as [Hle|Hgt].
  2:{ destruct (Hsmall Hgt) as [(e & ->) ->]. injection E as <- <-. exists [], [].
      split; [apply step_fstep; now apply step_refl|]. split; [cbn; now rewrite seen_nil|].
      split; [apply prefix_refl|]. split; [lia|]. split; [exact Hl|]. split; [auto|auto]. }
  assert (forall oo ww n2, step w n2 ww -> transcript n2 = seen (w_sock w) [] ->
            (script_size (w_in ww) <= script_size (w_in w))%nat ->
            (forall x : unit, oo <> Ret x) ->
            match oo with
            | Ret _ => True
            | Throw _ => ~ calm w
            | Wait => calm w -> lenN rest < n /\ w_in ww = []
            | Ub u => u = UbSigned /\ ~ calm w
            | OutOfFuel => False
            end ->
            exists new os,
              fstep w new ww /\ transcript new = seen (w_sock w) os /\ prefix os (if n <=? lenN rest then [ob pl] else []) /\
              (script_size (w_in ww) <= script_size (w_in w))%nat /\
              last_ok (w_sock ww) /\
              (true = false -> bytes_of (w_in ww) = rest /\ match oo with Throw _ => True | _ => False end /\ w_sock ww = w_sock w) /\
              match oo with
              | Ret _ => true = true /\ os = (if n <=? lenN rest then [ob pl] else []) /\ (n <=? lenN rest) = true /\
                         bytes_of (w_in ww) = dropN n rest /\ open_of (w_sock ww) = next_open (open_of (w_sock w)) i
              | Throw _ => calm w -> true = false
              | Wait => calm w -> os = (if n <=? lenN rest then [ob pl] else []) /\ (n <=? lenN rest) = false /\ w_in ww = []
              | Ub u => u = UbSigned /\ ~ calm w
              | OutOfFuel => False
              end) as Hnone.
  { intros oo ww n2 Hs2 Htr2 Hsz2 Hnr Hoo. exists n2, []. split; [now apply step_fstep|]. split; [exact Htr2|].
    split; [apply prefix_nil|]. split; [exact Hsz2|]. split; [eapply last_ok_tame; [apply Hs2|exact Hl]|].
    split; [discriminate|]. destruct oo; auto.
    - exfalso; eapply Hnr; reflexivity.
    - intros C. exfalso. now apply Hoo.
    - intros C. destruct (Hoo C) as [H1 H2]. replace (n <=? lenN rest) with false by lia. auto. }
  destruct o1 as [s|e| |u|].
  2:{ injection E as <- <-. apply (Hnone (Throw e) w1 new); [exact Hst|now rewrite seen_nil|exact Hsz|discriminate|].
      intros C. destruct (Hm C) as (_ & H & _). lia. }
  2:{ injection E as <- <-. apply (Hnone Wait w1 new); [exact Hst|now rewrite seen_nil|exact Hsz|discriminate|].
      intros C. destruct (Hm C) as (_ & H & H'). auto. }
  2:{ injection E as <- <-. apply (Hnone (Ub u) w1 new); [exact Hst|now rewrite seen_nil|exact Hsz|discriminate|exact Hm]. }
  2:{ destruct Hm. }
  destruct Hm as (_ & Hcomp & Hb & ->). cbn [str] in E.
  replace (n <=? lenN rest) with true by lia.
  apply notify_spec in E; [|apply Hst]. destruct E as (n2 & Hst2 & Htr2 & Hin2 & Hso & Hcr).
  rewrite (seen_tame _ _ _ Ht1), Hev in Htr2.
  pose proof (step_trans _ _ _ _ _ Hst Hst2) as Hst12.
  exists (new ++ n2), [ob pl].
  split; [now apply step_fstep|]. split; [rewrite transcript_app, Htr, Htr2; reflexivity|].
  split; [apply prefix_refl|]. split; [rewrite Hin2; exact Hsz|].
  split; [eapply last_ok_tame; [apply Hst12|exact Hl]|]. split; [discriminate|].
  assert (calm w -> calm w1) as Hcalm by (intros C; now apply Hst).
  destruct o as [[]|e| |u|].
  - split; [reflexivity|]. split; [reflexivity|]. split; [reflexivity|]. split; [rewrite Hin2; exact Hb|].
    rewrite Hno. apply open_tame, Hst12.
  - intros C. apply Hcalm, Hcr in C. discriminate.
  - intros C. apply Hcalm, Hcr in C. discriminate.
  - split; [exact Hso|]. intros C. apply Hcalm, Hcr in C. discriminate.
  - exact Hso.
Qed.

Lemma rejected_frame i w e :
  stop_only (w_in w) -> last_ok (w_sock w) -> accepts (open_of (w_sock w)) i = false ->
  frame_result i w (Throw e) w.
Proof.
  intros Hs Hl Ha. unfold frame_result. cbv zeta. rewrite Ha. exists [], [].
  split; [apply step_fstep; now apply step_refl|]. split; [cbn; now rewrite seen_nil|].
  split; [apply prefix_refl|]. split; [lia|]. split; [exact Hl|]. split; [auto|auto].
Qed.

(** A data frame that passed the fragmentation check (which may have set the last opcode to [z]). *)
Lemma accepted_data h i w z o w' :
  hdr_match h i -> stop_only (w_in w) -> last_ok (w_sock w) ->
  (i_opcode i = 0 \/ i_opcode i = 1 \/ i_opcode i = 2) ->
  accepts (open_of (w_sock w)) i = true ->
  last_ok (set_last (w_sock w) z) -> (0 <=? z)%Z = next_open (open_of (w_sock w)) i ->
  (readPayload react h None ;;; ret tt) (set_sock w (set_last (w_sock w) z)) = (o, w') ->
  frame_result i w o w'.
Proof.
  intros Hh Hs Hl Hop Ha Hlz Hz E. unfold frame_result. cbv zeta. rewrite Ha.
  set (w0 := set_sock w (set_last (w_sock w) z)) in *.
  apply (data_frame h i) in E; [|assumption..]. cbv zeta in E.
  change (bytes_of (w_in w0)) with (bytes_of (w_in w)) in E.
  change (script_size (w_in w0)) with (script_size (w_in w)) in E.
  change (seen (w_sock w0)) with (seen (w_sock w)) in E.
  assert (calm w -> calm w0) as Hcalm by (intros C; exact C).
  destruct E as (new & os & Hst & Htr & Hp & Hsz & Hm). exists new, os.
  split; [exact (fstep_trans _ _ _ _ _ (fstep_set_last w z Hs) (step_fstep _ _ _ Hst))|].
  split; [exact Htr|]. split; [exact Hp|]. split; [exact Hsz|].
  split; [eapply last_ok_tame; [apply Hst|exact Hlz]|]. split; [discriminate|].
  destruct o as [u|e| |u|].
  - destruct Hm as (-> & Hc & Hb). do 4 (split; [auto|]). rewrite (open_tame (w_sock w0)) by apply Hst. exact Hz.
  - intros C. now apply Hcalm, Hm in C.
  - intros C. now apply Hcalm, Hm in C.
  - destruct Hm as [H1 H2]. split; [exact H1|]. intros C. now apply Hcalm in C.
  - exact Hm.
Qed.

Lemma handleFrame_spec h i w o w' :
  hdr_match h i -> stop_only (w_in w) -> last_ok (w_sock w) ->
  handleFrame react h w = (o, w') -> frame_result i w o w'.
Proof.
  intros Hh Hs Hl E. unfold handleFrame in E.
  pose proof Hh as (Hf & _ & Ho & _ & _ & _ & H16). rewrite Ho in E.
  assert (w = set_sock w (set_last (w_sock w) (s_last (w_sock w)))) as Hself.
  { destruct w as [? ? ? ? ? ? []]; reflexivity. }
  assert (forall op, (op = 1 \/ op = 2) -> i_opcode i = op ->
     (ok <- checkForContinuation h ;;
      if (ok : bool) then readPayload react h None ;;; ret tt else throw ExContinuationExpected) w = (o, w') ->
     frame_result i w o w') as Hdata.
  { intros op Hop Hi E0. unfold checkForContinuation in E0. unfold bind at 1 2, get in E0.
    assert (accepts (open_of (w_sock w)) i = negb (open_of (w_sock w))) as Ha.
    { unfold accepts. rewrite Hi. destruct Hop as [-> | ->]; reflexivity. }
    destruct ((s_last (w_sock w) =? 1) || (s_last (w_sock w) =? 2))%Z%bool eqn:El.
    - injection E0 as <- <-. apply rejected_frame; [exact Hs|exact Hl|]. rewrite Ha. unfold open_of. lia.
    - assert (s_last (w_sock w) = -1)%Z as Hm1 by (unfold last_ok in Hl; lia).
      unfold bind at 1 in E0. unfold modify_sock, ret at 1 in E0.
      eapply (accepted_data h i w); [exact Hh|exact Hs|exact Hl| | | | |exact E0].
      + rewrite Hi. tauto.
      + rewrite Ha. unfold open_of. rewrite Hm1. reflexivity.
      + unfold last_ok, set_last. cbn. rewrite Ho, Hi. destruct (h_fin h); [auto|]. destruct Hop as [-> | ->]; auto.
      + unfold next_open. rewrite Hi, Ho, Hi, Hf. destruct Hop as [-> | ->]; destruct (i_fin i); reflexivity. }
  destruct (N.eq_dec (i_opcode i) 0) as [H0|H0].
  { rewrite H0 in E. unfold bind at 1, get in E.
    assert (accepts (open_of (w_sock w)) i = open_of (w_sock w)) as Ha by (unfold accepts; now rewrite H0).
    destruct (s_last (w_sock w) <? 0)%Z eqn:El.
    - injection E as <- <-. apply rejected_frame; [exact Hs|exact Hl|]. rewrite Ha. unfold open_of. lia.
    - rewrite Hself in E at 1.
      eapply (accepted_data h i w); [exact Hh|exact Hs|exact Hl|auto| | | |exact E].
      + rewrite Ha. unfold open_of. lia.
      + exact Hl.
      + unfold next_open. rewrite H0. reflexivity. }
  destruct (N.eq_dec (i_opcode i) 1) as [H1|H1].
  { rewrite H1 in E. eapply Hdata; [left; reflexivity|exact H1|exact E]. }
  destruct (N.eq_dec (i_opcode i) 2) as [H2|H2].
  { rewrite H2 in E. eapply Hdata; [right; reflexivity|exact H2|exact E]. }
  destruct (N.eq_dec (i_opcode i) 8) as [H8|H8].
  { rewrite H8 in E.
    eapply (control_frame h i w o w' (fun p => EvClose (close_code p) (close_reason p)) close_obs);
      [exact Hh|exact Hs|exact Hl|auto| | |exact E].
    - intros p. rewrite close_code_obs. destruct p as [|a [|b r]]; reflexivity.
    - rewrite H8. reflexivity. }
  destruct (N.eq_dec (i_opcode i) 9) as [H9|H9].
  { rewrite H9 in E.
    eapply (control_frame h i w o w' EvPing OPing); [exact Hh|exact Hs|exact Hl|auto| | |exact E]; [reflexivity|].
    rewrite H9. reflexivity. }
  destruct (N.eq_dec (i_opcode i) 10) as [H10|H10].
  { rewrite H10 in E.
    eapply (control_frame h i w o w' EvPong OPong); [exact Hh|exact Hs|exact Hl|auto| | |exact E]; [reflexivity|].
    rewrite H10. reflexivity. }
  assert (o = Throw ExUnknownFrame /\ w' = w) as [-> ->].
  { destruct (i_opcode i) as [|[[[[p|p|]|[p|p|]|]|[[p|p|]|[p|p|]|]|]|[[[p|p|]|[p|p|]|]|[[p|p|]|[p|p|]|]|]|]] eqn:Eop;
      try (injection E as <- <-; split; reflexivity); try lia; congruence. }
  apply rejected_frame; [exact Hs|exact Hl|].
  unfold accepts.
  destruct (i_opcode i) as [|[[[[p|p|]|[p|p|]|]|[[p|p|]|[p|p|]|]|]|[[[p|p|]|[p|p|]|]|[[p|p|]|[p|p|]|]|]|]] eqn:Eop;
    try reflexivity; try lia; congruence.
Qed.


(** * The listen loop *)

Definition before_stop (w : world) (r : list obs * rend) (new : list (nat * event)) : Prop :=
  exists n1 n2 rest, new = n1 ++ n2 /\ transcript n1 = seen (w_sock w) (fst r) /\
    stops react (w_log w) n1 = false /\ snd r = Stopped rest /\
    (forall t, stop_tail (w_in w) = Some t -> lenN (bytes_of t) <= lenN rest).

Lemma stop_tail_len s t : stop_tail s = Some t -> lenN (bytes_of t) <= lenN (bytes_of s).
Proof.
  induction s as [|e s IH]; [discriminate|]. destruct e as [b bs|e|[| |]]; cbn [stop_tail bytes_of]; intros E;
    try (now apply IH).
  - apply IH in E. rewrite lenN_app. lia.
  - injection E as <-. lia.
Qed.

Lemma before_stop_0 w opn new : before_stop w (reading 0 opn (bytes_of (w_in w))) new.
Proof.
  exists [], new, (bytes_of (w_in w)). cbn. rewrite seen_nil. repeat (split; [reflexivity|]). apply stop_tail_len.
Qed.

Definition listen_result (w : world) (o : outcome unit) (w' : world) : Prop :=
  let R k := reading k (open_of (w_sock w)) (bytes_of (w_in w)) in
  exists new os k,
    fstep w new w' /\ transcript new = seen (w_sock w) os /\ prefix os (fst (R k)) /\ last_ok (w_sock w') /\
    match o with
    | Ret _ => os = fst (R k) /\
               (snd (R k) = Closed (bytes_of (w_in w')) \/
                snd (R k) = Stopped (bytes_of (w_in w')) /\ s_listening (w_sock w') = false)
    | Throw _ => calm w -> os = fst (R k) /\ snd (R k) = Rejected (bytes_of (w_in w'))
    | Wait => calm w -> os = fst (R k) /\ snd (R k) = Blocked /\ w_in w' = []
    | Ub u => u = UbSigned /\ ~ calm w
    | OutOfFuel => False
    end /\
    (* no stop request in the frames before the last one read *)
    (calm w -> s_listening (w_sock w) = true ->
     forall j, (j < k)%nat -> before_stop w (R j) new).

Lemma listen_loop_spec fuel : forall h0 w o w',
  (script_size (w_in w) < fuel)%nat -> stop_only (w_in w) -> last_ok (w_sock w) ->
  listen_loop react fuel h0 w = (o, w') -> listen_result w o w'.
Proof.
  induction fuel as [|fuel IH]; intros h0 w o w' Hf Hs Hl E; [lia|].
  cbn [listen_loop] in E. unfold bind at 1 in E.
  destruct (readFrameHeader h0 w) as [o1 w1] eqn:E1.
  apply readFrameHeader_spec in E1. destruct E1 as [Hr1 E1].
  pose proof (step_ronly _ _ Hr1 Hs) as Hst1.
  assert (tame (w_sock w) (w_sock w1)) as Ht1 by apply Hst1.
  assert (stop_only (w_in w1)) as Hs1 by apply Hst1.
  assert (calm w -> calm w1) as Hcalm1 by (intros C; now apply Hst1).
  assert (last_ok (w_sock w1)) as Hl1 by (eapply last_ok_tame; eassumption).
  unfold listen_result. cbv zeta.
  assert (forall j, (j < 1)%nat -> before_stop w (reading j (open_of (w_sock w)) (bytes_of (w_in w))) []) as Hj1.
  { intros j Hj. assert (j = 0)%nat as -> by lia. apply before_stop_0. }
  destruct o1 as [h|e| |u|]; try contradiction.
  2:{ injection E as <- <-. exists [], [], 1%nat. split; [now apply step_fstep|].
      split; [now rewrite seen_nil|]. split; [apply prefix_nil|]. split; [exact Hl1|]. split; [|auto].
      intros (C & _). contradiction. }
  2:{ injection E as <- <-. destruct E1 as [Hin Hrd]. exists [], [], 1%nat. split; [now apply step_fstep|].
      split; [now rewrite seen_nil|]. split; [apply prefix_nil|]. split; [exact Hl1|]. split; [|auto].
      intros _. cbn [reading]. rewrite Hrd. auto. }
  destruct E1 as (i & Hrd & Hh & Hsz1).
  unfold bind at 1 in E. destruct (handleFrame react h w1) as [o2 w2] eqn:E2.
  apply (handleFrame_spec h i) in E2; [|assumption..].
  unfold frame_result in E2. cbv zeta in E2.
  rewrite (open_tame _ _ Ht1) in E2.
  set (opn := open_of (w_sock w)) in *. set (rest := bytes_of (w_in w1)) in *.
  set (n := eff_len (i_len i)) in *.
  destruct E2 as (new & os & Hfs & Htr & Hp & Hsz2 & Hl2 & Hrej & Hm).
  rewrite (seen_tame _ _ _ Ht1) in Htr.
  pose proof (fstep_trans _ _ _ _ _ (step_fstep _ _ _ Hst1) Hfs) as Hf12. cbn [app] in Hf12.
  assert (forall k, reading (S k) opn (bytes_of (w_in w)) =
            (if negb (accepts opn i) then ([], Rejected rest) else
             if negb (n <=? lenN rest) then (shown (i_opcode i) (i_fin i) (masked_opt (i_key i) (takeN n rest)) (n <=? lenN rest), Blocked)
             else if i_opcode i =? 8 then (shown (i_opcode i) (i_fin i) (masked_opt (i_key i) (takeN n rest)) (n <=? lenN rest), Closed (dropN n rest))
             else let (more, e) := reading k (next_open opn i) (dropN n rest) in
                  (shown (i_opcode i) (i_fin i) (masked_opt (i_key i) (takeN n rest)) (n <=? lenN rest) ++ more, e))) as Hread.
  { intros k. cbn [reading]. rewrite Hrd. reflexivity. }
  set (full := shown (i_opcode i) (i_fin i) (masked_opt (i_key i) (takeN n rest)) (n <=? lenN rest)) in *.
  assert (prefix os (fst (reading 1 opn (bytes_of (w_in w))))) as Hp1.
  { rewrite Hread. destruct (accepts opn i); cbn [negb]; [|exact Hp].
    destruct (negb (n <=? lenN rest)); [exact Hp|]. destruct (i_opcode i =? 8); [exact Hp|].
    cbn [reading fst]. rewrite app_nil_r. exact Hp. }
  assert (forall j, (j < 1)%nat -> before_stop w (reading j opn (bytes_of (w_in w))) new) as Hj1'.
  { intros j Hj. assert (j = 0)%nat as -> by lia. apply before_stop_0. }
  destruct o2 as [[]|e| |u|].
  - destruct Hm as (Ha & -> & Hcomp & Hb & Hop). rewrite Ha in *. rewrite Hcomp in Hread. cbn [negb] in Hread.
    unfold bind, get in E. pose proof Hh as (_ & _ & Ho & _). rewrite Ho in E.
    unfold OPCODE_CLOSE in E.
    destruct (N.eqb_spec (i_opcode i) 8) as [H8|H8].
    + (* Close *)
      cbn [negb andb] in E. injection E as <- <-. exists new, full, 1%nat. split; [exact Hf12|]. split; [exact Htr|].
      split; [rewrite Hread; apply prefix_refl|]. split; [exact Hl2|]. split; [|auto].
      rewrite Hread. split; [reflexivity|]. left. cbn [snd]. now rewrite Hb.
    + cbn [negb andb] in E. destruct (s_listening (w_sock w2)) eqn:Elis.
      * (* next frame *)
        apply IH in E; [|lia|apply Hf12|exact Hl2].
        unfold listen_result in E. cbv zeta in E.
        assert (forall os, seen (w_sock w2) os = seen (w_sock w) os) as Hseen.
        { intros x. unfold seen. destruct Hf12 as (_ & _ & _ & _ & _ & -> & _). reflexivity. }
        destruct E as (new' & os' & k & G1 & G2 & G3 & G4 & G5 & G6).
        rewrite Hop, Hb in *. rewrite Hseen in G2.
        assert (forall k, fst (reading (S k) opn (bytes_of (w_in w))) =
                  full ++ fst (reading k (next_open opn i) (dropN n rest))) as Hfst.
        { intros k'. rewrite Hread. destruct (reading k' (next_open opn i) (dropN n rest)); reflexivity. }
        assert (forall k, snd (reading (S k) opn (bytes_of (w_in w))) =
                  snd (reading k (next_open opn i) (dropN n rest))) as Hsnd.
        { intros k'. rewrite Hread. destruct (reading k' (next_open opn i) (dropN n rest)); reflexivity. }
        exists (new ++ new'), (full ++ os'), (S k).
        split; [eapply fstep_trans; eassumption|].
        split; [rewrite transcript_app, Htr, G2; now rewrite seen_app|].
        rewrite Hfst, Hsnd. split; [now apply prefix_app_l|]. split; [exact G4|].
        assert (calm w -> calm w2) as Hcalm2 by (intros C; now apply Hf12).
        split.
        -- destruct o as [x|e| |u|].
           ++ destruct G5 as [-> G5]. split; [reflexivity|exact G5].
           ++ intros C. destruct (G5 (Hcalm2 C)) as (-> & H). auto.
           ++ intros C. destruct (G5 (Hcalm2 C)) as (-> & H). auto.
           ++ destruct G5 as [H1 H2]. split; [exact H1|]. intros C. apply H2, Hcalm2, C.
           ++ exact G5.
        -- intros C Hlis j Hj. destruct j as [|j].
           { apply before_stop_0. }
           destruct Hf12 as (Hlog & _ & _ & _ & _ & _ & _ & Hc12 & Htl).
           destruct (Hc12 C) as (C2 & Hst2 & _). specialize (Hst2 Elis). specialize (Htl Elis).
           destruct (G6 C2 Elis j ltac:(lia)) as (n1 & n2 & rr & -> & T1 & T2 & T3 & T4).
           exists (new ++ n1), n2, rr. split; [now rewrite app_assoc|]. split.
           { rewrite transcript_app, Htr, T1, Hseen, Hfst. now rewrite seen_app. }
           split; [rewrite stops_app, <- Hlog, T2, Hst2; reflexivity|].
           rewrite Hsnd. split; [exact T3|]. now rewrite <- Htl.
      * (* stopped *)
        injection E as <- <-. exists new, full, 1%nat. split; [exact Hf12|]. split; [exact Htr|].
        split; [exact Hp1|]. split; [exact Hl2|]. split; [|auto].
        rewrite Hread. cbn [reading fst snd]. rewrite app_nil_r. split; [reflexivity|]. right. rewrite Hb. auto.
  - injection E as <- <-. exists new, os, 1%nat. split; [exact Hf12|]. split; [exact Htr|].
    split; [exact Hp1|]. split; [exact Hl2|]. split; [|auto].
    intros C. specialize (Hm (Hcalm1 C)). rewrite Hread, Hm in *. cbn [negb fst snd].
    destruct (Hrej eq_refl) as (-> & _). split; [|reflexivity].
    destruct Hp as [t Ht]. destruct os; [reflexivity|discriminate].
  - injection E as <- <-. exists new, os, 1%nat. split; [exact Hf12|]. split; [exact Htr|].
    split; [exact Hp1|]. split; [exact Hl2|]. split; [|auto].
    intros C. destruct (Hm (Hcalm1 C)) as (-> & Hcomp & Hin).
    assert (accepts opn i = true) as Ha.
    { destruct (accepts opn i); [reflexivity|]. destruct (Hrej eq_refl) as (_ & [] & _). }
    rewrite Hread, Ha, Hcomp. cbn [negb fst snd]. auto.
  - injection E as <- <-. exists new, os, 1%nat. split; [exact Hf12|]. split; [exact Htr|].
    split; [exact Hp1|]. split; [exact Hl2|]. split; [|auto].
    destruct Hm as [H1 H2]. split; [exact H1|]. intros C. apply H2, Hcalm1, C.
  - destruct Hm.
Qed.

End L.
