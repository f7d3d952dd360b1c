(** C25: the only ways to undefined behaviour while receiving. *)
From Verif Require Import Bytes Frame World WebSocket SpecFrame SpecSend SpecListen SpecApi SpecConfig
  ProofFrame ProofStream ProofSend ProofHeader ProofListen ProofReading ProofApi ProofInv ProofCausal.
From Coq Require Import ZifyBool ZifyNat ZifyN.
Local Open Scope N_scope.
Local Arguments lenN : simpl never.

(** Listener code called with data [d] sets a read buffer size that is negative or larger than [d] (which never is larger
    than the buffer it was read to). *)
Definition resizes (react : react_t) (log : list (nat * event)) (l : nat) (d : bytes) : Prop :=
  exists m b, In (CSetConfig m b) (react l log) /\ (b < 0 \/ Z.of_N (lenN d) < b)%Z.
(** Some readMessage call with data made after [log0] does so. *)
Definition resized (react : react_t) (log0 new : list (nat * event)) : Prop :=
  exists n1 l op d n2, new = n1 ++ (l, EvMsg op d) :: n2 /\ resizes react (log0 ++ n1 ++ [(l, EvMsg op d)]) l d.

Section Safe.
Variable react : react_t.
Variable log0 : list (nat * event).

Definition off (log : list (nat * event)) : Prop := exists new, log = log0 ++ new /\ resized react log0 new.
Lemma off_app a b : off a -> off (a ++ b).
Proof.
  intros (new & -> & n1 & l & op & d & n2 & -> & H). exists ((n1 ++ (l, EvMsg op d) :: n2) ++ b). split; [symmetry; apply app_assoc|].
  exists n1, l, op, d, (n2 ++ b). split; [now rewrite <- app_assoc|exact H].
Qed.

Definition pre (w : world) : Prop := script_ok no_config any_err (w_in w) /\ prefix log0 (w_log w).
Definition ub_ok {A} (o : outcome A) (w' : world) : Prop :=
  forall u, o = Ub u -> u = UbSigned /\ ~ small_react react \/ off (w_log w').
Definition ores {A} (w : world) (o : outcome A) (w' : world) : Prop := pre w' /\ prefix (w_log w) (w_log w') /\ ub_ok o w'.
Definition oinv {A} (m : M A) : Prop := forall w o w', pre w -> m w = (o, w') -> ores w o w'.

Lemma ores_refl {A} w (o : outcome A) : pre w -> (forall u, o <> Ub u) -> ores w o w.
Proof. intros H Hu. split; [exact H|]. split; [exists []; now rewrite app_nil_r|]. intros u ->. now destruct (Hu u). Qed.
Lemma ores_trans {A} w w1 (o : outcome A) w' : prefix (w_log w) (w_log w1) -> ores w1 o w' -> ores w o w'.
Proof. intros [a Ha] (H1 & [b Hb] & H3). split; [exact H1|]. split; [exists (a ++ b); now rewrite Hb, Ha, app_assoc|exact H3]. Qed.
Lemma ores_stop {A C} w (o : outcome A) (o' : outcome C) w' : (forall u, o' = Ub u -> o = Ub u) -> ores w o w' -> ores w o' w'.
Proof. intros H (H1 & H2 & H3). split; [exact H1|]. split; [exact H2|]. intros u Hu. apply H3. auto. Qed.

Lemma oinv_bind {A C} (m : M A) (f : A -> M C) : oinv m -> (forall a, oinv (f a)) -> oinv (bind m f).
Proof.
  intros Hm Hf w o w' Hb E. unfold bind in E. destruct (m w) as [o1 w1] eqn:E1. apply Hm in E1; [|exact Hb].
  destruct o1 as [a|e| |u|]; try (injection E as <- <-; eapply ores_stop; [|exact E1]; congruence).
  apply Hf in E; [|apply E1]. eapply ores_trans; [|exact E]. apply E1.
Qed.
Lemma oinv_ret {A} (a : A) : oinv (ret a).
Proof. intros w o w' Hb E. injection E as <- <-. apply ores_refl; [exact Hb|discriminate]. Qed.
Lemma oinv_throw {A} e : oinv (@throw A e).
Proof. intros w o w' Hb E. injection E as <- <-. apply ores_refl; [exact Hb|discriminate]. Qed.
Lemma oinv_get : oinv get.
Proof. intros w o w' Hb E. injection E as <- <-. apply ores_refl; [exact Hb|discriminate]. Qed.
Lemma oinv_sock f : oinv (modify_sock f).
Proof. intros w o w' Hb E. injection E as <- <-. split; [exact Hb|]. split; [exists []; now rewrite app_nil_r|discriminate]. Qed.
Lemma oinv_try m : oinv m -> oinv (try_ m).
Proof.
  intros Hm w o w' Hb E. unfold try_ in E. destruct (m w) as [o1 w1] eqn:E1. apply Hm in E1; [|exact Hb].
  destruct o1; injection E as <- <-; (eapply ores_stop; [|exact E1]); congruence.
Qed.

(** Commands, with the buffer size afterwards. *)
Definition sized_res (bs : list Z) (w w' : world) : Prop := In (s_buf (w_sock w')) (s_buf (w_sock w) :: bs).
Lemma osend op : (small_react react -> lenN (req_payload op) < 2 ^ 31) -> forall w o w', pre w -> send op w = (o, w') ->
  ores w o w' /\ s_buf (w_sock w') = s_buf (w_sock w).
Proof.
  intros Hsm w o w' [H1 H2] E. pose proof E as E'. apply keeps_send in E. destruct E as [(E1 & E2 & E3 & (_ & E4 & _) & _) E5].
  split; [|exact E4]. split; [split; [rewrite E1; exact H1|rewrite E2; exact H2]|]. split; [exists []; rewrite app_nil_r; auto|].
  intros u ->. left. split; [exact E5|]. intros Hs. specialize (Hsm Hs). apply send_spec in E'; [|lia].
  destruct E' as (p & _ & _ & _ & _ & Hu & _). destruct (Hu _ eq_refl) as (_ & _ & Hu'). lia.
Qed.
Definition sizes_of (cs : list cmd) : list Z := flat_map (fun c => match c with CSetConfig _ b => [b] | _ => [] end) cs.
Lemma ocmds cs : (small_react react -> Forall small_cmd cs) -> forall w o w', pre w -> exec_cmds cs w = (o, w') ->
  ores w o w' /\ sized_res (sizes_of cs) w w'.
Proof.
  induction cs as [|c cs IH]; intros Hs w o w' Hb E; cbn [exec_cmds] in E.
  { injection E as <- <-. split; [apply ores_refl; [exact Hb|discriminate]|now left]. }
  assert (small_react react -> small_cmd c) as Hs' by (intros Hx; specialize (Hs Hx); now inversion Hs).
  assert (small_react react -> Forall small_cmd cs) as Hs'' by (intros Hx; specialize (Hs Hx); now inversion Hs).
  unfold bind in E. destruct (exec_cmd c w) as [o1 w1] eqn:E1.
  assert (ores w o1 w1 /\ In (s_buf (w_sock w1)) (s_buf (w_sock w) :: match c with CSetConfig _ b => [b] | _ => [] end)) as [H1 H2].
  { destruct c as [|l|m b|catch op| | |fin0 opc0 msg0]; cbn [exec_cmd] in E1.
    - injection E1 as <- <-. split; [|now left]. split; [exact Hb|]. split; [exists []; now rewrite app_nil_r|discriminate].
    - injection E1 as <- <-. split; [|now left]. split; [exact Hb|]. split; [exists []; now rewrite app_nil_r|discriminate].
    - injection E1 as <- <-. split; [|right; now left]. split; [exact Hb|]. split; [exists []; now rewrite app_nil_r|discriminate].
    - destruct catch.
      + unfold try_ in E1. destruct (send op w) as [o2 w2] eqn:E2. apply osend in E2; [|exact Hs'|exact Hb]. destruct E2 as [E2 E3].
        destruct o2; injection E1 as <- <-; (split; [eapply ores_stop; [|exact E2]; congruence|left; congruence]).
      + apply osend in E1; [|exact Hs'|exact Hb]. destruct E1 as [E2 E3]. split; [exact E2|left; congruence].
    - injection E1 as <- <-. split; [apply ores_refl; [exact Hb|discriminate]|now left].
    - injection E1 as <- <-. split; [apply ores_refl; [exact Hb|discriminate]|now left].
    - destruct (demand_send _ _ _ _ _ _ E1) as (o2 & E2 & Ho). apply osend in E2; [|exact Hs'|exact Hb]. destruct E2 as [E2 E3].
      split; [|left; congruence]. destruct Ho as [<-|[-> ->]]; [exact E2|]. eapply ores_stop; [|exact E2]. congruence. }
  unfold sized_res. cbn [sizes_of flat_map].
  destruct o1 as [a|e| |u|]; try (injection E as <- <-; split; [eapply ores_stop; [|exact H1]; congruence|]; cbn [In] in *; rewrite in_app_iff; tauto).
  apply IH in E; [|exact Hs''|apply H1]. destruct E as [E2 E3]. split; [eapply ores_trans; [apply H1|exact E2]|].
  unfold sized_res, sizes_of in E3. cbn [In] in *. rewrite in_app_iff. destruct E3 as [E3|E3]; [|tauto]. rewrite <- E3. tauto.
Qed.

Lemma onotify ev w o w' : pre w -> notify react ev w = (o, w') -> ores w o w' /\
  (s_buf (w_sock w') = s_buf (w_sock w) \/ exists l rest, w_log w' = w_log w ++ (l, ev) :: rest /\ In (s_buf (w_sock w')) (sizes_of (react l (w_log w ++ [(l, ev)])))).
Proof.
  intros Hb E. unfold notify in E. destruct (s_listener (w_sock w)) as [l|].
  - set (w1 := set_log w (w_log w ++ [(l, ev)])) in E.
    assert (pre w1) as Hb1 by (destruct Hb as [Hb1 [t Ht]]; split; [exact Hb1|]; exists (t ++ [(l, ev)]); cbn; rewrite Ht; now rewrite <- app_assoc).
    apply ocmds in E; [|intros Hx; apply Hx|exact Hb1]. destruct E as [E1 E2]. split; [eapply ores_trans; [|exact E1]; now exists [(l, ev)]|].
    destruct E2 as [E2|E2]; [left; symmetry; exact E2|]. right. destruct E1 as (_ & [rest Hr] & _). exists l, rest. split; [|exact E2].
    rewrite Hr. cbn [w1 set_log w_log]. now rewrite <- app_assoc.
  - injection E as <- <-. split; [apply ores_refl; [exact Hb|discriminate]|now left].
Qed.
Lemma oinv_notify ev : oinv (notify react ev).
Proof. intros w o w' Hb E. now apply onotify in E. Qed.

Lemma pre_ronly w w' : ronly w w' -> pre w -> pre w' /\ w_log w' = w_log w.
Proof.
  intros (_ & _ & _ & _ & Hl & H & _) [H1 H2]. split; [|exact Hl]. split; [|now rewrite Hl].
  refine (proj1 (H (fun _ => True) no_config any_err _ H1 I)). auto.
Qed.
Lemma oinv_header h : oinv (readFrameHeader h).
Proof.
  intros w o w' Hb E. apply readFrameHeader_spec in E. destruct E as [Hr E]. destruct (pre_ronly _ _ Hr Hb) as [H1 H2].
  split; [exact H1|]. split; [exists []; now rewrite app_nil_r|]. intros u ->. contradiction.
Qed.

Lemma oloop fuel : forall h short alloc progress w o w', pre w -> ((0 <= s_buf (w_sock w) <= alloc)%Z \/ off (w_log w)) -> (0 <= progress)%Z ->
  readPayload_loop react fuel h short alloc progress w = (o, w') -> ores w o w'.
Proof.
  induction fuel as [|fuel IH]; intros h short alloc progress w o w' Hb HB Hp E; cbn [readPayload_loop] in E.
  { injection E as <- <-. apply ores_refl; [exact Hb|discriminate]. }
  destruct (Z.ltb_spec progress (h_len h)) as [Hlt|Hge].
  2:{ injection E as <- <-. apply ores_refl; [exact Hb|discriminate]. }
  unfold bind at 1, get in E. cbv zeta in E.
  set (desired := (if h_len h - progress <? s_buf (w_sock w) then h_len h - progress else s_buf (w_sock w))%Z) in E.
  assert ((0 <= desired <= alloc)%Z \/ off (w_log w)) as Hdes by (destruct HB as [HB|HB]; [left|now right]; unfold desired; destruct (Z.ltb_spec (h_len h - progress) (s_buf (w_sock w))); lia).
  unfold bind at 1, readSimple in E.
  destruct (Z.ltb_spec desired 0).
  { injection E as <- <-. split; [exact Hb|]. split; [exists []; now rewrite app_nil_r|]. intros u _. destruct Hdes; [lia|now right]. }
  destruct (Z.eqb_spec desired 0) as [Ed|Ed].
  { injection E as <- <-. apply ores_refl; [exact Hb|discriminate]. }
  destruct (read_raw (Z.to_N desired) (w_in w) (w_sock w)) as [[r s1] k1] eqn:E1.
  assert (0 < Z.to_N desired) as HdN by lia.
  pose proof (read_raw_bytes _ _ _ _ _ _ HdN E1) as Hrb.
  set (w1 := set_sock (set_in w s1) k1) in *.
  assert (pre w1) as Hb1 by (destruct Hb as [Hb1 Hb2]; split; [eapply read_raw_ok; eassumption|exact Hb2]).
  assert (s_buf k1 = s_buf (w_sock w)) as Hk1.
  { eapply (read_raw_inv (fun k => s_buf k = s_buf (w_sock w))); [|exact E1|exact (proj1 Hb)|reflexivity]. intros [] y; cbn; tauto. }
  assert (w_log w1 = w_log w) as Hlog by reflexivity.
  apply (ores_trans w w1); [rewrite Hlog; exists []; now rewrite app_nil_r|].
  assert ((0 <= s_buf (w_sock w1) <= alloc)%Z \/ off (w_log w1)) as HB1 by (cbn [w1 w_sock set_sock w_log]; rewrite Hk1; exact HB).
  destruct r as [d|e|].
  - destruct Hrb as (_ & Hd1 & Hd2 & _). destruct (Z.ltb_spec alloc (Z.of_N (lenN d))) as [Ha|Ha].
    { injection E as <- <-. split; [exact Hb1|]. split; [exists []; now rewrite app_nil_r|]. intros u _. destruct Hdes; [lia|now right]. }
    assert (0 <= progress + Z.of_N (lenN d))%Z as Hp' by lia.
    cbv zeta in E. destruct short as [s|].
    + eapply IH; [exact Hb1|exact HB1|exact Hp'|exact E].
    + set (d' := if h_hasMask h then xor_from (h_mask h) (Z.to_N progress) d else d) in E.
      assert (lenN d' = lenN d) as Hd' by (unfold d'; destruct (h_hasMask h); [apply lenN_xor_from|reflexivity]).
      unfold bind at 1 in E. destruct (notify react (EvMsg (h_opcode h) d') w1) as [o2 w2] eqn:E2.
      pose proof E2 as E2'. apply onotify in E2'; [|exact Hb1]. destruct E2' as [Q1 Q2].
      destruct o2 as [a|e| |u|]; try (injection E as <- <-; eapply ores_stop; [|exact Q1]; congruence).
      eapply ores_trans; [apply Q1|]. eapply IH; [apply Q1| |exact Hp'|exact E].
      destruct HB1 as [HB1|HB1]; [|right; destruct Q1 as (_ & [t ->] & _); now apply off_app].
      destruct Q2 as [Q2|(l & rest & Q2 & Q3)]; [left; lia|].
      set (b := s_buf (w_sock w2)) in *. destruct (Z_lt_le_dec b 0) as [Hn|Hn]; [|destruct (Z_lt_le_dec (Z.of_N (lenN d')) b) as [Hm|Hm]; [|left; lia]].
      all: right; destruct Hb1 as [_ [n1 Hn1]]; exists (n1 ++ (l, EvMsg (h_opcode h) d') :: rest); (split; [rewrite Q2, Hn1; now rewrite <- app_assoc|]);
        exists n1, l, (h_opcode h), d', rest; (split; [reflexivity|]);
        unfold sizes_of in Q3; apply in_flat_map in Q3; destruct Q3 as (c & Hc & Hcb); destruct c; try contradiction; destruct Hcb as [<-|[]];
        (eexists; eexists; split; [rewrite Hn1, <- app_assoc in Hc; exact Hc|lia]).
  - destruct e; [eapply IH; [exact Hb1|exact HB1|exact Hp|exact E]|..]; injection E as <- <-; (apply ores_refl; [exact Hb1|discriminate]).
  - injection E as <- <-. apply ores_refl; [exact Hb1|discriminate].
Qed.

Lemma oinv_payload h short : oinv (readPayload react h short).
Proof.
  intros w o w' Hb E. unfold readPayload in E.
  destruct (_ && _)%bool; [injection E as <- <-; apply ores_refl; [exact Hb|discriminate]|].
  unfold bind at 1, get in E.
  destruct (Z.ltb_spec (s_buf (w_sock w)) 0); [injection E as <- <-; apply ores_refl; [exact Hb|discriminate]|].
  unfold bind at 1 in E. destruct (readPayload_loop react _ h short (s_buf (w_sock w)) 0 w) as [o1 w1] eqn:E1.
  apply oloop in E1; [|exact Hb|left; lia|lia].
  destruct o1 as [s|e| |u|]; try (injection E as <- <-; eapply ores_stop; [|exact E1]; congruence).
  eapply ores_trans; [apply E1|]. revert E. apply oinv_bind; [|intros; apply oinv_ret|apply E1].
  destruct short; [apply oinv_ret|]. destruct (h_fin h); [|apply oinv_ret]. apply oinv_notify.
Qed.

Lemma oinv_handle h : oinv (handleFrame react h).
Proof.
  unfold handleFrame.
  assert (forall short, oinv (readPayload react h short ;;; ret tt)%m) as Hrp.
  { intros short. apply oinv_bind; [apply oinv_payload|intros _; apply oinv_ret]. }
  assert (forall f, oinv (p <- readPayload react h (Some []) ;; notify react (f p))%m) as Hc.
  { intros f. apply oinv_bind; [apply oinv_payload|]. intros a. apply oinv_notify. }
  assert (oinv (ok <- checkForContinuation h ;;
      if (ok : bool) then readPayload react h None ;;; ret tt else throw ExContinuationExpected)%m) as Hd.
  { apply oinv_bind.
    - unfold checkForContinuation. apply oinv_bind; [apply oinv_get|]. intros w0.
      destruct (_ || _)%bool; [apply oinv_ret|]. apply oinv_bind; [apply oinv_sock|intros _; apply oinv_ret].
    - intros []; [apply Hrp|apply oinv_throw]. }
  assert (oinv (w0 <- get ;; if (s_last (w_sock w0) <? 0)%Z then throw ExInvalidState
            else readPayload react h None ;;; ret tt)%m) as H0.
  { apply oinv_bind; [apply oinv_get|]. intros w0. destruct (_ <? 0)%Z; [apply oinv_throw|apply Hrp]. }
  destruct (h_opcode h) as [|[[[[p|p|]|[p|p|]|]|[[p|p|]|[p|p|]|]|]|[[[p|p|]|[p|p|]|]|[[p|p|]|[p|p|]|]|]|]];
    first [exact H0|exact Hd|apply Hc; intros; exact I|apply oinv_throw].
Qed.
Lemma oinv_iterate h : oinv (iterateFrame react h).
Proof.
  unfold iterateFrame. apply oinv_bind; [apply oinv_header|]. intros h'. apply oinv_bind; [apply oinv_handle|intros _; apply oinv_ret].
Qed.
Lemma oinv_listen_loop fuel : forall h, oinv (listen_loop react fuel h).
Proof.
  induction fuel as [|fuel IH]; intros h; cbn [listen_loop].
  - intros w o w' Hb E. injection E as <- <-. apply ores_refl; [exact Hb|discriminate].
  - apply oinv_bind; [apply oinv_header|]. intros h'. apply oinv_bind; [apply oinv_handle|]. intros _.
    apply oinv_bind; [apply oinv_get|]. intros w0. destruct (_ && _)%bool; [apply IH|apply oinv_ret].
Qed.
Lemma oinv_listen : oinv (listen react).
Proof.
  unfold listen. apply oinv_bind; [apply oinv_sock|]. intros _. apply oinv_bind; [apply oinv_get|]. intros w0. apply oinv_try, oinv_listen_loop.
Qed.
End Safe.

(** Another thread changes the configuration. *)
Definition reconfigured (s : list rev) : Prop := exists m b, In (RExt (XSetConfig m b)) s.
Lemma reconfigured_dec s : reconfigured s \/ script_ok no_config any_err s.
Proof.
  induction s as [|x s [[m [b IH]]|IH]]; [right; constructor|left; exists m, b; now right|].
  destruct x as [b bs|e|[|l|m b]]; try (right; constructor; [exact I|exact IH]). left. exists m, b. now left.
Qed.

(** Whatever is received, whatever listeners do, whatever other threads do: undefined behaviour while receiving takes a
    masked send of 2^31 bytes or more, a setConfig of another thread, or a readMessage call with data that sets the buffer size to something
    negative or larger than that data. *)
Theorem C25_only_way : forall react w,
  (forall u w', listen react w = (Ub u, w') \/ (exists h, iterateFrame react h w = (Ub u, w')) ->
   u = UbSigned /\ ~ small_react react \/ reconfigured (w_in w) \/
   exists new, w_log w' = w_log w ++ new /\ resized react (w_log w) new).
Proof.
  intros react w u w' H. destruct (reconfigured_dec (w_in w)) as [Hr|Hr]; [auto|].
  assert (pre (w_log w) w) as Hb by (split; [exact Hr|exists []; now rewrite app_nil_r]).
  assert (ub_ok react (w_log w) (Ub u : outcome unit) w') as Hu.
  { destruct H as [E|[h E]].
    - apply (oinv_listen react (w_log w)) in E; [|exact Hb]. apply E.
    - apply (oinv_iterate react (w_log w)) in E; [|exact Hb]. destruct E as (_ & _ & E). intros v Hv. apply E. congruence. }
  destruct (Hu u eq_refl) as [H1|(new & H1 & H2)]; [auto|]. right. right. eauto.
Qed.
Print Assumptions C25_only_way.

(** * Universal refutations *)
Local Arguments takeN : simpl never.
Local Arguments dropN : simpl never.
Local Arguments be_enc : simpl never.
Local Arguments be_dec : simpl never.

(** A header that can be read is read the same way if more is going to arrive. *)
Lemma header_more h w h' w' t : readFrameHeader h w = (Ret h', w') ->
  readFrameHeader h (set_in w (w_in w ++ t)) = (Ret h', set_in w' (w_in w' ++ t)).
Proof.
  set (rb := fun A (m : M A) => forall w a w', m w = (Ret a, w') -> m (set_in w (w_in w ++ t)) = (Ret a, set_in w' (w_in w' ++ t))).
  assert (forall A B (m : M A) (f : A -> M B), rb A m -> (forall a, rb B (f a)) -> rb B (bind m f)) as Hb.
  { intros A B m f Hm Hf u b u' E. unfold bind in *. destruct (m u) as [[a| | | |] u1] eqn:E1; try discriminate. apply Hm in E1. rewrite E1. now apply Hf. }
  assert (forall A (a : A), rb A (ret a)) as Hr by (intros A a u b u' E; injection E as <- <-; reflexivity).
  assert (forall A e, rb A (throw e)) as Ht by (intros A e u b u' E; discriminate).
  assert (forall n, rb bytes (readExactSizeDataSimple n)) as Hx.
  { intros n u b u' E. unfold readExactSizeDataSimple in *. destruct (readExact_raw n (w_in u) (w_sock u)) as [[r s1] k1] eqn:E1.
    apply (readExact_raw_app t) in E1. cbn [w_in set_in w_sock]. destruct r; try discriminate; rewrite E1; injection E as <- <-; reflexivity. }
  revert w h' w'. change (rb header (readFrameHeader h)). clearbody rb. unfold readFrameHeader.
  apply Hb; [apply Hx|]. intros bb. destruct (negb _); [apply Ht|]. destruct (unpackHeaderBits _ _) as [h1 n1]. apply Hb.
  - destruct (n1 <? 126); [apply Hr|]. destruct (n1 =? 126); [|destruct (n1 =? 127); [|apply Hr]]; (apply Hb; [apply Hx|]); intros l2; destruct (negb _); auto.
  - intros h2. destruct (h_hasMask h2); [|apply Hr]. apply Hb; [apply Hx|]. intros mk. destruct (negb _); auto.
Qed.

(** A header in a segment of its own. *)
Lemma header_segment lf fin r1 r2 r3 op key n b bs w t : rfc_header lf fin r1 r2 r3 op key n = b :: bs -> op < 16 -> lform_fits lf n ->
  w_in w = RData b bs :: t ->
  exists h, readFrameHeader header_init w = (Ret h, set_in w t) /\ hdr_match h (FInfo fin (rsv_of r1 r2 r3) op key n).
Proof.
  intros Hhd Hop Hlf Hin. set (w0 := set_in w [RData b bs]).
  destruct (readFrameHeader header_init w0) as [o w1] eqn:E. pose proof E as E0. apply readFrameHeader_spec in E0. destruct E0 as [Hro E0].
  assert (rd_header (bytes_of (w_in w0)) = Some (FInfo fin (rsv_of r1 r2 r3) op key n, [])) as Hrd.
  { cbn [w0 set_in w_in bytes_of]. rewrite app_nil_r, <- Hhd, <- (app_nil_r (rfc_header _ _ _ _ _ _ _ _)). apply rd_header_rfc; assumption. }
  destruct o as [h|e| |u|]; try contradiction.
  2: { exfalso. apply E0. cbn. repeat constructor. }
  2: { destruct E0 as [_ E0]. congruence. }
  destruct E0 as (i & Hi & Hm & _). rewrite Hrd in Hi. injection Hi as <- Hb1. exists h. split; [|exact Hm].
  destruct Hro as (R1 & R2 & R3 & R4 & R5 & R6 & _).
  destruct (R6 (fun k => k = w_sock w) (fun _ => False) (fun _ => False)) as [Hs Hk]; [intros x y []|constructor; [exact I|constructor]|reflexivity|].
  assert (w_in w1 = []) as Hw1. { destruct Hs as [|e s He _]; [reflexivity|]. destruct e; cbn in He, Hb1; [discriminate|contradiction..]. }
  apply (header_more _ _ _ _ t) in E. rewrite Hw1 in E. cbn [w0 w_in set_in app] in E. rewrite <- Hin in E.
  change (set_in w0 (w_in w)) with (set_in w (w_in w)) in E. replace (set_in w (w_in w)) with w in E by (destruct w; reflexivity). rewrite E. f_equal.
  destruct w1, w; cbn in *; subst; reflexivity.
Qed.

Definition setup_ok (w : world) (op n : N) : Prop :=
  (op = 1 \/ op = 2) /\ n < 2 ^ 63 /\ open_of (w_sock w) = false /\ (0 < s_buf (w_sock w))%Z.

(** Up to the payload. *)
Lemma to_payload react lf fin r1 r2 r3 op key n b bs w t u : rfc_header lf fin r1 r2 r3 op key n = b :: bs -> lform_fits lf n ->
  w_in w = RData b bs :: t -> setup_ok w op n ->
  (forall h k fuel, h_opcode h = op -> h_len h = Z.of_N n -> (forall d, plain h 0 d = masked_opt key d) ->
     s_buf k = s_buf (w_sock w) -> s_listener k = s_listener (w_sock w) -> (script_size t < fuel)%nat ->
     exists w', readPayload_loop react fuel h None (s_buf (w_sock w)) 0 (set_sock (set_in w t) k) = (Ub u, w')) ->
  exists w', listen react w = (Ub u, w').
Proof.
  intros Hhd Hlf Hin (Hop & Hn & Hopen & HB) Hloop. unfold listen, bind, modify_sock, get, try_. cbn [listen_loop].
  set (w0 := set_sock w (set_listening (w_sock w) true)).
  destruct (header_segment lf fin r1 r2 r3 op key n b bs w0 t Hhd) as (h & E & Hm); [destruct Hop; lia|exact Hlf|exact Hin|].
  change (bind ?m ?f w0) with (let (o, w') := m w0 in match o with Ret a => f a w' | Throw e => (Throw e, w') | Wait => (Wait, w') | Ub u => (Ub u, w') | OutOfFuel => (OutOfFuel, w') end).
  cbv beta. rewrite E. pose proof (fun d => plain_masked h _ d Hm) as Hpl. destruct Hm as (_ & _ & M3 & _ & M5 & _ & _). cbn [i_opcode i_key i_len] in *.
  rewrite to_i64_small in M5 by exact Hn.
  unfold bind at 1.
  set (k := set_last (set_listening (w_sock w) true) (if h_fin h then (-1)%Z else Z.of_N (h_opcode h))).
  destruct (Hloop h k (S (script_size t)) M3 M5 Hpl eq_refl eq_refl (Nat.lt_succ_diag_r _)) as (w' & Ew).
  assert (handleFrame react h (set_in w0 t) = (Ub u, w')) as ->; [|eauto].
  assert (checkForContinuation h (set_in w0 t) = (Ret true, set_sock (set_in w t) k)) as Ec.
  { unfold checkForContinuation, bind, get. cbn [w0 set_in w_sock set_sock set_listening s_last]. unfold open_of in Hopen.
    destruct ((_ =? 1) || (_ =? 2))%Z%bool eqn:Eo; [exfalso; lia|]. reflexivity. }
  assert (readPayload react h None (set_sock (set_in w t) k) = (Ub u, w')) as Er.
  { unfold readPayload. cbn [andb]. unfold bind at 1, get. cbn [w_sock set_sock w_in set_in]. change (s_buf k) with (s_buf (w_sock w)).
    destruct (Z.ltb_spec (s_buf (w_sock w)) 0); [lia|]. unfold bind at 1. rewrite Ew. reflexivity. }
  unfold handleFrame. rewrite M3. destruct Hop as [-> | ->]; unfold bind at 1; rewrite Ec; unfold bind at 1; rewrite Er; reflexivity.
Qed.

(** One read of data in the loop. *)
Lemma loop_read react fuel h B pr w b bs t : w_in w = RData b bs :: t -> (pr < h_len h)%Z -> (0 < s_buf (w_sock w))%Z ->
  (Z.of_N (lenN (b :: bs)) <= s_buf (w_sock w))%Z -> (pr + Z.of_N (lenN (b :: bs)) <= h_len h)%Z -> (Z.of_N (lenN (b :: bs)) <= B)%Z ->
  readPayload_loop react (S fuel) h None B pr w =
  (notify react (EvMsg (h_opcode h) (plain h pr (b :: bs))) ;;;
   readPayload_loop react fuel h None B (pr + Z.of_N (lenN (b :: bs)))%Z)%m (set_in w t).
Proof.
  intros Hin H1 H2 H3 H4 H5. cbn [readPayload_loop]. destruct (Z.ltb_spec pr (h_len h)); [|lia].
  unfold bind at 1, get. cbv zeta. unfold bind at 1, readSimple.
  set (d := if (h_len h - pr <? s_buf (w_sock w))%Z then (h_len h - pr)%Z else s_buf (w_sock w)).
  assert (Z.of_N (lenN (b :: bs)) <= d /\ 0 < d)%Z as [D1 D2] by (unfold d; destruct (Z.ltb_spec (h_len h - pr) (s_buf (w_sock w))); lia).
  destruct (Z.ltb_spec d 0); [lia|]. destruct (Z.eqb_spec d 0); [lia|]. rewrite Hin. cbn [read_raw].
  rewrite takeN_all, dropN_all by lia. cbn [unread]. destruct (Z.ltb_spec B (Z.of_N (lenN (b :: bs)))); [lia|].
  replace (set_sock (set_in w t) (w_sock w)) with (set_in w t) by (destruct w; reflexivity). reflexivity.
Qed.
Lemma loop_overflow react fuel h B pr w b bs t : w_in w = RData b bs :: t -> (0 <= B < s_buf (w_sock w))%Z ->
  (B < Z.of_N (lenN (b :: bs)))%Z -> (pr + Z.of_N (lenN (b :: bs)) <= h_len h)%Z ->
  exists w', readPayload_loop react (S fuel) h None B pr w = (Ub UbOverflow, w').
Proof.
  intros Hin H1 H2 H3. cbn [readPayload_loop]. destruct (Z.ltb_spec pr (h_len h)); [|lia].
  unfold bind at 1, get. cbv zeta. unfold bind at 1, readSimple.
  set (d := if (h_len h - pr <? s_buf (w_sock w))%Z then (h_len h - pr)%Z else s_buf (w_sock w)).
  assert (B < d)%Z as D1 by (unfold d; destruct (Z.ltb_spec (h_len h - pr) (s_buf (w_sock w))); lia).
  destruct (Z.ltb_spec d 0); [lia|]. destruct (Z.eqb_spec d 0); [lia|]. rewrite Hin. cbn [read_raw].
  destruct (Z.ltb_spec B (Z.of_N (lenN (takeN (Z.to_N d) (b :: bs))))) as [?|Hle]; [eexists; reflexivity|].
  exfalso. rewrite lenN_takeN in Hle. lia.
Qed.

(** For every text or binary frame, every listener that answers its first piece by raising the buffer size, if the next read has more to
    give than the old size: the write past the end of the buffer happens. *)
Theorem C25_overflow_refuted : forall react w lf fin r1 r2 r3 op key n b bs d ds e es q m B' l,
  rfc_header lf fin r1 r2 r3 op key n = b :: bs -> lform_fits lf n -> setup_ok w op n ->
  w_in w = RData b bs :: RData d ds :: RData e es :: q ->
  (Z.of_N (lenN (d :: ds)) <= s_buf (w_sock w) < Z.of_N (lenN (e :: es)))%Z -> (s_buf (w_sock w) < B')%Z ->
  lenN (d :: ds) + lenN (e :: es) <= n ->
  s_listener (w_sock w) = Some l -> react l (w_log w ++ [(l, EvMsg op (masked_opt key (d :: ds)))]) = [CSetConfig m B'] ->
  exists w', listen react w = (Ub UbOverflow, w').
Proof.
  intros react w lf fin r1 r2 r3 op key n b bs d ds e es q m B' l Hhd Hlf Hs Hin H1 H2 H3 Hl Hre.
  eapply to_payload; [exact Hhd|exact Hlf|exact Hin|exact Hs|]. intros h k fuel Q1 Q2 Q3 Q4 Q5 Hf.
  destruct Hs as (_ & _ & _ & HB). cbn [script_size] in Hf. destruct fuel as [|[|fuel]]; [lia|lia|].
  rewrite (loop_read react _ h (s_buf (w_sock w)) 0 _ d ds (RData e es :: q)); cbn [w_in set_in set_sock w_sock]; rewrite ?Q4; try lia; [|reflexivity].
  unfold bind at 1, notify. cbn [w_sock set_sock set_in]. rewrite Q5, Hl. cbn [w_log set_log set_in set_sock]. rewrite Q1, Q3, Hre.
  cbn [exec_cmds exec_cmd]. unfold bind, modify_sock, ret.
  eapply loop_overflow with (b := e) (bs := es) (t := q); cbn [w_in w_sock set_sock set_in set_log set_config s_buf]; [reflexivity|lia|lia|lia].
Qed.
Print Assumptions C25_overflow_refuted.

(** The same if another thread raises it before the first piece arrives, for every listener that lets it be. *)
Theorem C25_overflow_by_thread_refuted : forall react w lf fin r1 r2 r3 op key n b bs d ds e es q m B',
  rfc_header lf fin r1 r2 r3 op key n = b :: bs -> lform_fits lf n -> setup_ok w op n ->
  w_in w = RData b bs :: RExt (XSetConfig m B') :: RData d ds :: RData e es :: q ->
  (Z.of_N (lenN (d :: ds)) <= s_buf (w_sock w) < Z.of_N (lenN (e :: es)))%Z -> (s_buf (w_sock w) < B')%Z ->
  lenN (d :: ds) + lenN (e :: es) <= n ->
  (forall l, s_listener (w_sock w) = Some l -> react l (w_log w ++ [(l, EvMsg op (masked_opt key (d :: ds)))]) = []) ->
  exists w', listen react w = (Ub UbOverflow, w').
Proof.
  intros react w lf fin r1 r2 r3 op key n b bs d ds e es q m B' Hhd Hlf Hs Hin H1 H2 H3 Hl.
  eapply to_payload; [exact Hhd|exact Hlf|exact Hin|exact Hs|]. intros h k fuel Q1 Q2 Q3 Q4 Q5 Hf.
  destruct Hs as (_ & _ & _ & HB). cbn [script_size] in Hf. destruct fuel as [|[|fuel]]; [lia|lia|].
  (* the first read takes the call of the other thread along *)
  assert (forall B f, readPayload_loop react (S f) h None B 0 (set_sock (set_in w (RExt (XSetConfig m B') :: RData d ds :: RData e es :: q)) k) =
    readPayload_loop react (S f) h None B 0 (set_sock (set_in w (RExt (XSetConfig m B') :: RData d ds :: RData e es :: q)) k)) as _ by reflexivity.
  cbn [readPayload_loop]. destruct (Z.ltb_spec 0 (h_len h)); [|lia].
  unfold bind at 1, get. cbv zeta. unfold bind at 1, readSimple. cbn [w_sock w_in set_sock set_in]. rewrite Q4.
  set (z := if (h_len h - 0 <? s_buf (w_sock w))%Z then (h_len h - 0)%Z else s_buf (w_sock w)).
  assert (Z.of_N (lenN (d :: ds)) <= z /\ 0 < z)%Z as [D1 D2] by (unfold z; destruct (Z.ltb_spec (h_len h - 0) (s_buf (w_sock w))); lia).
  destruct (Z.ltb_spec z 0); [lia|]. destruct (Z.eqb_spec z 0); [lia|]. cbn [read_raw].
  rewrite takeN_all, dropN_all by lia. cbn [unread]. destruct (Z.ltb_spec (s_buf (w_sock w)) (Z.of_N (lenN (d :: ds)))); [lia|].
  unfold bind at 1. change (if h_hasMask h then xor_from (h_mask h) (Z.to_N 0) (d :: ds) else d :: ds) with (plain h 0 (d :: ds)).
  match goal with |- context [notify react ?ev ?ww] => assert (exists u, notify react ev ww = (Ret tt, u) /\ w_in u = RData e es :: q /\ s_buf (w_sock u) = B') as (u & -> & U1 & U2) end.
  { unfold notify. cbn [w_sock set_sock set_in apply_ext set_config s_listener]. rewrite Q5. destruct (s_listener (w_sock w)) as [l|].
    - cbn [w_log set_log set_sock set_in]. rewrite Q1, Q3, (Hl l eq_refl). cbn [exec_cmds]. eexists. split; [reflexivity|]. split; reflexivity.
    - eexists. split; [reflexivity|]. split; reflexivity. }
  eapply (loop_overflow react fuel h _ _ u e es q); [exact U1|lia|lia|lia].
Qed.
Print Assumptions C25_overflow_by_thread_refuted.

(** A negative size set while something of the payload is missing makes the next read ask for a negative number of bytes. *)
Theorem C25_negative_count_refuted : forall react w lf fin r1 r2 r3 op key n b bs d ds q m B' l,
  rfc_header lf fin r1 r2 r3 op key n = b :: bs -> lform_fits lf n -> setup_ok w op n ->
  w_in w = RData b bs :: RData d ds :: q -> (Z.of_N (lenN (d :: ds)) <= s_buf (w_sock w))%Z -> (B' < 0)%Z -> lenN (d :: ds) < n ->
  s_listener (w_sock w) = Some l -> react l (w_log w ++ [(l, EvMsg op (masked_opt key (d :: ds)))]) = [CSetConfig m B'] ->
  exists w', listen react w = (Ub UbNegativeCount, w').
Proof.
  intros react w lf fin r1 r2 r3 op key n b bs d ds q m B' l Hhd Hlf Hs Hin H1 H2 H3 Hl Hre.
  eapply to_payload; [exact Hhd|exact Hlf|exact Hin|exact Hs|]. intros h k fuel Q1 Q2 Q3 Q4 Q5 Hf.
  destruct Hs as (_ & _ & _ & HB). cbn [script_size] in Hf. destruct fuel as [|[|fuel]]; [lia|lia|].
  rewrite (loop_read react _ h (s_buf (w_sock w)) 0 _ d ds q); cbn [w_in set_in set_sock w_sock]; rewrite ?Q4; try lia; [|reflexivity].
  unfold bind at 1, notify. cbn [w_sock set_sock set_in]. rewrite Q5, Hl. cbn [w_log set_log set_in set_sock]. rewrite Q1, Q3, Hre.
  cbn [exec_cmds exec_cmd]. unfold modify_sock, ret. cbv beta. cbn [bind readPayload_loop].
  destruct (Z.ltb_spec (0 + Z.of_N (lenN (d :: ds))) (h_len h)); [|lia]. unfold bind at 1, get. cbv zeta. cbn [w_sock set_sock set_config s_buf set_log].
  unfold bind at 1, readSimple. destruct (Z.ltb_spec (h_len h - (0 + Z.of_N (lenN (d :: ds)))) B'); [lia|].
  destruct (Z.ltb_spec B' 0); [|lia]. eexists. reflexivity.
Qed.
Print Assumptions C25_negative_count_refuted.

(** All of these happen: the same two-byte header (binary, 8 bytes), a buffer of 2 bytes, pieces of 2 and 6 bytes. *)
Definition upsizer (B : Z) : react_t := fun _ _ => [CSetConfig false B].
Definition small_world (s : list rev) : world :=
  World s [] [] (fun _ => x00) 0 [] (set_listener (sock_new_config false 2) (Some 7%nat)).
Lemma small_setup s : setup_ok (small_world s) 2 8.
Proof. unfold setup_ok. split; [auto|]. split; [reflexivity|]. split; reflexivity. Qed.
Example C25_overflow_nonvacuous :
  exists w', listen (upsizer 8) (small_world [RData x82 [x08]; RData x01 [x02]; RData x03 [x04; x05; x06; x07; x08]]) = (Ub UbOverflow, w').
Proof.
  refine (C25_overflow_refuted (upsizer 8) _ L7 true false false false 2 None 8 x82 [x08] x01 [x02] x03 [x04; x05; x06; x07; x08] [] false 8%Z 7%nat
    _ _ (small_setup _) eq_refl _ _ _ eq_refl eq_refl); vm_compute; try reflexivity; try discriminate. split; [discriminate|reflexivity].
Qed.
Example C25_overflow_by_thread_nonvacuous :
  exists w', listen (fun _ _ => []) (small_world [RData x82 [x08]; RExt (XSetConfig false 8); RData x01 [x02]; RData x03 [x04; x05; x06; x07; x08]]) = (Ub UbOverflow, w').
Proof.
  refine (C25_overflow_by_thread_refuted (fun _ _ => []) _ L7 true false false false 2 None 8 x82 [x08] x01 [x02] x03 [x04; x05; x06; x07; x08] [] false 8%Z
    _ _ (small_setup _) eq_refl _ _ _ (fun _ _ => eq_refl)); vm_compute; try reflexivity; try discriminate. split; [discriminate|reflexivity].
Qed.
Example C25_negative_count_nonvacuous :
  exists w', listen (upsizer (-1)) (small_world [RData x82 [x08]; RData x01 [x02]]) = (Ub UbNegativeCount, w').
Proof.
  refine (C25_negative_count_refuted (upsizer (-1)) _ L7 true false false false 2 None 8 x82 [x08] x01 [x02] [] false (-1)%Z 7%nat
    _ _ (small_setup _) eq_refl _ _ _ eq_refl eq_refl); vm_compute; try reflexivity; discriminate.
Qed.
(** C25_only_way is about runs that do get there, and none of its three ways is needed by the others. *)
Example C25_only_way_nonvacuous :
  (exists w', listen (upsizer 8) (small_world [RData x82 [x08]; RData x01 [x02]; RData x03 [x04; x05; x06; x07; x08]]) = (Ub UbOverflow, w') /\
     resized (upsizer 8) [] (w_log w')) /\
  ~ reconfigured [RData x82 [x08]; RData x01 [x02]; RData x03 [x04; x05; x06; x07; x08]].
Proof.
  split.
  - eexists. split; [vm_compute; reflexivity|]. exists [], 7%nat, 2, [x01; x02], []. split; [reflexivity|].
    exists false, 8%Z. split; [left; reflexivity|right; reflexivity].
  - intros (m & b & H). cbn in H. intuition discriminate.
Qed.
