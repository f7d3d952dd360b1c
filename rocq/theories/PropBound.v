(** C66: what a peer can make a listener do is bounded by what it sends. *)
From Verif Require Import Bytes Frame World WebSocket AsyncWebSocket SpecFrame SpecSend SpecListen SpecApi SpecAsync
  ProofFrame ProofStream ProofSend ProofHeader ProofListen ProofInv ProofAsync ProofAsync2 PropAsync PropAsync2.
From Coq Require Import ZifyBool ZifyNat ZifyN.
Local Open Scope N_scope.
Local Open Scope m_scope.
Local Arguments takeN : simpl never.
Local Arguments dropN : simpl never.
Local Arguments lenN : simpl never.
Local Arguments be_enc : simpl never.
Local Arguments be_dec : simpl never.
Notation step := AsyncWebSocket.step.

(** ** Specification *)
(** Bytes handed to a listener by a call. *)
Definition carried (e : event) : N :=
  match e with EvMsg _ d => lenN d | EvEnd _ => 0 | EvPing m | EvPong m | EvClose _ m => lenN m end.
(** The price of a call in received bytes: its data, plus the two bytes every frame header has if the call is one of those
    made at most once per frame; at least one. *)
Definition price (e : event) : N :=
  match e with EvMsg _ d => N.max 1 (lenN d) | _ => 2 + carried e end.
Fixpoint total (f : event -> N) (calls : list (nat * event)) : N :=
  match calls with [] => 0 | e :: r => f (snd e) + total f r end.
(** The calls [new] are paid for by the [consumed] bytes. *)
Definition paid_by (new : list (nat * event)) (consumed : bytes) : Prop :=
  lenN new <= lenN consumed /\ total carried new <= lenN consumed /\ total price new <= lenN consumed.

(** ** Proof *)
Lemma total_app f a b : total f (a ++ b) = total f a + total f b.
Proof. induction a as [|e a IH]; cbn [app total]; [reflexivity|]. rewrite IH. lia. Qed.
Lemma price_pos e : 1 <= price e.
Proof. destruct e; cbn [price carried]; lia. Qed.
Lemma price_carried e : carried e <= price e.
Proof. destruct e; cbn [price carried]; lia. Qed.
Lemma paid new c : total price new <= lenN c -> paid_by new c.
Proof.
  intros H. assert (lenN new <= total price new /\ total carried new <= total price new) as [H1 H2].
  { clear H. induction new as [|e new [IH1 IH2]]; [split; reflexivity|]. rewrite lenN_cons. cbn [total].
    pose proof (price_pos (snd e)). pose proof (price_carried (snd e)). lia. }
  unfold paid_by. lia.
Qed.

(** What happens between two worlds, with [pre] bytes of credit before and [post] after. *)
Definition spent (w w' : world) (pre post : N) : Prop := exists new c,
  w_log w' = w_log w ++ new /\ bytes_of (w_in w) = c ++ bytes_of (w_in w') /\ total price new + post <= lenN c + pre.
Lemma spent_trans a b c p q r : spent a b p q -> spent b c q r -> spent a c p r.
Proof.
  intros (n1 & c1 & H1 & H2 & H3) (n2 & c2 & G1 & G2 & G3). exists (n1 ++ n2), (c1 ++ c2).
  rewrite G1, H1, H2, G2, <- !app_assoc. split; [reflexivity|]. split; [reflexivity|]. rewrite total_app, lenN_app. lia.
Qed.
Lemma spent_same w w' p q : w_log w' = w_log w -> w_in w' = w_in w -> q <= p -> spent w w' p q.
Proof. intros H1 H2 H. exists [], []. rewrite H1, H2, app_nil_r. repeat split. cbn [total]. lia. Qed.
Lemma spent_read w w' d p q : w_log w' = w_log w -> bytes_of (w_in w) = d ++ bytes_of (w_in w') -> q <= lenN d + p -> spent w w' p q.
Proof. intros H1 H2 H. exists [], d. rewrite H1, app_nil_r. repeat split; [exact H2|]. cbn [total]. lia. Qed.
Lemma spent_less w w' p q p' q' : spent w w' p q -> p <= p' -> q' <= q -> spent w w' p' q'.
Proof. intros (n & c & H1 & H2 & H3) Hp Hq. exists n, c. repeat split; try assumption. lia. Qed.

Definition left {A} (post : A -> N) (o : outcome A) : N := match o with Ret a => post a | _ => 0 end.
Definition fee {A} (pre : N) (m : M A) (post : A -> N) : Prop := forall w o w', m w = (o, w') -> spent w w' pre (left post o).

Lemma fee_bind {A B} p (m : M A) q (f : A -> M B) r : fee p m q -> (forall a, fee (q a) (f a) r) -> fee p (bind m f) r.
Proof.
  intros Hm Hf w o w' E. unfold bind in E. destruct (m w) as [o1 w1] eqn:E1. apply Hm in E1.
  destruct o1; try (injection E as <- <-; exact E1). apply Hf in E. eapply spent_trans; [exact E1|exact E].
Qed.
Lemma fee_ret {A} p (a : A) q : q a <= p -> fee p (ret a) q.
Proof. intros H w o w' E. injection E as <- <-. now apply spent_same. Qed.
Lemma fee_throw {A} p e q : fee p (@throw A e) q.
Proof. intros w o w' E. injection E as <- <-. apply spent_same; [reflexivity|reflexivity|cbn; lia]. Qed.
Lemma fee_undef {A} p e q : fee p (@undef A e) q.
Proof. intros w o w' E. injection E as <- <-. apply spent_same; [reflexivity|reflexivity|cbn; lia]. Qed.
Lemma fee_fuel {A} p q : fee p (@out_of_fuel A) q.
Proof. intros w o w' E. injection E as <- <-. apply spent_same; [reflexivity|reflexivity|cbn; lia]. Qed.
Lemma fee_get p : fee p get (fun _ => p).
Proof. intros w o w' E. injection E as <- <-. apply spent_same; [reflexivity|reflexivity|cbn; lia]. Qed.
Lemma fee_sock p f : fee p (modify_sock f) (fun _ => p).
Proof. intros w o w' E. injection E as <- <-. apply spent_same; [reflexivity|reflexivity|cbn; lia]. Qed.
Lemma fee_try p m : fee p m (fun _ => 0) -> fee p (try_ m) (fun _ => 0).
Proof.
  intros H w o w' E. unfold try_ in E. destruct (m w) as [o1 w1] eqn:E1. apply H in E1.
  destruct o1; injection E as <- <-; exact E1.
Qed.
Lemma fee_weak {A} p (m : M A) q p' q' : fee p m q -> p <= p' -> (forall a, q' a <= q a) -> fee p' m q'.
Proof. intros H Hp Hq w o w' E. apply H in E. eapply spent_less; [exact E|exact Hp|]. destruct o; cbn; try lia. apply Hq. Qed.

Lemma exec_cmds_log cs w o w' : exec_cmds cs w = (o, w') -> w_log w' = w_log w.
Proof.
  revert w; induction cs as [|c cs IH]; intros w E; cbn [exec_cmds] in E; [injection E as <- <-; reflexivity|].
  unfold bind in E. destruct (exec_cmd c w) as [o1 w1] eqn:E1.
  assert (w_log w1 = w_log w) as H1.
  { destruct c as [|l|m b|catch op| | |fin0 opc0 msg0]; cbn [exec_cmd] in E1;
      try (injection E1 as <- <-; reflexivity).
    all: match type of E1 with (?p = _) => match p with (?mm ?ww) => assert (keeps mm) as K by (first [exact (keeps_send_cmd (CSend catch op) I)|auto with keeps]) end end; apply K in E1.
    all: destruct E1 as [(_ & H & _) _]; exact H. }
  destruct o1; try (injection E as <- <-; exact H1). apply IH in E. congruence.
Qed.

Section Blocking.
Variable react : react_t.

Lemma fee_notify ev p : price ev <= p -> fee p (notify react ev) (fun _ => p - price ev).
Proof.
  intros Hp w o w' E. unfold notify in E. destruct (s_listener (w_sock w)) as [l|].
  - pose proof (exec_cmds_log _ _ _ _ E) as HL. pose proof (exec_cmds_in _ _ _ _ E) as [HI _].
    exists [(l, ev)], []. cbn in HL, HI. rewrite HL, HI. split; [reflexivity|]. split; [reflexivity|].
    cbn [total snd]. destruct o; cbn; lia.
  - injection E as <- <-. apply spent_same; [reflexivity|reflexivity|cbn; lia].
Qed.

Lemma ronly_spent w w' c p q : ronly w w' -> bytes_of (w_in w) = c ++ bytes_of (w_in w') -> q <= lenN c + p -> spent w w' p q.
Proof. intros (_ & _ & _ & _ & HL & _) HB Hq. eapply spent_read; eassumption. Qed.

Lemma fee_exact n p : fee p (readExactSizeDataSimple n) (fun d => p + lenN d).
Proof.
  intros w o w' E. apply readExact_spec in E. destruct E as [HR E]. destruct o; try contradiction.
  - destruct E as (HB & _). eapply ronly_spent; [exact HR|exact HB|]. cbn. lia.
  - destruct E as (_ & HI). eapply ronly_spent with (c := bytes_of (w_in w)); [exact HR|rewrite HI; now rewrite app_nil_r|]. cbn. lia.
Qed.
Lemma fee_header h p : fee p (readFrameHeader h) (fun _ => p + 2).
Proof.
  unfold readFrameHeader. eapply fee_bind; [apply fee_exact|]. intros bb. cbv beta.
  destruct (lenN bb =? 2) eqn:Eb; cbn [negb]; [|apply fee_throw].
  assert (lenN bb = 2) as -> by lia. destruct (unpackHeaderBits (be_dec bb) h) as [h1 l1].
  eapply fee_bind with (q := fun _ => p + 2).
  - destruct (l1 <? 126); [apply fee_ret; lia|]. destruct (l1 =? 126); [|destruct (l1 =? 127); [|apply fee_ret; lia]].
    all: (eapply fee_bind; [apply fee_exact|]); intros d; cbv beta; destruct (negb _); [apply fee_throw|]; apply fee_ret; lia.
  - intros h2. cbv beta. destruct (h_hasMask h2); [|apply fee_ret; lia].
    eapply fee_bind; [apply fee_exact|]. intros d. cbv beta. destruct (negb _); [apply fee_throw|]. apply fee_ret. lia.
Qed.

Definition held (s : option bytes) : N := match s with Some b => lenN b | None => 0 end.
Lemma fee_loop fuel : forall h short alloc progress p,
  fee (p + held short) (readPayload_loop react fuel h short alloc progress) (fun s => p + match short with Some _ => held s | None => 0 end).
Proof.
  induction fuel as [|fuel IH]; intros h short alloc progress p; cbn [readPayload_loop]; [apply fee_fuel|].
  destruct (progress <? h_len h)%Z; [|apply fee_ret; destruct short; cbn; lia].
  eapply fee_bind; [apply fee_get|]. intros w0. cbv zeta beta.
  set (n := (if h_len h - progress <? s_buf (w_sock w0) then h_len h - progress else s_buf (w_sock w0))%Z). clearbody n.
  eapply fee_bind with (q := fun r => p + held short + match r with inl d => N.max 1 (lenN d) | inr _ => 0 end).
  { intros w o w' E. unfold readSimple in E.
    destruct (Z.ltb_spec n 0) as [|Hn]; [injection E as <- <-; apply spent_same; [reflexivity|reflexivity|cbn; lia]|].
    destruct (Z.eqb_spec n 0); [injection E as <- <-; apply spent_same; [reflexivity|reflexivity|cbn; lia]|].
    destruct (read_raw (Z.to_N n) (w_in w) (w_sock w)) as [[r s1] k1] eqn:E1.
    apply read_raw_bytes in E1; [|lia].
    destruct r as [d|e|]; injection E as <- <-.
    - destruct E1 as (HB & H0 & _). eapply spent_read with (d := d); [reflexivity|exact HB|]. cbn [left held]. lia.
    - destruct E1 as (HB & _). eapply spent_read with (d := []); [reflexivity|exact HB|]. cbn [left]. lia.
    - destruct E1 as (HB & ->). eapply spent_read with (d := []); [reflexivity|exact HB|]. cbn [left]. lia. }
  intros [d|[]]; cbv beta; [|eapply fee_weak; [apply (IH h short alloc progress p)|lia|intros; apply N.le_refl]|apply fee_throw..].
  destruct (alloc <? Z.of_N (lenN d))%Z; [apply fee_undef|].
  set (d' := if h_hasMask h then _ else _).
  assert (lenN d' = lenN d) as Hd by (subst d'; destruct (h_hasMask h); [apply lenN_xor_from|reflexivity]). clearbody d'.
  destruct short as [s|]; cbn [held].
  - eapply fee_weak; [apply (IH h (Some (s ++ d')) alloc _ p)|cbn [held]; rewrite lenN_app; lia|intros; cbv beta; lia].
  - eapply fee_bind; [apply fee_notify; cbn [price]; lia|]. intros tt0. cbv beta.
    eapply fee_weak; [apply (IH h None alloc _ p)|cbn [held price]; lia|intros; cbv beta; lia].
Qed.
Lemma fee_short h p : fee p (readPayload react h (Some [])) (fun s => p + held s).
Proof.
  unfold readPayload. destruct (_ && _)%bool; [apply fee_throw|].
  eapply fee_bind; [apply fee_get|]. intros w0. cbv zeta beta. destruct (_ <? 0)%Z; [apply fee_throw|].
  eapply fee_bind; [eapply fee_weak; [apply (fee_loop _ h (Some []) _ _ p)|apply N.eq_le_incl; change (held (Some [])) with 0; lia|intros; apply N.le_refl]|].
  intros s. cbv beta. eapply fee_bind; [apply (fee_ret _ tt (fun _ => p + held s)); lia|]. intros ?; cbv beta. apply fee_ret. lia.
Qed.
Lemma fee_long h : fee 2 (readPayload react h None) (fun _ => 0).
Proof.
  unfold readPayload. destruct (_ && _)%bool; [apply fee_throw|].
  eapply fee_bind; [apply fee_get|]. intros w0. cbv zeta beta. destruct (_ <? 0)%Z; [apply fee_throw|].
  eapply fee_bind; [eapply fee_weak; [apply (fee_loop _ h None _ _ 2)|cbn [held]; lia|intros; apply N.le_refl]|].
  intros s. cbv beta. eapply fee_bind with (q := fun _ => 0); [|intros ?; cbv beta; apply fee_ret; lia].
  destruct (h_fin h); [|apply fee_ret; lia]. eapply fee_weak; [apply (fee_notify (EvEnd (h_opcode h)) 2); cbn; lia|lia|intros; cbv beta; lia].
Qed.
Lemma close_reason_len b : lenN (close_reason b) <= lenN b.
Proof. unfold close_reason. destruct (2 <=? lenN b); [rewrite lenN_dropN; lia|change (lenN []) with 0; lia]. Qed.
Lemma str_held s : lenN (str s) = held s.
Proof. destruct s; reflexivity. Qed.
Lemma fee_handle h : fee 2 (handleFrame react h) (fun _ => 0).
Proof.
  assert (fee 2 (readPayload react h None;;; ret tt) (fun _ => 0)) as HL.
  { eapply fee_bind; [apply fee_long|]. intros ?; cbv beta. apply fee_ret. lia. }
  assert (forall ev, (forall p, price (ev p) <= 2 + held p) -> fee 2 (p <- readPayload react h (Some []);; notify react (ev p)) (fun _ => 0)) as HS.
  { intros ev Hev. eapply fee_bind; [apply fee_short|]. intros s. cbv beta.
    eapply fee_weak; [apply (fee_notify _ (2 + held s)); apply Hev|lia|intros; cbv beta; lia]. }
  unfold handleFrame. destruct (h_opcode h) as [|[[[[q|q|]|[q|q|]|]|[[q|q|]|[q|q|]|]|]|[[[q|q|]|[q|q|]|]|[[q|q|]|[q|q|]|]|]|]]; try apply fee_throw.
  - eapply fee_bind; [apply fee_get|]. intros w0. cbv beta. destruct (_ <? 0)%Z; [apply fee_throw|exact HL].
  - apply (HS (fun p => EvPing (str p))). intros p. cbn [price carried]. rewrite str_held. lia.
  - apply (HS (fun p => EvPong (str p))). intros p. cbn [price carried]. rewrite str_held. lia.
  - apply (HS (fun p => EvClose (close_code (str p)) (close_reason (str p)))). intros p. cbn [price carried].
    pose proof (close_reason_len (str p)) as H. rewrite str_held in H. lia.
  - eapply fee_bind with (q := fun _ => 2); [|intros []; [exact HL|apply fee_throw]].
    unfold checkForContinuation. eapply fee_bind; [apply fee_get|]. intros w0. cbv beta zeta. destruct (_ || _)%bool; [apply fee_ret; lia|].
    eapply fee_bind; [apply fee_sock|]. intros ?; cbv beta. apply fee_ret. lia.
  - eapply fee_bind with (q := fun _ => 2); [|intros []; [exact HL|apply fee_throw]].
    unfold checkForContinuation. eapply fee_bind; [apply fee_get|]. intros w0. cbv beta zeta. destruct (_ || _)%bool; [apply fee_ret; lia|].
    eapply fee_bind; [apply fee_sock|]. intros ?; cbv beta. apply fee_ret. lia.
Qed.
Lemma fee_iterate h : fee 0 (iterateFrame react h) (fun _ => 0).
Proof.
  unfold iterateFrame. eapply fee_bind; [apply fee_header|]. intros h'. cbv beta.
  eapply fee_bind; [apply fee_handle|]. intros ?; cbv beta. apply fee_ret. lia.
Qed.
Lemma fee_listen_loop fuel : forall h, fee 0 (listen_loop react fuel h) (fun _ => 0).
Proof.
  induction fuel as [|fuel IH]; intros h; cbn [listen_loop]; [apply fee_fuel|].
  eapply fee_bind; [apply fee_header|]. intros h'. cbv beta. eapply fee_bind; [apply fee_handle|]. intros ?; cbv beta.
  eapply fee_bind; [apply fee_get|]. intros w0. cbv beta. destruct (_ && _)%bool; [apply IH|apply fee_ret; lia].
Qed.
Lemma fee_listen : fee 0 (listen react) (fun _ => 0).
Proof.
  unfold listen. eapply fee_bind; [apply fee_sock|]. intros ?; cbv beta. eapply fee_bind; [apply fee_get|]. intros w0. cbv beta.
  apply fee_try, fee_listen_loop.
Qed.
Lemma fee_send op : fee 0 (send op) (fun _ => 0).
Proof.
  intros w o w' E. assert (keeps (send op)) as K by auto with keeps. apply K in E. destruct E as [(H1 & H2 & _) _].
  apply spent_same; [exact H2|exact H1|]. destruct o; cbn; lia.
Qed.
Lemma fee_calls cs : fee 0 (run_calls react cs) (fun _ => 0).
Proof.
  induction cs as [|c cs IH]; cbn [run_calls]; [apply fee_ret; lia|]. eapply fee_bind; [|intros ?; cbv beta; exact IH].
  unfold run_call. apply fee_try. destruct c.
  - apply fee_send.
  - apply fee_listen.
  - eapply fee_bind; [apply fee_iterate|]. intros ?; cbv beta. apply fee_ret. lia.
  - apply fee_sock.
  - apply fee_sock.
Qed.
End Blocking.

(** Whatever an application does with a blocking socket (any sequence of calls of its API), whatever its listeners do
    inside callbacks, whatever other threads, the connection and the peer do: the listener calls made and the data handed
    out are paid for by the bytes taken from the connection. *)
Theorem C66_blocking : forall react calls w o w', run_calls react calls w = (o, w') ->
  exists new consumed, w_log w' = w_log w ++ new /\ bytes_of (w_in w) = consumed ++ bytes_of (w_in w') /\ paid_by new consumed.
Proof.
  intros react calls w o w' E. apply fee_calls in E. destruct E as (new & c & H1 & H2 & H3). exists new, c.
  split; [exact H1|]. split; [exact H2|]. apply paid. lia.
Qed.
Print Assumptions C66_blocking.

Example C66_blocking_nonvacuous :
  let w := World [RData x89 [x01]; RData x61 [x81; x02; x62]; RIo IoRetry; RData x63 [x88; x00; x89]] [] [] (fun _ => x00) 0 []
             (Sock false 1024 (Some 7%nat) (-1) false) in
  match run_calls (fun _ _ => [CSend false (SoPong None)]) [KListen; KIterate] w with
  | (o, w') => w_log w' = [(7%nat, EvPing [x61]); (7%nat, EvMsg 1 [x62]); (7%nat, EvMsg 1 [x63]); (7%nat, EvEnd 1); (7%nat, EvClose 0 [])] /\
               total price (w_log w') = 9 /\ total carried (w_log w') = 3 /\ o = Wait
  end.
Proof. vm_compute. repeat split. Qed.

(** ** The asynchronous socket *)
Lemma bytes_app a b : bytes_of (a ++ b) = bytes_of a ++ bytes_of b.
Proof. induction a as [|[x xs|e|x] a IH]; cbn [app bytes_of]; rewrite ?IH, ?app_assoc; reflexivity. Qed.
Lemma spent_arrive s w w' p q : spent w w' p q -> spent (arr s w) (arr s w') p q.
Proof.
  intros (new & c & H1 & H2 & H3). exists new, c. unfold arr. cbn [w_log set_in w_in]. split; [exact H1|].
  rewrite !bytes_app, H2, app_assoc. split; [reflexivity|exact H3].
Qed.

Fixpoint credit (short : bytes) (st : list cor) : N :=
  match st with
  | [] => 0
  | co :: K =>
    match co with
    | CoListen => 0
    | CoReadFrame (RfAct got) => lenN got
    | CoReadFrame _ => 2
    | CoHandle _ HfAct => 2
    | CoHandle _ HfFinish => 0
    | CoHandle _ _ => 2 + lenN short
    | CoPayload _ us _ _ p =>
      match p with
      | RpFinish => 0
      | RpOnData d => 2 + (if us then lenN short else 0) + lenN d
      | _ => 2 + (if us then lenN short else 0)
      end
    | _ => credit short K
    end
  end.
Inductive frame_part : list cor -> Prop :=
| fp_nil : frame_part []
| fp_l : frame_part [CoListen]
| fp_r p L : frame_part [CoReadFrame p; CoHandle L HfAct; CoListen]
| fp_h L p : frame_part [CoHandle L p; CoListen]
| fp_p D us al pr pp L p : (us = true /\ pp <> RpFinish /\ p <> HfAct \/ p = HfFinish) -> frame_part [CoPayload D us al pr pp; CoHandle L p; CoListen].
Inductive shape3 : list cor -> Prop := sh3 us K : Forall userish us -> frame_part K -> shape3 (us ++ K).

Lemma frame_part_unwind K : frame_part K -> unwind K = None.
Proof. destruct 1; reflexivity. Qed.
Lemma credit_users s us K : Forall userish us -> credit s (us ++ K) = credit s K.
Proof. induction 1 as [|co us Hc _ IH]; [reflexivity|]. destruct co; cbn in Hc; try tauto; exact IH. Qed.

Definition good_step (c : conf) (c' : conf) : Prop :=
  shape3 (c_stack c') /\ spent (c_world c) (c_world c') (credit (c_short c) (c_stack c)) (credit (c_short c') (c_stack c')).

Lemma fail_good e h s us K w w0 p : Forall userish us -> frame_part K -> spent w0 w p (credit s K) ->
  let c' := snd (fail e (Conf h s (us ++ K) w)) in shape3 (c_stack c') /\ spent w0 (c_world c') p (credit (c_short c') (c_stack c')).
Proof.
  intros Hu HK HS. cbv zeta. unfold fail. cbn [c_stack c_hdr c_short c_world].
  destruct (unwind (us ++ K)) as [st|] eqn:Eu; cbn [snd c_world c_stack c_short].
  - assert (exists us', Forall userish us' /\ st = us' ++ K) as (us' & H1 & ->).
    { clear HS. revert st Eu. induction Hu as [|co us Hc Hu IH]; intros st Eu; cbn [app] in Eu; [rewrite (frame_part_unwind K HK) in Eu; discriminate|].
      destruct co; cbn in Hc; try tauto; cbn [unwind] in Eu; try (now apply IH). injection Eu as <-. eauto. }
    split; [now constructor|]. rewrite credit_users by exact H1. exact HS.
  - split; [apply (sh3 [] []); constructor|]. eapply spent_less; [exact HS|lia|cbn; lia].
Qed.
Lemma fail_gone e h s K w w0 p : frame_part K -> spent w0 w p 0 ->
  let c' := snd (fail e (Conf h s K w)) in shape3 (c_stack c') /\ spent w0 (c_world c') p (credit (c_short c') (c_stack c')).
Proof.
  intros HK HS. cbv zeta. unfold fail. cbn [c_stack c_hdr c_short c_world]. rewrite (frame_part_unwind K HK). cbn [snd c_world c_stack c_short].
  split; [apply (sh3 [] []); constructor|exact HS].
Qed.

Lemma writeA_in d w r w' : writeExactAsyncInline d w = (r, w') -> w_in w' = w_in w.
Proof.
  unfold writeExactAsyncInline. destruct d; [intros E; injection E as <- <-; reflexivity|].
  destruct (w_wr w) as [|[n|[]|] q]; intros E; injection E as <- <-; reflexivity.
Qed.

Ltac top3 us := first
 [ match goal with |- shape3 (c_stack (Conf _ _ (?a :: ?b :: ?c :: us ++ _) _)) => apply (sh3 (a :: b :: c :: us)); [repeat (constructor; [exact I|]); assumption|assumption] end
 | match goal with |- shape3 (c_stack (Conf _ _ (?a :: ?b :: us ++ _) _)) => apply (sh3 (a :: b :: us)); [repeat (constructor; [exact I|]); assumption|assumption] end
 | match goal with |- shape3 (c_stack (Conf _ _ (?a :: us ++ _) _)) => apply (sh3 (a :: us)); [repeat (constructor; [exact I|]); assumption|assumption] end
 | match goal with |- shape3 (c_stack (Conf _ _ (us ++ _) _)) => apply sh3; assumption end
 | match goal with |- shape3 (c_stack (Conf _ _ [] _)) => apply (sh3 [] []); constructor end ].

Section Async.
Variable react : react_t.

Lemma user_good co us K h s w : userish co -> Forall userish us -> frame_part K ->
  good_step (Conf h s (co :: us ++ K) w) (snd (step react (Conf h s (co :: us ++ K) w))).
Proof.
  intros Hc Hu HK. unfold good_step.
  cbn [c_world c_short c_stack].
  assert (credit s (co :: us ++ K) = credit s K) as -> by (apply (credit_users s (co :: us) K); now constructor).
  assert (forall w', w_log w' = w_log w -> w_in w' = w_in w -> spent w w' (credit s K) (credit s K)) as Hk by (intros; apply spent_same; [assumption..|lia]).
  assert (forall w', spent w w' (credit s K) (credit s K) -> spent w w' (credit s K) 0) as Hz by (intros; eapply spent_less; [eassumption|lia|lia]).
  unfold AsyncWebSocket.step.
  destruct co as [|p|l p|l ush al pr p|fin op m hh p|hh p|cs frd|]; cbn in Hc; try tauto.
  - unfold step_send. cbv zeta.
    assert (forall n h' co w1, sendFrameHeaderAsync hh fin op n w = (h', co, w1) -> (exists p, co = CoWrite h' p) /\ w_log w1 = w_log w /\ w_in w1 = w_in w) as Hs.
    { intros n h' co w1. unfold sendFrameHeaderAsync. cbv zeta. cbn [h_hasMask]. destruct (s_mask (w_sock w)); intros Eq; injection Eq as <- <- <-; eauto. }
    destruct p as [| |left|].
    + destruct m as [[|b bs]|]; destruct (sendFrameHeaderAsync hh fin op _ w) as [[h' co] w1] eqn:Es; apply Hs in Es; destruct Es as ([pp ->] & H1 & H2);
        cbn [snd]; (split; [top3 us|]); cbn [c_world c_short c_stack credit]; rewrite ?credit_users by assumption; now apply Hk.
    + destruct (h_hasMask hh); [destruct (_ <=? _)|]; cbn [snd]; (split; [top3 us|]); cbn [c_world c_short c_stack credit];
        rewrite ?credit_users by assumption; try apply Hz; now apply Hk.
    + destruct (writeExactAsyncInline left w) as [r w1] eqn:Ew. pose proof (writeA_log _ _ _ _ Ew) as H1. apply writeA_in in Ew.
      destruct r; try (cbn [snd]; (split; [top3 us|]); cbn [c_world c_short c_stack credit]; rewrite ?credit_users by assumption; now apply Hk).
      apply fail_good; try assumption. now apply Hk.
    + cbn [snd]. split; [top3 us|]. cbn [c_world c_short c_stack]. rewrite ?credit_users by assumption; now apply Hk.
  - unfold step_writeFrame. cbv zeta.
    destruct p as [left| |left| |left].
    1,3,5: destruct (writeExactAsyncInline left w) as [r w1] eqn:Ew; pose proof (writeA_log _ _ _ _ Ew) as H1; apply writeA_in in Ew;
      destruct r; try (cbn [snd]; (split; [top3 us|]); cbn [c_world c_short c_stack credit]; rewrite ?credit_users by assumption; now apply Hk);
      apply fail_good; try assumption; now apply Hk.
    + destruct (_ =? 2); [|destruct (_ =? 3)]; cbn [snd]; (split; [top3 us|]); cbn [c_world c_short c_stack credit]; rewrite ?credit_users by assumption; now apply Hk.
    + destruct (h_hasMask hh); cbn [snd]; (split; [top3 us|]); cbn [c_world c_short c_stack credit]; rewrite ?credit_users by assumption; now apply Hk.
  - unfold step_user. destruct cs as [|cm cs]; [cbn [snd]; (split; [top3 us|]); cbn [c_world c_short c_stack credit]; rewrite ?credit_users by assumption; now apply Hk|]. cbv zeta.
    destruct cm as [|l|mk b|catch o| | |fin0 opc0 msg0];
      try (cbn [snd]; (split; [top3 us|]); cbn [c_world c_short c_stack credit start_send send_args]; rewrite ?credit_users by assumption; now apply Hk).
    + assert (userish (start_send o)) as Hss by (unfold start_send; destruct (send_args o) as [[? ?] ?]; exact I).
      cbn [snd c_stack c_world c_short]. destruct catch; cbn [app].
      * change (start_send o :: CoCatch :: CoUser cs frd :: us ++ K) with ((start_send o :: CoCatch :: CoUser cs frd :: us) ++ K).
        assert (Forall userish (start_send o :: CoCatch :: CoUser cs frd :: us)) by (repeat (constructor; [first [exact I|exact Hss]|]); assumption).
        split; [now apply sh3|]. rewrite credit_users by assumption. now apply Hk.
      * change (start_send o :: CoUser cs frd :: us ++ K) with ((start_send o :: CoUser cs frd :: us) ++ K).
        assert (Forall userish (start_send o :: CoUser cs frd :: us)) by (repeat (constructor; [first [exact I|exact Hss]|]); assumption).
        split; [now apply sh3|]. rewrite credit_users by assumption. now apply Hk.
    + destruct frd; cbn [snd]; (split; [top3 us|]); cbn [c_world c_short c_stack credit]; rewrite ?credit_users by assumption; try apply Hz; now apply Hk.
    + apply fail_good; try assumption. now apply Hk.
  - cbn [snd]. split; [top3 us|]. cbn [c_world c_short c_stack]. rewrite ?credit_users by assumption; now apply Hk.
Qed.

Lemma readExactA_spent n got w r w' : readExactAsyncInline n got w = (r, w') ->
  match r with
  | INext d => w' = w /\ d = got /\ n <= lenN got
  | IAgain d => spent w w' (lenN got) (lenN d) /\ spent w w' 0 0
  | _ => spent w w' 0 0
  end.
Proof.
  unfold readExactAsyncInline. destruct (N.leb_spec n (lenN got)); [intros E; injection E as <- <-; auto|].
  destruct (read_raw _ _ _) as [[rr s1] k1] eqn:E1. apply read_raw_bytes in E1; [|lia].
  destruct rr as [d|[]|]; intros E; injection E as <- <-.
  - destruct E1 as (HB & _). split; (eapply spent_read with (d := d); [reflexivity|exact HB|]; rewrite ?lenN_app; lia).
  - destruct E1 as (HB & _). split; (eapply spent_read with (d := []); [reflexivity|exact HB|]; change (lenN (@nil byte)) with 0; lia).
  - destruct E1 as (HB & _). eapply spent_read with (d := []); [reflexivity|exact HB|]. change (lenN (@nil byte)) with 0. lia.
  - destruct E1 as (HB & _). eapply spent_read with (d := []); [reflexivity|exact HB|]. change (lenN (@nil byte)) with 0. lia.
  - destruct E1 as (HB & ->). eapply spent_read with (d := []); [reflexivity|exact HB|]. change (lenN (@nil byte)) with 0. lia.
Qed.
Lemma readSomeA_spent n w r w' : readSomeAsyncInline n w = (r, w') ->
  match r with INext d => spent w w' 0 (lenN d) | _ => spent w w' 0 0 end.
Proof.
  unfold readSomeAsyncInline. destruct (Z.leb_spec n 0); [intros E; injection E as <- <-; apply spent_same; try reflexivity|].
  destruct (read_raw _ _ _) as [[rr s1] k1] eqn:E1. apply read_raw_bytes in E1; [|lia].
  destruct rr as [d|[]|]; intros E; injection E as <- <-.
  - destruct E1 as (HB & _). eapply spent_read with (d := d); [reflexivity|exact HB|]. lia.
  - destruct E1 as (HB & _). eapply spent_read with (d := []); [reflexivity|exact HB|]. change (lenN (@nil byte)) with 0. lia.
  - destruct E1 as (HB & _). eapply spent_read with (d := []); [reflexivity|exact HB|]. change (lenN (@nil byte)) with 0. lia.
  - destruct E1 as (HB & _). eapply spent_read with (d := []); [reflexivity|exact HB|]. change (lenN (@nil byte)) with 0. lia.
  - destruct E1 as (HB & ->). eapply spent_read with (d := []); [reflexivity|exact HB|]. change (lenN (@nil byte)) with 0. lia.
Qed.
Lemma spent_plus w w' p q k : spent w w' p q -> spent w w' (k + p) (k + q).
Proof. intros (new & c & H1 & H2 & H3). exists new, c. repeat split; try assumption. lia. Qed.
Lemma spent_call l ev f w co w' p q : call_listener react l ev f w = (co, w') -> price ev + q <= p -> spent w w' p q.
Proof.
  unfold call_listener. cbv zeta. intros E H. injection E as <- <-. exists [(l, ev)], []. split; [reflexivity|]. split; [reflexivity|].
  cbn [total snd]. change (lenN (@nil byte)) with 0. lia.
Qed.

Lemma frame_good K h s w : frame_part K -> good_step (Conf h s K w) (snd (step react (Conf h s K w))).
Proof.
  intros HK. unfold good_step. destruct HK as [| |p L|L p|D us al pr pp L p Hp]; cbn [c_world c_short c_stack].
  - cbn [AsyncWebSocket.step snd c_stack c_world c_short]. split; [apply (sh3 [] []); constructor|]. apply spent_same; [reflexivity..|lia].
  - unfold AsyncWebSocket.step. destruct (h_opcode h =? OPCODE_CLOSE); cbn [snd c_stack c_world c_short].
    + split; [apply (sh3 [] []); constructor|]. apply spent_same; [reflexivity..|cbn; lia].
    + split; [apply (sh3 []); constructor|]. apply spent_same; [reflexivity..|cbn [credit]; change (lenN (@nil byte)) with 0; lia].
  - unfold AsyncWebSocket.step, step_readFrame. cbv zeta.
    assert (forall hh e w', spent w w' (credit s [CoReadFrame p; CoHandle L HfAct; CoListen]) 0 ->
      let c' := snd (fail e (Conf hh s [CoHandle L HfAct; CoListen] w')) in
      shape3 (c_stack c') /\ spent w (c_world c') (credit s [CoReadFrame p; CoHandle L HfAct; CoListen]) (credit (c_short c') (c_stack c'))) as Hf.
    { intros hh e w' HS. apply fail_gone; [constructor|exact HS]. }
    assert (forall hh p' w', spent w w' (credit s [CoReadFrame p; CoHandle L HfAct; CoListen]) (credit s [CoReadFrame p'; CoHandle L HfAct; CoListen]) ->
      let c' := Conf hh s [CoReadFrame p'; CoHandle L HfAct; CoListen] w' in
      shape3 (c_stack c') /\ spent w (c_world c') (credit s [CoReadFrame p; CoHandle L HfAct; CoListen]) (credit (c_short c') (c_stack c'))) as Hr.
    { intros hh p' w' HS. split; [apply (sh3 []); constructor|exact HS]. }
    assert (forall hh w', spent w w' (credit s [CoReadFrame p; CoHandle L HfAct; CoListen]) 2 ->
      let c' := Conf hh s [CoHandle L HfAct; CoListen] w' in
      shape3 (c_stack c') /\ spent w (c_world c') (credit s [CoReadFrame p; CoHandle L HfAct; CoListen]) (credit (c_short c') (c_stack c'))) as Hd.
    { intros hh w' HS. split; [apply (sh3 []); constructor|exact HS]. }
    cbn [credit] in *.
    destruct p as [got|bb|ty got|ty d|got].
    + destruct (readExactAsyncInline 2 got w) as [r w1] eqn:E1. apply readExactA_spent in E1.
      destruct r; cbn [snd]; [apply Hr; cbn [credit]; destruct E1 as (-> & -> & H); apply spent_same; [reflexivity..|lia]|apply Hr; apply E1| |].
      * apply Hr. eapply spent_less; [apply (spent_plus _ _ _ _ (lenN got) E1)|lia|cbn [credit]; lia].
      * apply Hf. eapply spent_less; [exact E1|lia|lia].
    + destruct (unpackHeaderBits (be_dec bb) h) as [hh l1].
      destruct (l1 <? 126); [|destruct (l1 =? 126); [|destruct (l1 =? 127)]]; cbn [snd];
        first [apply Hr; apply spent_same; [reflexivity..|cbn [credit]; lia]|apply Hf; apply spent_same; [reflexivity..|lia]].
    + destruct (readExactAsyncInline (if ty =? 2 then 2 else 8) got w) as [r w1] eqn:E1. apply readExactA_spent in E1.
      destruct r; cbn [snd]; [apply Hr; cbn [credit]; destruct E1 as (-> & -> & H); apply spent_same; [reflexivity..|lia]| | |].
      * apply Hr. eapply spent_less; [apply (spent_plus _ _ _ _ 2 (proj2 E1))|lia|cbn [credit]; lia].
      * apply Hr. eapply spent_less; [apply (spent_plus _ _ _ _ 2 E1)|lia|cbn [credit]; lia].
      * apply Hf. eapply spent_less; [exact E1|lia|lia].
    + match goal with |- context [h_hasMask ?hh] => destruct (h_hasMask hh) end; cbn [snd];
        [apply Hr|apply Hd]; apply spent_same; try reflexivity.
    + destruct (readExactAsyncInline 4 got w) as [r w1] eqn:E1. apply readExactA_spent in E1.
      destruct r; cbn [snd]; [apply Hd; destruct E1 as (-> & -> & H); apply spent_same; [reflexivity..|lia]| | |].
      * apply Hr. eapply spent_less; [apply (spent_plus _ _ _ _ 2 (proj2 E1))|lia|cbn [credit]; lia].
      * apply Hr. eapply spent_less; [apply (spent_plus _ _ _ _ 2 E1)|lia|cbn [credit]; lia].
      * apply Hf. eapply spent_less; [exact E1|lia|lia].
  - unfold AsyncWebSocket.step, step_handle. cbv zeta.
    destruct p.
    + assert (forall us nx sh w0 c0, w_log w0 = w_log w -> w_in w0 = w_in w -> (us = true /\ nx <> HfAct /\ sh = [] \/ us = false /\ nx = HfFinish) ->
        match readPayloadAsync h us w0 with inl e => fail e (Conf h sh [CoListen] w0) | inr co => (ARun, Conf h sh (co :: CoHandle L nx :: [CoListen]) w0) end = c0 ->
        shape3 (c_stack (snd c0)) /\ spent w (c_world (snd c0)) 2 (credit (c_short (snd c0)) (c_stack (snd c0)))) as Hp.
      { intros us nx sh w0 c0 HL HI Hx <-. unfold readPayloadAsync.
        destruct (us && _)%bool; [apply fail_gone; [constructor|apply spent_same; [assumption..|lia]]|].
        destruct (_ <? 0)%Z; [apply fail_gone; [constructor|apply spent_same; [assumption..|lia]]|].
        cbn [snd c_stack c_world c_short]. split.
        - apply (sh3 []); constructor. destruct Hx as [(-> & Hx & _)|(-> & ->)]; [left|right]; repeat split; try assumption; discriminate.
        - apply spent_same; [assumption..|]. cbn [credit]. destruct Hx as [(-> & _ & ->)|(-> & _)]; [change (lenN (@nil byte)) with 0|]; lia. }
      assert (forall c0, (let (ok, w') := checkForContinuationA h w in
          if (ok : bool) then match readPayloadAsync h false w' with inl e => fail e (Conf h s [CoListen] w') | inr co => (ARun, Conf h s (co :: CoHandle L HfFinish :: [CoListen]) w') end
          else fail ExContinuationExpected (Conf h s [CoListen] w')) = c0 ->
          shape3 (c_stack (snd c0)) /\ spent w (c_world (snd c0)) 2 (credit (c_short (snd c0)) (c_stack (snd c0)))) as Hc.
      { unfold checkForContinuationA. cbv zeta. intros c0. destruct (_ || _)%bool.
        - intros <-. apply fail_gone; [constructor|apply spent_same; [reflexivity..|lia]].
        - intros E. eapply Hp; [| | |exact E]; [reflexivity|reflexivity|now right]. }
      assert (forall e c0, fail e (Conf h s [CoListen] w) = c0 ->
          shape3 (c_stack (snd c0)) /\ spent w (c_world (snd c0)) 2 (credit (c_short (snd c0)) (c_stack (snd c0)))) as Hf.
      { intros e c0 <-. apply fail_gone; [constructor|apply spent_same; [reflexivity..|lia]]. }
      change (credit s [CoHandle L HfAct; CoListen]) with 2.
      destruct (h_opcode h) as [|[[[[q|q|]|[q|q|]|]|[[q|q|]|[q|q|]|]|]|[[[q|q|]|[q|q|]|]|[[q|q|]|[q|q|]|]|]|]];
        first [eapply Hf; reflexivity|eapply Hc; reflexivity|eapply (Hp true); [| | |reflexivity]; [reflexivity|reflexivity|left; split; [reflexivity|split; [discriminate|reflexivity]]]|idtac].
      destruct (_ <? 0)%Z; [eapply Hf; reflexivity|eapply (Hp false); [| | |reflexivity]; [reflexivity|reflexivity|right; split; reflexivity]].
    + destruct L as [l|]; cbn [snd].
      * match goal with |- context [call_listener react l ?ev false w] => destruct (call_listener react l ev false w) as [co w1] eqn:E1 end.
        pose proof E1 as E2. unfold call_listener in E2. cbv zeta in E2. injection E2 as <- _. cbn [snd c_stack c_world c_short].
        split; [apply (sh3 [CoUser _ false]); [repeat constructor|constructor]|]. cbn [credit]. eapply spent_call; [exact E1|].
        cbn [price carried]. pose proof (close_reason_len s). lia.
      * split; [apply (sh3 []); constructor|]. apply spent_same; [reflexivity..|cbn [c_stack c_short credit]; lia].
    + destruct L as [l|]; cbn [snd].
      * match goal with |- context [call_listener react l ?ev false w] => destruct (call_listener react l ev false w) as [co w1] eqn:E1 end.
        pose proof E1 as E2. unfold call_listener in E2. cbv zeta in E2. injection E2 as <- _. cbn [snd c_stack c_world c_short].
        split; [apply (sh3 [CoUser _ false]); [repeat constructor|constructor]|]. cbn [credit]. eapply spent_call; [exact E1|].
        cbn [price carried]. lia.
      * split; [apply (sh3 []); constructor|]. apply spent_same; [reflexivity..|cbn [c_stack c_short credit]; lia].
    + destruct L as [l|]; cbn [snd].
      * match goal with |- context [call_listener react l ?ev false w] => destruct (call_listener react l ev false w) as [co w1] eqn:E1 end.
        pose proof E1 as E2. unfold call_listener in E2. cbv zeta in E2. injection E2 as <- _. cbn [snd c_stack c_world c_short].
        split; [apply (sh3 [CoUser _ false]); [repeat constructor|constructor]|]. cbn [credit]. eapply spent_call; [exact E1|].
        cbn [price carried]. lia.
      * split; [apply (sh3 []); constructor|]. apply spent_same; [reflexivity..|cbn [c_stack c_short credit]; lia].
    + cbn [snd]. split; [apply (sh3 []); constructor|]. apply spent_same; [reflexivity..|cbn [c_stack c_short credit]; lia].
  - unfold AsyncWebSocket.step, step_payload. cbv zeta.
    set (hk := if us then lenN s else 0).
    destruct pp as [|n|got|].
    + destruct (pr <? h_len h)%Z; cbn [snd].
      { split; [apply (sh3 []); constructor; intuition discriminate|]. apply spent_same; [reflexivity..|cbn [c_stack c_short credit]; lia]. }
      destruct (negb us && h_fin h)%bool eqn:Eu; [|cbn [snd]; split; [apply (sh3 []); constructor|]; apply spent_same; [reflexivity..|cbn [c_stack c_short credit]]].
      2: { destruct Hp as [(-> & _ & Hp)| -> ]; [|lia]. destruct p; try lia; congruence. }
      assert (p = HfFinish) as -> by (destruct Hp as [(-> & _)|]; [discriminate|assumption]).
      destruct D as [l|]; cbn [snd].
      * match goal with |- context [call_listener react l ?ev false w] => destruct (call_listener react l ev false w) as [co w1] eqn:E1 end.
        pose proof E1 as E2. unfold call_listener in E2. cbv zeta in E2. injection E2 as <- _. cbn [snd c_stack c_world c_short].
        split; [apply (sh3 [CoUser _ false]); [repeat constructor|constructor; now right]|]. cbn [credit]. eapply spent_call; [exact E1|].
        cbn [price carried]. lia.
      * split; [apply (sh3 []); constructor|]. apply spent_same; [reflexivity..|cbn [c_stack c_short credit]; lia].
    + destruct (readSomeAsyncInline n w) as [r w1] eqn:E1. apply readSomeA_spent in E1. cbn [credit]. fold hk.
      destruct r; [destruct (al <? Z.of_N (lenN d))%Z| | |]; cbn [snd].
      * split; [apply (sh3 [] []); constructor|]. eapply spent_less; [exact E1|lia|cbn [c_stack c_short credit]; lia].
      * split; [apply (sh3 []); constructor; intuition discriminate|]. cbn [c_world c_stack c_short credit]. fold hk.
        eapply spent_less; [apply (spent_plus _ _ _ _ (2 + hk) E1)|lia|lia].
      * split; [apply (sh3 []); constructor; intuition discriminate|]. cbn [c_world c_stack c_short credit]. fold hk.
        eapply spent_less; [apply (spent_plus _ _ _ _ (2 + hk) E1)|lia|lia].
      * split; [apply (sh3 []); constructor; intuition discriminate|]. cbn [c_world c_stack c_short credit]. fold hk.
        eapply spent_less; [apply (spent_plus _ _ _ _ (2 + hk) E1)|lia|lia].
      * apply fail_gone; [constructor|]. eapply spent_less; [exact E1|lia|lia].
    + cbn [credit]. fold hk. destruct got as [|b bs]; [apply fail_gone; [constructor|apply spent_same; [reflexivity..|lia]]|].
      set (d' := if h_hasMask h then _ else _).
      assert (lenN d' = lenN (b :: bs)) as Hd by (subst d'; destruct (h_hasMask h); [apply lenN_xor_from|reflexivity]).
      assert (1 <= lenN (b :: bs)) as Hd1 by (rewrite lenN_cons; lia). clearbody d'.
      destruct us; cbn [snd].
      * split; [apply (sh3 []); constructor; intuition discriminate|]. cbn [c_world c_stack c_short credit].
        apply spent_same; [reflexivity..|]. rewrite lenN_app. subst hk. lia.
      * assert (p = HfFinish) as -> by (destruct Hp as [(Hp & _)|]; [discriminate|assumption]).
        destruct D as [l|].
        -- match goal with |- context [call_listener react l ?ev ?f w] => destruct (call_listener react l ev f w) as [co w1] eqn:E1 end.
           pose proof E1 as E2. unfold call_listener in E2. cbv zeta in E2. injection E2 as <- _. cbn [snd c_stack c_world c_short].
           split; [apply (sh3 [CoUser _ _]); [repeat constructor|constructor; now right]|]. cbn [credit]. eapply spent_call; [exact E1|].
           cbn [price carried]. lia.
        -- cbn [snd]. split; [apply (sh3 []); constructor; now right|]. apply spent_same; [reflexivity..|cbn [c_stack c_short credit]; lia].
    + assert (p = HfFinish) as -> by (destruct Hp as [(_ & Hp & _)|]; [congruence|assumption]).
      cbn [snd]. split; [apply (sh3 []); constructor|]. apply spent_same; [reflexivity..|cbn [c_stack c_short credit]; lia].
Qed.

Lemma step_good c : shape3 (c_stack c) -> good_step c (snd (step react c)).
Proof.
  destruct c as [h s st w]. cbn [c_stack]. intros HS. destruct HS as [us K Hu HK]. destruct us as [|co us]; cbn [app].
  - now apply frame_good.
  - inversion Hu; subst. now apply user_good.
Qed.

Lemma run_good evs : forall st c w0 st' c', shape3 (c_stack c) -> spent w0 (c_world c) 0 (credit (c_short c) (c_stack c)) ->
  run react evs (st, c) = (st', c') -> spent (arr (arrivals evs) w0) (c_world c') 0 0.
Proof.
  induction evs as [|[|s] evs IH]; intros st c w0 st' c' HS HB E; cbn [run arrivals] in *.
  - injection E as <- <-. destruct HB as (new & cns & H1 & H2 & H3). exists new, cns. unfold arr. cbn [w_in set_in w_log].
    rewrite app_nil_r. repeat split; try assumption. lia.
  - unfold tick in E.
    assert (forall r, r = step react c -> run react evs r = (st', c') -> spent (arr (arrivals evs) w0) (c_world c') 0 0) as Hgo.
    { intros [st1 c1] Er E1. pose proof (step_good c HS) as [G1 G2]. rewrite <- Er in *. cbn [snd] in *.
      refine (IH st1 c1 w0 st' c' G1 _ E1). eapply spent_trans; eassumption. }
    destruct st; try (apply (Hgo _ eq_refl E)); (eapply IH; [exact HS|exact HB|exact E]).
  - cbn [fst snd] in E. eapply IH in E.
    + instantiate (1 := arr s w0) in E. unfold arr in *. cbn [w_in set_in] in E. rewrite <- app_assoc in E. exact E.
    + exact HS.
    + destruct c as [h sh st0 w]. cbn [arrive c_world c_hdr c_short c_stack] in *. now apply (spent_arrive s).
Qed.
End Async.

(** The same for listenAsync: any executor schedule, any arrivals (calls of other threads, failures), any listener code. *)
Theorem C66_async : forall react w evs st c, run react evs (ARun, start_listen w) = (st, c) ->
  exists new consumed, w_log (c_world c) = w_log w ++ new /\
  bytes_of (w_in w ++ arrivals evs) = consumed ++ bytes_of (w_in (c_world c)) /\ paid_by new consumed.
Proof.
  intros react w evs st c E. apply run_good with (w0 := w) in E.
  - destruct E as (new & cns & H1 & H2 & H3). exists new, cns. split; [exact H1|]. split; [exact H2|]. apply paid. lia.
  - apply (sh3 [] [CoListen]); constructor.
  - apply spent_same; [reflexivity..|cbn; lia].
Qed.
Print Assumptions C66_async.

Example C66_async_nonvacuous :
  let w := World [] [] [] (fun _ => x00) 0 [] (Sock false 1024 (Some 7%nat) (-1) false) in
  match run (fun _ _ => [CSetConfig false 1%Z; CSetListener (Some 8%nat); CSend true (SoPong None)])
            (Tick :: Arrive [RData x82 [x02]] :: ticks 9 ++ Arrive [RData x61 [x62; x89]] :: ticks 80 ++ [Arrive [RData x00 []]] ++ ticks 60) (ARun, start_listen w) with
  | (st, c) => w_log (c_world c) = [(7%nat, EvMsg 2 [x61; x62]); (7%nat, EvEnd 2); (8%nat, EvPing [])] /\
               total price (w_log (c_world c)) = 6 /\ st = AWait
  end.
Proof. vm_compute. repeat split. Qed.
