(** Property theorems about replies sent by listeners (C49) and complete conversations (C50, C51). *)
From Verif Require Import Bytes Frame World WebSocket SpecFrame SpecSend SpecListen SpecApi SpecReply
  ProofFrame ProofStream ProofSend ProofHeader ProofListen ProofReading ProofApi ProofInv ProofRel ProofSilent ProofProps
  PropListen.
From Coq Require Import ZifyBool ZifyNat ZifyN.
Local Open Scope N_scope.
Local Arguments takeN : simpl never.
Local Arguments dropN : simpl never.
Local Arguments lenN : simpl never.
Local Arguments be_enc : simpl never.
Local Arguments be_dec : simpl never.

Lemma replies_app react log n1 n2 :
  replies react log (n1 ++ n2) = replies react log n1 ++ replies react (log ++ n1) n2.
Proof.
  revert log; induction n1 as [|e r IH]; intros log; cbn; [now rewrite app_nil_r|].
  rewrite IH, <- !app_assoc. reflexivity.
Qed.
Lemma frames_of_app m rnd a : forall pos b,
  frames_of m rnd pos (a ++ b) = frames_of m rnd pos a ++ frames_of m rnd (pos + used m * length a) b.
Proof.
  induction a as [|op r IH]; intros pos b; cbn [frames_of app length].
  - now rewrite Nat.mul_0_r, Nat.add_0_r.
  - rewrite IH, app_assoc. do 2 f_equal. lia.
Qed.

Definition reply_rel (m : bool) (react : react_t) (_ : bool) (w w' : world) : Prop :=
  s_mask (w_sock w) = m -> healthy (w_wr w) ->
  s_mask (w_sock w') = m /\ healthy (w_wr w') /\ w_rnd w' = w_rnd w /\
  exists new, w_log w' = w_log w ++ new /\
    w_out w' = w_out w ++ frames_of m (w_rnd w) (w_rpos w) (replies react (w_log w) new) /\
    w_rpos w' = (w_rpos w + used m * length (replies react (w_log w) new))%nat.

Lemma reply_same m react c w w' :
  (s_mask (w_sock w) = m -> s_mask (w_sock w') = m) -> w_wr w' = w_wr w -> w_rnd w' = w_rnd w ->
  w_log w' = w_log w -> w_out w' = w_out w -> w_rpos w' = w_rpos w -> reply_rel m react c w w'.
Proof.
  intros H1 H2 H3 H4 H5 H6 Hm Hh. split; [auto|]. split; [now rewrite H2|]. split; [exact H3|].
  exists []. cbn. rewrite !app_nil_r, Nat.mul_0_r, Nat.add_0_r. auto.
Qed.
Lemma reply_trans m react c a b d : reply_rel m react true a b -> reply_rel m react c b d -> reply_rel m react c a d.
Proof.
  intros H G Hm Hh. destruct (H Hm Hh) as (A1 & A2 & A3 & n1 & A4 & A5 & A6).
  destruct (G A1 A2) as (B1 & B2 & B3 & n2 & B4 & B5 & B6).
  split; [exact B1|]. split; [exact B2|]. split; [congruence|].
  exists (n1 ++ n2). rewrite B4, B5, B6, A3, A4, A5, A6, replies_app, frames_of_app, app_length, !app_assoc.
  split; [reflexivity|]. split; [reflexivity|]. lia.
Qed.

Lemma reply_cmds m cs : Forall (mask_cmd m) cs -> forall w o w', exec_cmds cs w = (o, w') ->
  s_mask (w_sock w) = m -> healthy (w_wr w) ->
  s_mask (w_sock w') = m /\ healthy (w_wr w') /\ w_rnd w' = w_rnd w /\ w_log w' = w_log w /\
    w_out w' = w_out w ++ frames_of m (w_rnd w) (w_rpos w) (sends_of cs) /\
    w_rpos w' = (w_rpos w + used m * length (sends_of cs))%nat.
Proof.
  induction 1 as [|c cs Hc _ IH]; intros w o w' E Hm Hh; cbn [exec_cmds] in E.
  - injection E as <- <-. cbn. rewrite app_nil_r, Nat.mul_0_r, Nat.add_0_r. auto 7.
  - unfold bind in E. destruct (exec_cmd c w) as [o1 w1] eqn:E1.
    (* a checked raw send that cannot fail is a raw send *)
    assert (forall fin0 opc0 msg0, c = CDemand fin0 opc0 msg0 ->
      exists c', c' = CSend false (SoFrame fin0 opc0 msg0) /\ mask_cmd m c' /\ exec_cmd c' w = (o1, w1)) as Hdem.
    { intros fin0 opc0 msg0 ->. eexists. split; [reflexivity|]. split; [exact Hc|]. cbn [exec_cmd] in *.
      cbn in Hc. destruct Hc as [F1 F2].
      apply demand_healthy in E1; [|exact F1|exact Hh|intros H; apply F2; congruence]. destruct E1 as [-> E1]. exact E1. }
    replace (sends_of (c :: cs)) with (sends_of (match c with CDemand f k d => CSend false (SoFrame f k d) | _ => c end :: cs)) by (destruct c; reflexivity).
    assert (exists c', c' = match c with CDemand f k d => CSend false (SoFrame f k d) | _ => c end /\ mask_cmd m c' /\ exec_cmd c' w = (o1, w1)) as (c' & Ec' & Hc' & E1').
    { destruct c; try (eexists; split; [reflexivity|]; split; [exact Hc|exact E1]). apply Hdem. reflexivity. }
    rewrite <- Ec'. assert (forall f k d, c' <> CDemand f k d) as Hnd by (intros; subst c'; destruct c; discriminate).
    clear Hdem Ec' E1 Hc c. rename c' into c, Hc' into Hc, E1' into E1.
    destruct c as [|l|m' b|catch op| | |fin0 opc0 msg0]; cbn [exec_cmd] in E1; cbn [sends_of].
    + injection E1 as <- <-. apply IH in E; [exact E|exact Hm|exact Hh].
    + injection E1 as <- <-. apply IH in E; [exact E|exact Hm|exact Hh].
    + injection E1 as <- <-. cbn in Hc. subst m'. apply IH in E; [exact E|reflexivity|exact Hh].
    + cbn in Hc. destruct Hc as [F1 F2].
      destruct (send op w) as [o2 w2] eqn:E2. pose proof E2 as E3. pose proof (keeps_send op w _ _ E2) as [(_ & Kl & Kr & _) _].
      apply send_spec in E2; [|exact F1]. destruct E2 as (p & _ & Ho & Hrp & _ & _ & _ & _ & _ & Hx).
      assert (size_ok w (req_payload op)) as Hsz by (intros H; apply F2; congruence).
      destruct (Hx Hh Hsz) as (-> & -> & Hh1 & Hs1).
      assert (o1 = Ret tt /\ w1 = w2) as [-> ->].
      { destruct catch; unfold try_ in E1; rewrite E3 in E1; injection E1 as <- <-; auto. }
      apply IH in E; [|congruence|exact Hh1]. destruct E as (B1 & B2 & B3 & B4 & B5 & B6).
      split; [exact B1|]. split; [exact B2|]. split; [congruence|]. split; [congruence|].
      assert (drawn w = used m) as Hd by (unfold drawn, used; now rewrite Hm).
      assert (next_key_opt w = key_at m (w_rnd w) (w_rpos w)) as Hk by (unfold next_key_opt, key_at; now rewrite Hm).
      rewrite B5, B6, Ho, Hrp, Kr, Hd, Hk. cbn [frames_of length]. rewrite <- app_assoc. split; [reflexivity|]. lia.
    + injection E1 as <- <-. apply IH in E; [exact E|exact Hm|exact Hh].
    + injection E1 as <- <-. injection E as <- <-. cbn. rewrite app_nil_r, Nat.mul_0_r, Nat.add_0_r. auto 7.
    + exfalso. eapply Hnd. reflexivity.
Qed.

Lemma reply_notify m react ev w o w' : mask_react m react -> notify react ev w = (o, w') -> reply_rel m react (is_ret o) w w'.
Proof.
  intros Hr E. unfold notify in E. destruct (s_listener (w_sock w)) as [l|].
  - intros Hm Hh. eapply reply_cmds in E; [|apply Hr|exact Hm|exact Hh].
    destruct E as (B1 & B2 & B3 & B4 & B5 & B6). cbn [set_log w_log w_out w_rnd w_rpos] in *.
    split; [exact B1|]. split; [exact B2|]. split; [exact B3|]. exists [(l, ev)]. split; [exact B4|].
    cbn [replies fst]. rewrite app_nil_r. auto.
  - injection E as <- <-. apply reply_same; auto.
Qed.

(** * C49: replies *)
(** Whatever the input, however listening ends: what was sent is exactly the frames of the sends made by the callbacks
    that took place, in order, each with the next key of the random source iff masking is on. *)
Theorem C49_replies : forall m react w o w',
  s_mask (w_sock w) = m -> mask_react m react -> script_ok (mask_ext m) any_err (w_in w) -> healthy (w_wr w) ->
  listen react w = (o, w') ->
  exists new, w_log w' = w_log w ++ new /\
    w_out w' = w_out w ++ frames_of m (w_rnd w) (w_rpos w) (replies react (w_log w) new) /\
    w_rpos w' = (w_rpos w + used m * length (replies react (w_log w) new))%nat.
Proof.
  intros m react w o w' Hm Hr Hs Hh E.
  eapply (rel_listen react (mask_ext m) (reply_rel m react)) in E.
  - destruct E as [_ H]. destruct (H Hm Hh) as (_ & _ & _ & H'). exact H'.
  - intros. apply reply_same; auto.
  - intros c a b d. apply reply_trans.
  - intros c a b H; exact H.
  - intros. apply reply_same; auto.
  - intros w0 x Hx. apply reply_same; auto. destruct x; cbn in *; auto; congruence.
  - intros. apply reply_same; auto.
  - intros. apply reply_same; auto.
  - intros ev w0 o0 w0' E0. eapply reply_notify; eassumption.
  - exact Hs.
Qed.
Print Assumptions C49_replies.

Example C49_nonvacuous :
  let w := World [RData x81 [x02; x68; x69; x89; x01]; RData x70 []] [WAccept 1; WIo IoRetry] [x2a] (fun i => n2b (N.of_nat i)) 5
             [] (set_listener (sock_new true) (Some 7%nat)) in
  let w' := snd (listen (echo 100) w) in
  w_out w' = [x2a] ++ [x81; x82; x05; x06; x07; x08; x6d; x6f] ++ [x8a; x81; x09; x0a; x0b; x0c; x79] /\
  replies (echo 100) [] (w_log w') = [SoText (Some [x68; x69]); SoPong (Some [x70])] /\ w_rpos w' = 13%nat /\
  mask_react true (echo 100).
Proof.
  cbv zeta. split; [vm_compute; reflexivity|]. split; [vm_compute; reflexivity|]. split; [vm_compute; reflexivity|].
  intros l log. unfold echo. destruct (snd (last log (0%nat, EvEnd 0))) as [o d|o|p|p|c p]; try constructor.
  - destruct o as [|[[]|[]|]]; try constructor; destruct (N.leb_spec (lenN (collect (removelast log))) 100); repeat constructor; cbn; intros; unfold req_payload; cbn; lia.
  - destruct (N.leb_spec (lenN p) 125); repeat constructor; cbn; intros; unfold req_payload; cbn; lia.
  - destruct (N.leb_spec (lenN p) 123); repeat constructor; cbn; intros; unfold req_payload; cbn; rewrite lenN_app, lenN_be_enc; lia.
Qed.

(** * The echo server *)
Fixpoint obs_replies (lim : N) (acc : bytes) (os : list obs) : list sendop :=
  match os with
  | [] => []
  | OByte _ b :: r => obs_replies lim (acc ++ [b]) r
  | OEnd op :: r =>
    (match op with
     | 1 => if lenN acc <=? lim then [SoText (Some acc)] else []
     | 2 => if lenN acc <=? lim then [SoBinary (Some acc)] else []
     | _ => [] end) ++ obs_replies lim [] r
  | OPing p :: r => (if lenN p <=? 125 then [SoPong (Some p)] else []) ++ obs_replies lim acc r
  | OPong _ :: r => obs_replies lim acc r
  | OClose c p :: r => (if lenN p <=? 123 then [SoClose c (Some p)] else []) ++ obs_replies lim acc r
  end.
Lemma obs_replies_bytes lim op d : forall acc os, obs_replies lim acc (map (OByte op) d ++ os) = obs_replies lim (acc ++ d) os.
Proof.
  induction d as [|b d IH]; intros acc os; cbn; [now rewrite app_nil_r|]. rewrite IH, <- app_assoc. reflexivity.
Qed.
Lemma echo_obs lim new : forall log, replies (echo lim) log new = obs_replies lim (collect log) (transcript new).
Proof.
  induction new as [|[l ev] r IH]; intros log; [reflexivity|].
  cbn [replies transcript flat_map fst snd]. fold (transcript r). rewrite IH. clear IH. unfold echo.
  rewrite last_last, removelast_last. cbn [snd].
  assert (collect (log ++ [(l, ev)]) = match ev with EvMsg _ d => collect log ++ d | EvEnd _ => [] | _ => collect log end) as ->.
  { unfold collect. rewrite fold_left_app. destruct ev; reflexivity. }
  destruct ev as [o d|o|p|p|c p]; cbn [observe].
  - now rewrite obs_replies_bytes.
  - cbn [app obs_replies]. f_equal. destruct o as [|[[]|[]|]]; try reflexivity; destruct (_ <=? _); reflexivity.
  - cbn [app obs_replies]. f_equal. destruct (_ <=? _); reflexivity.
  - reflexivity.
  - cbn [app obs_replies]. f_equal. destruct (_ <=? _); reflexivity.
Qed.

Lemma obs_replies_received lim ops os : Forall (echoable lim) ops ->
  obs_replies lim [] (flat_map received ops ++ os) = flat_map answer ops ++ obs_replies lim [] os.
Proof.
  induction 1 as [|op r [Hp Hl] _ IH]; [reflexivity|]. cbn [flat_map]. rewrite <- !app_assoc.
  destruct op as [f o m|c m| |m|m|m|m]; cbn [received answer plain_send] in *; try contradiction.
  - cbn [app obs_replies]. rewrite IH. destruct (N.leb_spec (lenN (msg_of m)) 125); [reflexivity|lia].
  - cbn [app obs_replies]. exact IH.
  - rewrite <- app_assoc, obs_replies_bytes. cbn [app obs_replies]. rewrite IH.
    destruct (N.leb_spec (lenN (msg_of m)) lim); [reflexivity|lia].
  - rewrite <- app_assoc, obs_replies_bytes. cbn [app obs_replies]. rewrite IH.
    destruct (N.leb_spec (lenN (msg_of m)) lim); [reflexivity|lia].
Qed.

Lemma echo_cmds lim l log : lim < 2 ^ 31 - 2 ->
  echo lim l log = [] \/ exists op, echo lim l log = [CSend false op] /\ lenN (req_payload op) < 2 ^ 31 /\
    (plain_send op \/ exists c m, op = SoClose c (Some m) /\ lenN m <= 123).
Proof.
  intros Hlim. unfold echo. destruct (snd (last log (0%nat, EvEnd 0))) as [o d|o|p|p|c p]; auto.
  - destruct o as [|[[]|[]|]]; auto; destruct (N.leb_spec (lenN (collect (removelast log))) lim); auto; right;
      eexists; (split; [reflexivity|]); (split; [unfold req_payload; cbn; lia|left; exact I]).
  - destruct (N.leb_spec (lenN p) 125); auto; right; eexists; (split; [reflexivity|]);
      (split; [unfold req_payload; cbn; lia|left; assumption]).
  - destruct (N.leb_spec (lenN p) 123); auto; right; eexists; (split; [reflexivity|]);
      (split; [unfold req_payload; cbn; rewrite lenN_app, lenN_be_enc; lia|right; eauto]).
Qed.
Lemma echo_polite lim : lim < 2 ^ 31 - 2 -> polite_react (echo lim).
Proof.
  intros Hlim l log. destruct (echo_cmds lim l log Hlim) as [->|(op & -> & H & _)]; repeat constructor. exact H.
Qed.
Lemma echo_never lim : never_stops (echo lim).
Proof.
  intros l log. unfold echo. destruct (snd (last log (0%nat, EvEnd 0))) as [o d|o|p|p|c p]; try reflexivity.
  - destruct o as [|[[]|[]|]]; try reflexivity; destruct (_ <=? _); reflexivity.
  - destruct (_ <=? _); reflexivity.
  - destruct (_ <=? _); reflexivity.
Qed.
Lemma polite_mask m react : polite_react react -> mask_react m react.
Proof.
  intros H l log. eapply Forall_impl; [|apply H]. intros [] Hc; cbn in *; try exact I; try contradiction.
  all: split; [|auto]; cbn in *; assert (2 ^ 31 < 2 ^ 63) by reflexivity; lia.
Qed.
Lemma clean_mask m s : clean s -> script_ok (mask_ext m) any_err s.
Proof. apply Forall_impl. intros [] H; cbn in *; try exact I; contradiction. Qed.

(** The frames of a sequence of sends as a history. *)
Fixpoint keyed (m : bool) (rnd : nat -> byte) (pos : nat) (ops : list sendop) : list (option mask4 * sendop) :=
  match ops with [] => [] | op :: r => (key_at m rnd pos, op) :: keyed m rnd (pos + used m) r end.
Lemma keyed_snd m rnd ops : forall pos, map snd (keyed m rnd pos ops) = ops.
Proof. induction ops as [|op r IH]; intros pos; cbn; [reflexivity|]. now rewrite IH. Qed.
Lemma frames_of_keyed m rnd ops : forall pos, frames_of m rnd pos ops = wires (sent_frames (keyed m rnd pos ops)).
Proof.
  induction ops as [|op r IH]; intros pos; cbn [frames_of keyed]; [reflexivity|]. rewrite IH. reflexivity.
Qed.
Lemma keyed_history m rnd pos ops : Forall plain_send ops -> Forall (fun op => lenN (req_payload op) < 2 ^ 63) ops ->
  history_ok false (sent_frames (keyed m rnd pos ops)) = true /\ open_after false (sent_frames (keyed m rnd pos ops)) = false /\
  frames_shown (sent_frames (keyed m rnd pos ops)) = flat_map received ops.
Proof.
  intros H1 H2. destruct (sent_history (keyed m rnd pos ops)) as (A & B & C).
  - assert (Forall (fun op => plain_send op /\ lenN (req_payload op) < 2 ^ 63) (map snd (keyed m rnd pos ops))) as H.
    { rewrite keyed_snd. rewrite Forall_forall in *. auto. }
    rewrite Forall_map in H. exact H.
  - rewrite flat_map_snd, keyed_snd in C. auto.
Qed.

(** A conversation: the client sends [ops], the server listens to what the client sent, the client listens to what the
    server sent. *)
(** * C50: echo round trip *)
Theorem C50_echo : forall lim ops wc oc wc' ws os ws' ls react wl ol wl' ll,
  lim < 2 ^ 31 - 2 -> Forall (echoable lim) ops -> Forall (fits (s_mask (w_sock wc))) ops ->
  healthy (w_wr wc) -> send_all ops wc = (oc, wc') ->
  good (echo lim) ws -> open_of (w_sock ws) = false -> s_listener (w_sock ws) = Some ls -> w_log ws = [] ->
  w_out wc' = w_out wc ++ bytes_of (w_in ws) -> listen (echo lim) ws = (os, ws') ->
  good react wl -> open_of (w_sock wl) = false -> s_listener (w_sock wl) = Some ll ->
  w_out ws' = w_out ws ++ bytes_of (w_in wl) -> listen react wl = (ol, wl') ->
  exists new, w_log wl' = w_log wl ++ new /\ Forall (fun e => fst e = ll) new /\
    transcript new = flat_map received (flat_map answer ops).
Proof.
  intros lim ops wc oc wc' ws os ws' ls react wl ol wl' ll Hlim Hops Hf Hh Ec Gs Os Ls Logs Hws Es Gl Ol Ll Hwl El.
  assert (Forall plain_send ops) as Hpl by (eapply Forall_impl; [|exact Hops]; intros op []; assumption).
  destruct (C04_round_trip ops wc oc wc' (echo lim) ws os ws' ls Hh Hpl Hf Ec Gs Os Ls Hws Es) as (_ & _ & _ & new & N1 & _ & N3).
  pose proof Gs as (A1 & A2 & A3 & _).
  destruct (C49_replies _ (echo lim) ws os ws' eq_refl (polite_mask _ _ A3) (clean_mask _ _ A1) A2 Es) as (new' & N1' & R1 & _).
  assert (new' = new) as -> by (rewrite N1 in N1'; now apply app_inv_head in N1').
  rewrite Logs in *. rewrite echo_obs, N3 in R1. cbn [collect fold_left] in R1.
  rewrite <- (app_nil_r (flat_map received ops)), obs_replies_received in R1 by exact Hops.
  cbn [obs_replies] in R1. rewrite app_nil_r in R1. rewrite R1 in Hwl. apply app_inv_head in Hwl. clear R1.
  rewrite frames_of_keyed in Hwl.
  destruct (keyed_history (s_mask (w_sock ws)) (w_rnd ws) (w_rpos ws) (flat_map answer ops)) as (H1 & H2 & H3).
  { clear - Hops. induction Hops as [|op r [Hp _] _ IH]; [constructor|]. cbn [flat_map]. apply Forall_app. split; [|exact IH].
    destruct op; cbn in *; repeat constructor; assumption. }
  { clear - Hf. induction Hf as [|op r [Hp _] _ IH]; [constructor|]. cbn [flat_map]. apply Forall_app. split; [|exact IH].
    destruct op; cbn; repeat constructor; exact Hp. }
  rewrite <- Ol in H1, H2. rewrite <- (app_nil_r (wires _)) in Hwl. symmetry in Hwl.
  destruct (listen_hist react wl ol wl' _ _ Gl Hwl H1 El) as (new2 & G1 & G2 & G3 & _ & _).
  exists new2. split; [exact G1|]. split; [eapply addressed_fst; eassumption|].
  rewrite H2 in G3. rewrite G3, (seen_some _ _ _ Ll), H3. cbn. now rewrite app_nil_r.
Qed.
Print Assumptions C50_echo.

Example C50_nonvacuous :
  let ops := [SoText (Some [x68; x69]); SoPing (Some [x70]); SoBinary None; SoPong None] in
  let wc := demo_client [WAccept 3; WIo IoRetry] in
  let sent := w_out (snd (send_all ops wc)) in
  let ws := demo [RData x81 (tl (firstn 7 sent)); RIo IoRetry; RData (nth 7 sent x00) (skipn 8 sent)] in
  let back := w_out (snd (listen (echo 50) ws)) in
  let wl := demo [RData x81 (tl back)] in
  Forall (echoable 50) ops /\ Forall (fits true) ops /\ bytes_of (w_in ws) = sent /\ bytes_of (w_in wl) = back /\
  good (echo 50) ws /\ good passive wl /\
  w_log (snd (listen passive wl)) = [(7%nat, EvMsg 1 [x68; x69]); (7%nat, EvEnd 1); (7%nat, EvPong [x70]); (7%nat, EvEnd 2)].
Proof.
  cbv zeta. split; [repeat constructor; vm_compute; discriminate|]. split; [repeat constructor|].
  split; [vm_compute; reflexivity|]. split; [vm_compute; reflexivity|].
  split. { split; [repeat constructor|]. split; [constructor|]. split; [apply echo_polite; reflexivity|]. split; [apply echo_never|].
    split; [reflexivity|left; reflexivity]. }
  split. { split; [repeat constructor|]. split; [constructor|]. split; [apply passive_polite|]. split; [apply passive_never|].
    split; [reflexivity|left; reflexivity]. }
  vm_compute. reflexivity.
Qed.

(** * C51: closing handshake *)
(** The client ends with a Close; the server answers it from its onClose callback. Both listen() calls return, the last
    call of either listener is onClose with the client's code and reason, after all messages before it. *)
Theorem C51_closing_handshake : forall lim ops opc code reason wc oc wc' ws os ws' ls react wl ol wl' ll,
  lim < 2 ^ 31 - 2 -> Forall (echoable lim) ops -> Forall (fits (s_mask (w_sock wc))) ops ->
  close_request opc code reason ->
  healthy (w_wr wc) -> send_all (ops ++ [opc]) wc = (oc, wc') ->
  good (echo lim) ws -> open_of (w_sock ws) = false -> s_listener (w_sock ws) = Some ls -> w_log ws = [] ->
  w_out wc' = w_out wc ++ bytes_of (w_in ws) -> listen (echo lim) ws = (os, ws') ->
  good react wl -> open_of (w_sock wl) = false -> s_listener (w_sock wl) = Some ll ->
  w_out ws' = w_out ws ++ bytes_of (w_in wl) -> listen react wl = (ol, wl') ->
  oc = Ret tt /\ os = Ret tt /\ ol = Ret tt /\ bytes_of (w_in ws') = [] /\ bytes_of (w_in wl') = [] /\
  (exists msgs, w_log ws' = msgs ++ [(ls, EvClose code reason)] /\ transcript msgs = flat_map received ops) /\
  (exists msgs, w_log wl' = w_log wl ++ msgs ++ [(ll, EvClose code reason)] /\
                transcript msgs = flat_map received (flat_map answer ops)).
Proof.
  intros lim ops opc code reason wc oc wc' ws os ws' ls react wl ol wl' ll Hlim Hops Hf Hcl Hh Ec Gs Os Ls Logs Hws Es Gl Ol Ll Hwl El.
  assert (Forall plain_send ops) as Hpl by (eapply Forall_impl; [|exact Hops]; intros op []; assumption).
  destruct (C11_close_round_trip ops opc code reason wc oc wc' (echo lim) ws os ws' ls [] Hh Hpl Hf Hcl Ec Gs Os Ls)
    as (-> & -> & Hin & msgs & N1 & N3); [now rewrite app_nil_r|exact Es|].
  pose proof Gs as (A1 & A2 & A3 & _).
  destruct (C49_replies _ (echo lim) ws _ ws' eq_refl (polite_mask _ _ A3) (clean_mask _ _ A1) A2 Es) as (new' & N1' & R1 & _).
  assert (new' = msgs ++ [(ls, EvClose code reason)]) as -> by (rewrite N1 in N1'; now apply app_inv_head in N1').
  assert (code < 65536 /\ lenN reason <= 123) as [Hcode Hreason].
  { destruct opc; cbn in Hcl; try contradiction; [destruct Hcl as (<- & _ & ? & ?); auto|]. destruct Hcl as [-> ->]. split; [reflexivity|discriminate]. }
  rewrite Logs in *. rewrite echo_obs, transcript_app, N3 in R1. cbn [collect fold_left] in R1.
  rewrite obs_replies_received in R1 by exact Hops.
  cbn [transcript flat_map observe snd app obs_replies] in R1.
  destruct (N.leb_spec (lenN reason) 123); [|lia]. cbn [app] in R1.
  set (opc' := SoClose code (Some reason)) in *.
  (* the client's second run sees the frames of [answers ++ [close]]: the same as those sent by a socket like ws *)
  set (wq := World [] [] [] (w_rnd ws) (w_rpos ws) [] (w_sock ws)).
  assert (Forall (fits (s_mask (w_sock ws))) (flat_map answer ops)) as Hfa.
  { assert (2 ^ 31 < 2 ^ 63) by reflexivity.
    clear - Hops Hlim H0. induction Hops as [|op r [Hp Hl] _ IH]; [constructor|]. cbn [flat_map]. apply Forall_app. split; [|exact IH].
    destruct op; cbn in *; repeat constructor; unfold req_payload; cbn; intros; lia. }
  assert (Forall plain_send (flat_map answer ops)) as Hpa.
  { clear - Hops. induction Hops as [|op r [Hp _] _ IH]; [constructor|]. cbn [flat_map]. apply Forall_app. split; [|exact IH].
    destruct op; cbn in *; repeat constructor; assumption. }
  assert (close_request opc' code reason) as Hcl' by (repeat split; assumption).
  assert (fits (s_mask (w_sock ws)) opc') as Hfc.
  { destruct (close_frame opc' code reason None Hcl') as (Hlen & _). split; [|intros _]; eapply N.le_lt_trans; try exact Hlen; reflexivity. }
  destruct (send_all (flat_map answer ops ++ [opc']) wq) as [oq wq'] eqn:Eq.
  assert (w_out wq' = frames_of (s_mask (w_sock ws)) (w_rnd ws) (w_rpos ws) (flat_map answer ops ++ [opc'])) as Hq.
  { assert (forall ops w o w', Forall (fits (s_mask (w_sock w))) ops -> healthy (w_wr w) -> send_all ops w = (o, w') ->
      w_out w' = w_out w ++ frames_of (s_mask (w_sock w)) (w_rnd w) (w_rpos w) ops) as Hall.
    { clear. induction ops as [|op r IH]; intros w o w' Hf Hh E; cbn [send_all] in E.
      - injection E as <- <-. cbn. now rewrite app_nil_r.
      - inversion Hf as [|? ? [F1 F2] F3]; subst. unfold bind in E. destruct (send op w) as [o1 w1] eqn:E1.
        pose proof (keeps_send op w _ _ E1) as [(_ & _ & Kr & _) _].
        apply send_spec in E1; [|exact F1]. destruct E1 as (p & _ & Ho & Hrp & _ & _ & _ & _ & _ & Hx).
        destruct (Hx Hh F2) as (-> & -> & Hh1 & Hs1).
        apply IH in E; [|now rewrite Hs1|exact Hh1]. rewrite E, Ho, Hs1, Kr, Hrp, <- app_assoc. cbn [frames_of].
        reflexivity. }
    apply Hall in Eq; [exact Eq| |constructor]. apply Forall_app. split; [exact Hfa|]. constructor; [exact Hfc|constructor]. }
  rewrite R1 in Hwl. apply app_inv_head in Hwl. rewrite <- Hq in Hwl.
  destruct (C11_close_round_trip (flat_map answer ops) opc' code reason wq oq wq' react wl ol wl' ll [] (Forall_nil _) Hpa Hfa)
    as (_ & -> & Hinl & msgs2 & M1 & M3); try assumption.
  { now rewrite app_nil_r. }
  split; [reflexivity|]. split; [reflexivity|]. split; [reflexivity|]. split; [exact Hin|]. split; [exact Hinl|].
  split; [exists msgs; split; assumption|exists msgs2; split; assumption].
Qed.
Print Assumptions C51_closing_handshake.

Example C51_nonvacuous :
  let ops := [SoText (Some [x68; x69])] in
  let opc := SoClose 1000 (Some [x62]) in
  let sent := w_out (snd (send_all (ops ++ [opc]) (demo_client []))) in
  let ws := demo [RData x81 (tl sent)] in
  let back := w_out (snd (listen (echo 50) ws)) in
  let wl := demo [RData x81 (tl back)] in
  close_request opc 1000 [x62] /\ bytes_of (w_in ws) = sent /\ bytes_of (w_in wl) = back /\
  w_log (snd (listen passive wl)) = [(7%nat, EvMsg 1 [x68; x69]); (7%nat, EvEnd 1); (7%nat, EvClose 1000 [x62])].
Proof. cbv zeta. split; [vm_compute; repeat split; discriminate|]. repeat split; vm_compute; reflexivity. Qed.
