(** C74 continued, C75: nothing brings a threaded server down; a connection is served faithfully and completely. *)
From Verif Require Import Bytes Frame World WebSocket AsyncWebSocket SpecCausal SpecFrame SpecSend SpecListen SpecReply SpecThreads ProofSend ProofThreads
  Lifecycle Server SpecServer ProofServer ThreadServer SpecThreadServer ProofThreadServer ProofApi SpecApi ProofCodec ProofInv ProofRel ProofCausal PropNet PropCausal PropBound
  PropListen PropListen2 PropReply PropThreadServer.

(** * Nothing brings it down *)
Lemma gentle_no_throw cs w o w' : Forall gentle_cmd cs -> exec_cmds cs w = (o, w') -> forall e, o <> Throw e.
Proof.
  intros H. revert w. induction H as [|c cs Hc _ IH]; intros w E e; cbn [exec_cmds] in E.
  - injection E as <- <-. discriminate.
  - unfold bind in E. destruct (exec_cmd c w) as [o1 w1] eqn:E1.
    assert (forall e1, o1 <> Throw e1) as H1.
    { destruct c as [|l|m b|catch op| | |fin opc m]; cbn [gentle_cmd] in Hc; try contradiction; cbn [exec_cmd] in E1;
        try (injection E1 as <- <-; discriminate).
      destruct Hc as [-> _]. unfold try_ in E1. destruct (send op w) as [[[]|e2| |u|] w2]; injection E1 as <- <-; discriminate. }
    destruct o1 as [a|e1| |u|].
    + exact (IH _ E e).
    + destruct (H1 e1 eq_refl).
    + injection E as <- <-. discriminate.
    + injection E as <- <-. discriminate.
    + injection E as <- <-. discriminate.
Qed.

Lemma gentle_no_ub cs : Forall gentle_cmd cs -> forall w o w', exec_cmds cs w = (o, w') -> forall u, o <> Ub u.
Proof.
  induction 1 as [|c cs Hc _ IH]; intros w o w' E u; cbn [exec_cmds] in E.
  - injection E as <- <-. discriminate.
  - unfold bind in E. destruct (exec_cmd c w) as [o1 w1] eqn:E1.
    assert (forall u1, o1 <> Ub u1) as H1.
    { destruct c as [|l|m b|catch op| | |fin opc m]; cbn [gentle_cmd] in Hc; try contradiction; cbn [exec_cmd] in E1; try (injection E1 as <- <-; discriminate).
      destruct Hc as [-> Hc]. intros u1 ->. unfold try_ in E1. destruct (send op w) as [o2 w2] eqn:E2.
      destruct o2 as [[]|e2| |u2|]; try discriminate. injection E1 as -> ->. eapply send_no_ub; [| |exact E2|reflexivity]; [lia|auto]. }
    destruct o1 as [a|e1| |u1|].
    + exact (IH _ _ _ E u).
    + injection E as <- <-. discriminate.
    + injection E as <- <-. discriminate.
    + destruct (H1 u1 eq_refl).
    + injection E as <- <-. discriminate.
Qed.

Definition silent : react_t := fun _ _ => [].
Lemma silent_small : small_react silent.
Proof. intros l log. constructor. Qed.
Lemma cmds_no_ub B cs w o w' : Forall (buf_cmd B) cs -> Forall small_cmd cs -> bst B w -> exec_cmds cs w = (o, w') ->
  bst B w' /\ (forall u, o <> Ub u) /\ o <> OutOfFuel.
Proof.
  intros H1 H2 Hb E. pose proof E as E0. apply (binv_cmds silent B) in E; [|exact H1|intros _; exact H2|exact Hb].
  destruct E as (G1 & _ & G3). split; [exact G1|]. split; [|now apply exec_cmds_in in E0].
  intros u ->. destruct (G3 u eq_refl) as [_ G]. exact (G silent_small).
Qed.

Section Up.
Variable setup : nat -> nat -> list cmd.
Variable farewell : nat -> list cmd.
Variable react : nat -> react_t.
Hypothesis Hsetup : forall l p, Forall (buf_cmd 1024) (setup l p) /\ Forall small_cmd (setup l p).
Hypothesis Hfare : forall l, Forall gentle_cmd (farewell l).
Hypothesis Hreact : forall i, buf_react 1024 (react i) /\ small_react (react i).

Definition phase_ok (x : bphase) : Prop :=
  match x with PNew w => buf_script 1024 (w_in w) | PReady w | PListen w _ => bst 1024 w | _ => True end.
Definition up (x : option bpart) : Prop := match x with Some (_, _, ph, _) => phase_ok ph | None => False end.
Lemma up_end L l w v : up (pend farewell L l w v).
Proof.
  unfold pend. assert (Forall gentle_cmd (bye farewell l)) as Hg by (destruct l; [apply Hfare|constructor]).
  destruct (exec_cmds (bye farewell l) w) as [o w'] eqn:E.
  destruct o as [a|e| |u|]; try exact I.
  - destruct (gentle_no_throw _ _ _ _ Hg E e eq_refl).
  - destruct (gentle_no_ub _ Hg _ _ _ E u eq_refl).
  - apply exec_cmds_in in E. now destruct E.
Qed.
Lemma up_go i L l w w1 v : bst 1024 w -> up (pgo farewell react i L l w w1 v).
Proof.
  intros [Hb1 Hb2]. unfold pgo. destruct (listen (react i) w) as [o w'] eqn:E.
  destruct (C15_returns_or_blocks 1024 (react i) w o w' (proj1 (Hreact i)) (proj2 (Hreact i)) Hb1 Hb2 E) as [-> | ->].
  - apply up_end.
  - cbn [up phase_ok]. split; assumption.
Qed.
Lemma more_script B s w : buf_script B s -> buf_script B (w_in w) -> buf_script B (w_in (more s w)).
Proof. intros H1 H2. apply Forall_app. split; assumption. Qed.
Lemma up_step i e x : match e with BArrive j s => j = i -> buf_script 1024 s | _ => True end -> bconcerns i e = true -> up (Some x) -> up (bpstep setup farewell react i e x).
Proof.
  intros He Hc H. destruct x as [[[L l] ph] v]. cbn [up] in H. destruct e as [l'|j p spawn|j s|j]; cbn [bpstep bconcerns] in *.
  - exact H.
  - destruct ph as [w|w|w w1|w|w]; try exact H. cbn [phase_ok] in H.
    assert (Forall (buf_cmd 1024) (hello setup L p) /\ Forall small_cmd (hello setup L p)) as [G1 G2] by (destruct L; [apply Hsetup|repeat constructor]).
    destruct (exec_cmds (hello setup L p) (set_sock w (sock_new false))) as [o w1] eqn:E.
    destruct (cmds_no_ub 1024 _ _ _ _ G1 G2 (conj H eq_refl : bst 1024 (set_sock w (sock_new false))) E) as (K1 & K2 & K3).
    destruct o as [a|e| |u|].
    + destruct spawn; [exact K1|apply up_end].
    + destruct L; [exact I|]. cbn in E. discriminate.
    + destruct L; [exact I|]. cbn in E. discriminate.
    + destruct (K2 u eq_refl).
    + now destruct K3.
  - apply Nat.eqb_eq in Hc. specialize (He Hc). destruct ph as [w|w|w w1|w|w]; cbn [arrive_phase up phase_ok] in *; try exact I.
    + now apply more_script.
    + destruct H as [H1 H2]. split; [now apply more_script|exact H2].
    + destruct H as [H1 H2]. split; [now apply more_script|exact H2].
  - destruct ph as [w|w|w w1|w|w]; try exact H; now apply up_go.
Qed.
Lemma up_fold i evs : (forall j s, In (BArrive j s) evs -> buf_script 1024 s) -> (forall e, In e evs -> bconcerns i e = true) ->
  forall x, up (Some x) -> up (bpfold setup farewell react i evs x).
Proof.
  induction evs as [|e evs IH]; intros Ha Hc x Hx; [exact Hx|]. unfold bpfold in *. cbn [fold_left obind].
  pose proof (up_step i e x) as Hs. destruct (bpstep setup farewell react i e x) as [y|] eqn:Ey.
  - apply IH; [intros; apply (Ha j); now right|intros; apply Hc; now right|]. apply Hs; [|apply Hc; now left|exact Hx].
    destruct e; auto. intros _. apply (Ha i0). now left.
  - exfalso. apply Hs; [|apply Hc; now left|exact Hx]. destruct e; auto. intros _. apply (Ha i0). now left.
Qed.
End Up.

(** Whatever the peers send and however their connections fail, whatever listeners do and throw, whoever is refused and whether
    threads can be created: the process goes on, if onBeforeDestroy lets no exception out. *)
Theorem C75_never_down_partial : forall setup farewell react ws evs,
  (forall l p, Forall (buf_cmd 1024) (setup l p) /\ Forall small_cmd (setup l p)) ->
  (forall l, Forall gentle_cmd (farewell l)) ->
  (forall i, buf_react 1024 (react i) /\ small_react (react i)) ->
  (forall i, buf_script 1024 (w_in (ws i))) -> (forall j s, In (BArrive j s) evs -> buf_script 1024 s) ->
  exists s, brun setup farewell react evs (bserver_init ws) = BOk s.
Proof.
  intros setup farewell react ws evs Hs Hf Hr Hw Ha. pose proof (brun_part setup farewell react evs _ (binvs_init ws)) as H.
  destruct (brun setup farewell react evs (bserver_init ws)) as [s| |]; [eauto|..]; destruct H as [i H]; exfalso;
    (assert (up (bpfold setup farewell react i (bown i evs) (bpart_of i (bserver_init ws)))) as Hu;
     [apply up_fold; [exact Hs|exact Hf|exact Hr| | |exact (Hw i)]|rewrite H in Hu; exact Hu]).
  1,3: intros j s Hin; apply filter_In in Hin; apply (Ha j), Hin.
  1,2: intros e Hin; apply filter_In in Hin; apply Hin.
Qed.
Print Assumptions C75_never_down_partial.

(** It does go down if onBeforeDestroy sends without a handler and the connection no longer takes data. *)
Lemma broken_send op w q : w_wr w = WIo IoBroken :: q -> exists w', send op w = (Throw ExHeaderWrite, w').
Proof.
  intros Hq.
  assert (forall h w0, w_wr w0 = WIo IoBroken :: q -> exists w', writeFrameHeader h w0 = (Throw ExHeaderWrite, w')) as H1.
  { intros h w0 H0. unfold writeFrameHeader. destruct (packHeaderBits h) as [bb sc]. unfold bind at 1. unfold writeExactSizeDataSimple at 1. rewrite H0.
    cbn [be_enc writeExact_raw].
    change (negb (lenN (@nil byte) =? 2)%N) with true. cbn iota. eexists. reflexivity. }
  assert (forall fin opcode n, exists w', sendFrameHeader header_init fin opcode n w = (Throw ExHeaderWrite, w')) as H2.
  { intros fin opcode n. unfold sendFrameHeader, get. unfold bind at 1. cbv zeta. cbn [h_hasMask].
    destruct (s_mask (w_sock w)).
    - unfold bind at 2. unfold randomBytes at 1. unfold bind at 1. unfold ret at 1. unfold bind at 1.
      edestruct H1 as [w' ->]; [|eauto]. exact Hq.
    - unfold bind at 1. unfold ret at 1. unfold bind at 1. edestruct H1 as [w' ->]; [|eauto]. exact Hq. }
  assert (forall fin opcode m, exists w', sendOneFrame fin opcode m w = (Throw ExHeaderWrite, w')) as H3.
  { intros fin opcode m. unfold sendOneFrame. destruct m as [[|b bs]|]; unfold bind at 1; edestruct H2 as [w' ->]; eauto. }
  destruct op; cbn [send]; unfold sendChecked; unfold bind at 1; edestruct H3 as [w' ->]; eauto.
Qed.

Theorem C75_farewell_refuted : forall setup farewell react ws before i p after rest s w1 l w2 op r q,
  w_log (ws i) = [] -> bno_conn i before -> bno_conn i after -> binstance before = Some l ->
  brun setup farewell react (before ++ BConn i p true :: after) (bserver_init ws) = BOk s -> alive (b_phase s i) = true ->
  exec_cmds (setup l p) (set_sock (ws i) (sock_new false)) = (Ret tt, w1) ->
  listen (react i) (more (barrived i (before ++ BConn i p true :: after)) w1) = (Ret tt, w2) ->
  farewell l = CSend false op :: r -> w_wr w2 = WIo IoBroken :: q ->
  brun setup farewell react ((before ++ BConn i p true :: after) ++ BRun i :: rest) (bserver_init ws) = BTerminate.
Proof.
  intros setup farewell react ws before i p after rest s w1 l w2 op r q Hlog Hb Ha HL E Hal Eh El Hf Hq.
  assert (forall a b s0, brun setup farewell react (a ++ b) s0 = bthen (brun setup farewell react a s0) (brun setup farewell react b)) as Hrun.
  { clear. induction a as [|e a IH]; intros b s0; [reflexivity|]. cbn [brun app]. destruct (bstep setup farewell react e s0); cbn [bthen]; auto. }
  rewrite Hrun, E. cbn [bthen brun].
  pose proof (brun_part setup farewell react (before ++ BConn i p true :: after) _ (binvs_init ws)) as H. rewrite E in H. destruct H as [HI H]. specialize (H i).
  unfold bpfold in H. rewrite <- fold_own in H. change (bpart_of i (bserver_init ws)) with (None : option nat, None : option nat, PNew (ws i), [] : list seen_ev) in H.
  apply served_fold in H; [|exact Hlog|exact Hb|exact Ha]. unfold bpart_of in H.
  specialize (HI i). rewrite Hal in HI. destruct HI as (l0 & k & Eo & Hk). rewrite Eo in H. cbn [obj_l t_listener] in H.
  assert (forall u s0, h_objs (b_life s0) i = Some (Task (Some l) (Some k)) ->
    thread_run farewell react i (more (barrived i (before ++ BConn i p true :: after)) w1) u s0 = BTerminate) as Hgo.
  { intros u s0 Eo'. unfold thread_run. rewrite El. unfold destroy. set (s1 := add_calls _ _ _).
    assert (h_objs (b_life s1) i = Some (Task (Some l) (Some k))) as Eo1 by exact Eo'. rewrite Eo1. cbn [t_listener].
    destruct (blife_destroy i s1 (Some l) k Eo1) as (a & -> & _). cbn [bthen on_destroy]. rewrite Hf. cbn [exec_cmds exec_cmd]. unfold bind at 1.
    destruct (broken_send op w2 q Hq) as [w' ->]. reflexivity. }
  assert (bstep setup farewell react (BRun i) s = BTerminate) as ->; [|reflexivity]. cbn [bstep].
  remember (h_listener (b_life s), l0, b_phase s i, bview i s) as y eqn:Ey.
  destruct H as [M o w0 a x Eh' Ho Hx|M w0 a o3 w3 x Eh' Hs E3 Hx|M w0 Eh' Hs Hr|M w0 a1 a2 w3 Eh' Hs Hsp Hr El'|M w0 a1 a2 w3 o3 w4 x Eh' Hs Hsp El' E3 Hx];
    injection Ey as _ Hl0 Hph _; rewrite <- Hph in Hal |- *; try (destruct Hx as [-> | ->]; discriminate Hal);
    rewrite HL in Eh'; cbn [hello] in Eh'; rewrite Eh in Eh'; injection Eh' as <-.
  - rewrite HL in Hl0. subst l0. destruct (blife_run i s (Some l) k Eo) as (a & -> & _ & G). cbn [bthen]. apply Hgo. cbn [b_life]. now rewrite G.
  - rewrite HL in Hl0. subst l0. apply Hgo. exact Eo.
Qed.
Print Assumptions C75_farewell_refuted.

(** * C74, what is delivered *)
Lemma exec_cmds_effect cs : forall w o w', exec_cmds cs w = (o, w') ->
  w_in w' = w_in w /\ w_log w' = w_log w /\ s_last (w_sock w') = s_last (w_sock w).
Proof.
  induction cs as [|c cs IH]; intros w o w' E; cbn [exec_cmds] in E.
  - injection E as <- <-. auto.
  - unfold bind in E. destruct (exec_cmd c w) as [o1 w1] eqn:E1. apply exec_cmd_effect in E1. destruct E1 as (H1 & H2 & H3 & _).
    destruct o1 as [a|e| |u|]; try (injection E as <- <-; auto; fail). apply IH in E. destruct E as (G1 & G2 & G3).
    split; [congruence|]. split; congruence.
Qed.

(** At any moment, whatever happens: the calls made for a connection come between the two calls of the instance listener and
    report a part of what the peer has sent on this connection, in order. *)
Theorem C74_faithful : forall setup farewell react ws before i p spawn after s,
  w_log (ws i) = [] -> w_in (ws i) = [] -> bno_conn i before -> bno_conn i after ->
  let evs := before ++ BConn i p spawn :: after in let L := binstance before in
  stop_only (barrived i evs) -> tame_react (react i) ->
  brun setup farewell react evs (bserver_init ws) = BOk s ->
  exists log, prefix (transcript log) (stream_reading false (bytes_of (barrived i evs))) /\
    (bview i s = created L p \/ bview i s = created L p ++ destroyed L \/
     bview i s = created L p ++ NListen :: called log \/ bview i s = created L p ++ NListen :: called log ++ destroyed L).
Proof.
  intros setup farewell react ws before i p spawn after s Hlog Hin Hb Ha evs L Hs Ht E.
  destruct (C74_service setup farewell react ws before i p spawn after s Hlog Hb Ha E) as (o & w1 & Eh & H). fold L evs in H, Eh.
  assert (prefix (transcript []) (stream_reading false (bytes_of (barrived i evs)))) as Hnil by (eexists; reflexivity).
  destruct o as [u|e| |u|]; try (exists []; split; [exact Hnil|left; apply H]; fail).
  destruct spawn; [|exists []; split; [exact Hnil|right; left; apply H]].
  destruct H as [(_ & H & _)|(a1 & a2 & o2 & w2 & Hsp & El & H)]; [exists []; split; [exact Hnil|left; exact H]|].
  exists (w_log w2). split.
  - assert (exists t, barrived i evs = barrived i (before ++ BConn i p true :: a1) ++ t) as [t Htl].
    { exists (barrived i (BRun i :: a2)). rewrite <- barrived_app. unfold evs. rewrite Hsp. f_equal. rewrite <- app_assoc. reflexivity. }
    destruct (listen (react i) (more (barrived i evs) w1)) as [o3 w3] eqn:E3.
    destruct (exec_cmds_effect _ _ _ _ Eh) as (K1 & K2 & K3). cbn [set_sock w_in w_log w_sock sock_new s_last] in K1, K2, K3.
    assert (w_in (more (barrived i evs) w1) = barrived i evs) as Hi1 by (unfold more, set_in; cbn [w_in]; now rewrite K1, Hin).
    assert (s_last (w_sock (more (barrived i evs) w1)) = (-1)%Z) as Hla by exact K3.
    destruct (C06_only_a_prefix (react i) (more (barrived i evs) w1) o3 w3) as (new & Hn & Hp).
    + rewrite Hi1. exact Hs.
    + exact Ht.
    + left. exact Hla.
    + exact E3.
    + rewrite Hi1 in Hp. unfold open_of in Hp. rewrite Hla in Hp. change (0 <=? -1)%Z with false in Hp.
      change (w_log (more (barrived i evs) w1)) with (w_log w1) in Hn. rewrite K2, Hlog in Hn. cbn [app] in Hn.
      apply Hp. rewrite <- Hn. pose proof E3 as E3'. rewrite Htl, <- more_more in E3'. apply (C48_causality (react i) _ t _ _ _ _ El E3').
  - destruct H as [(-> & _ & H & _)|(-> & H & _)]; auto.
Qed.
Print Assumptions C74_faithful.

(** * C74, everything is delivered *)
Lemma split_run {A} (x : A) a1 a2 b1 b2 : a1 ++ x :: a2 = b1 ++ x :: b2 ->
  (exists m, b1 = a1 ++ m) \/ (exists m, b2 = m ++ x :: a2).
Proof.
  intros H. apply app_eq_app in H. destruct H as [l [[-> H]|[-> H]]]; [|left; eauto].
  destruct l as [|y l]; [left; exists []; now rewrite !app_nil_r|]. right. cbn [app] in H. injection H as <- ->. eauto.
Qed.
Lemma harmless_cmds cs : Forall harmless_cmd cs -> forall w o w', healthy (w_wr w) -> exec_cmds cs w = (o, w') ->
  o = Ret tt /\ healthy (w_wr w') /\ s_buf (w_sock w') = s_buf (w_sock w).
Proof.
  induction 1 as [|c cs Hc _ IH]; intros w o w' Hh E; cbn [exec_cmds] in E.
  - injection E as <- <-. auto.
  - unfold bind in E. destruct (exec_cmd c w) as [o1 w1] eqn:E1. destruct (exec_cmd_harmless _ _ _ _ Hc Hh E1) as (-> & Hh1 & _).
    apply exec_cmd_effect in E1. destruct E1 as (_ & _ & _ & Hb & _).
    assert (no_config_cmd c) as Hnc by (destruct c; cbn in *; auto). specialize (Hb Hnc).
    destruct (IH _ _ _ Hh1 E) as (G1 & G2 & G3). split; [exact G1|]. split; [exact G2|congruence].
Qed.

Lemma harmless_mask cs : Forall harmless_cmd cs -> Forall (mask_cmd false) cs.
Proof.
  intros H. eapply Forall_impl; [|exact H]. intros [] Hc; cbn in *; try exact I; try contradiction.
  all: split; [|auto]; cbn in *; assert (2 ^ 31 < 2 ^ 63)%N by reflexivity; lia.
Qed.
Lemma mask_kept react w o w' : mask_react false react -> script_ok (mask_ext false) any_err (w_in w) -> s_mask (w_sock w) = false -> healthy (w_wr w) ->
  listen react w = (o, w') -> s_mask (w_sock w') = false /\ w_rnd w' = w_rnd w.
Proof.
  intros Hr Hs Hm Hh E. eapply (rel_listen react (mask_ext false) (reply_rel false react)) in E.
  - destruct E as [_ G]. destruct (G Hm Hh) as (G1 & _ & G2 & _). auto.
  - intros. apply reply_same; auto.
  - intros c a b d. apply reply_trans.
  - intros c a b G; exact G.
  - intros. apply reply_same; auto.
  - intros w0 x Hx. apply reply_same; auto. destruct x; cbn in *; auto; congruence.
  - intros. apply reply_same; auto.
  - intros. apply reply_same; auto.
  - intros ev w0 o0 w0' E0. eapply reply_notify; eassumption.
  - exact Hs.
Qed.

(** The thread of a connection has run since the last arrival, nothing failed, and the application only installs a listener,
    sends and uses its data: the listener has been told everything the peer sent (up to a Close frame or a protocol error), the
    peer has been sent exactly the frames of the sends made by the instance listener, the callbacks and (if the connection has
    ended) onBeforeDestroy, and onBeforeDestroy has been called iff the connection has ended. *)
Theorem C74_completion : forall setup farewell react ws before i p a1 a2 s,
  w_log (ws i) = [] -> w_in (ws i) = [] -> w_out (ws i) = [] -> healthy (w_wr (ws i)) ->
  bno_conn i before -> bno_conn i (a1 ++ BRun i :: a2) -> barrived i a2 = [] ->
  let evs := before ++ BConn i p true :: a1 ++ BRun i :: a2 in let L := binstance before in let X := barrived i evs in
  clean X -> Forall harmless_cmd (hello setup L p) -> Forall harmless_cmd (bye farewell L) ->
  polite_react (react i) -> never_stops (react i) ->
  brun setup farewell react evs (bserver_init ws) = BOk s ->
  let over := match stream_ending false (bytes_of X) with Closed _ | Rejected _ => true | _ => false end in
  exists log,
    bview i s = created L p ++ NListen :: called log ++ (if over then destroyed L else []) /\
    match after_cmds None (hello setup L p) with
    | Some l => transcript log = stream_reading false (bytes_of X) /\ Forall (fun e => fst e = l) log
    | None => log = []
    end /\
    bsent_to i s = frames_of false (w_rnd (ws i)) 0 (sends_of (hello setup L p) ++ replies (react i) [] log ++ (if over then sends_of (bye farewell L) else [])).
Proof.
  intros setup farewell react ws before i p a1 a2 s Hlog Hin Hout Hhl Hb Ha Harr evs L X Hcl Hh1 Hh2 Hpol Hns E over.
  pose proof (harmless_mask _ Hh1) as Hm1. pose proof (harmless_mask _ Hh2) as Hm2. pose proof (polite_mask false _ Hpol) as Hmr.
  destruct (C74_service setup farewell react ws before i p true (a1 ++ BRun i :: a2) s Hlog Hb Ha E) as (o & w1 & Eh & H). fold L evs in H, Eh.
  destruct (harmless_cmds _ Hh1 _ _ _ (Hhl : healthy (w_wr (set_sock (ws i) (sock_new false)))) Eh) as (-> & Hw1 & Hb1).
  destruct H as [(Hn & _)|(b1 & b2 & o2 & w2 & Hsp & El & H)]; [exfalso; apply Hn, in_or_app; right; now left|].
  destruct (exec_cmds_effect _ _ _ _ Eh) as (K1 & K2 & K3). cbn [set_sock w_in w_log w_sock sock_new s_last] in K1, K2, K3.
  destruct (reply_cmds false _ Hm1 _ _ _ Eh eq_refl Hhl) as (R1 & _ & R3 & _ & R5 & R6).
  cbn [set_sock w_out w_rnd w_rpos] in R3, R5, R6.
  assert (forall m u r, frames_of false m u r = frames_of false m 0 r) as Hfr.
  { intros m u r. revert u. induction r as [|op r IH]; intros u; [reflexivity|]. cbn [frames_of]. unfold used at 1. rewrite Nat.add_0_r. rewrite IH.
    unfold key_at. unfold used. cbn [Nat.add]. reflexivity. }
  assert (forall m a b, frames_of false m 0 (a ++ b) = frames_of false m 0 a ++ frames_of false m 0 b) as Hfa.
  { intros m a b. induction a as [|op a IH]; [reflexivity|]. cbn [app frames_of]. unfold used. cbn [Nat.add]. rewrite IH. now rewrite app_assoc. }
  (* the run on everything that has arrived *)
  set (W := more X w1).
  assert (w_in W = X) as HWin by (unfold W, more, set_in; cbn [w_in]; now rewrite K1, Hin).
  destruct (listen (react i) W) as [o3 w3] eqn:E3.
  assert (exists t, X = barrived i (before ++ BConn i p true :: b1) ++ t) as [t Ht].
  { exists (barrived i (BRun i :: b2)). rewrite <- barrived_app. unfold X, evs. rewrite Hsp. f_equal. rewrite <- app_assoc. reflexivity. }
  assert (w_log w3 = w_log w2 /\ w_out w3 = w_out w2 /\ w_wr w3 = w_wr w2 /\ o3 = o2 /\ w_rnd w3 = w_rnd w2 /\ s_mask (w_sock w3) = s_mask (w_sock w2)) as (Elog & Eout & Ewr & Eo & Ernd & Emk).
  { assert (o2 = Wait -> W = more (barrived i (before ++ BConn i p true :: b1)) w1) as Hwait.
    { intros ->. destruct H as [(_ & Hnr & _)|(? & _)]; [|discriminate].
      unfold W. f_equal. destruct (split_run _ _ _ _ _ Hsp) as [[m ->]|[m ->]].
      - unfold X, evs. rewrite <- app_assoc in Hsp. apply app_inv_head in Hsp. 
        assert (barrived i m = [] /\ barrived i b2 = []) as [Hm0 _].
        { assert (barrived i (BRun i :: a2) = []) as H0 by (cbn; exact Harr). rewrite Hsp, barrived_app in H0. apply app_eq_nil in H0. destruct H0 as [H0 H0']. split; [exact H0|exact H0']. }
        rewrite (app_comm_cons a1), (app_comm_cons a1), !app_assoc, !(barrived_app i _ (BRun i :: a2)), (barrived_app i _ m), Hm0. cbn [barrived flat_map].
        f_equal. exact Harr.
      - exfalso. apply Hnr, in_or_app. right. now left. }
    destruct (match o2 with Wait => true | _ => false end) eqn:Ew.
    - assert (o2 = Wait) as Ho2 by (destruct o2; try discriminate; reflexivity). rewrite (Hwait Ho2), El in E3. injection E3 as -> ->. auto 10.
    - assert (listen (react i) (more t (more (barrived i (before ++ BConn i p true :: b1)) w1)) = (o3, w3)) as E3' by (rewrite more_more, <- Ht; exact E3).
      destruct (C48_causality (react i) _ t _ _ _ _ El E3') as (_ & _ & Hx). destruct Hx as [-> ->]; [left; intros ->; discriminate|]. cbn. auto 10. }
  destruct (listen_exact (react i) W o3 w3) as (new & L1 & L2 & L3 & L4 & L5 & L6 & L7).
  { rewrite HWin. exact Hcl. } { exact Hw1. } { exact Hpol. } { exact Hns. } { change (w_sock W) with (w_sock w1). rewrite Hb1. reflexivity. } { left. exact K3. } { exact E3. }
  rewrite HWin in L3, L4. change (w_sock W) with (w_sock w1) in L2, L3, L4.
  assert (open_of (w_sock w1) = false) as Hop by (unfold open_of; rewrite K3; reflexivity). rewrite Hop in L3, L4.
  change (w_log W) with (w_log w1) in L1. rewrite K2, Hlog in L1. cbn [app] in L1.
  destruct (C49_replies false (react i) W o3 w3) as (new' & N1 & N2 & N3).
  { exact R1. } { exact Hmr. } { rewrite HWin. exact (clean_mask false _ Hcl). } { exact Hw1. } { exact E3. }
  change (w_log W) with (w_log w1) in N1. rewrite K2, Hlog in N1. cbn [app] in N1. rewrite L1 in N1. subst new'.
  change (w_log W) with (w_log w1) in N2. rewrite K2, Hlog in N2. change (w_out W) with (w_out w1) in N2. change (w_rnd W) with (w_rnd w1) in N2.
  rewrite R3, R5, Hout, (Hfr _ (w_rpos W)), (Hfr _ (w_rpos (ws i))) in N2. cbn [app] in N2.
  pose proof (proj2 (addr_cmds _ _ _ _ Eh) eq_refl) as Hal. cbn [set_sock w_sock sock_new s_listener] in Hal.
  exists new. rewrite <- Elog, L1 in H.
  assert (match after_cmds None (hello setup L p) with Some l => transcript new = stream_reading false (bytes_of X) /\ Forall (fun e => fst e = l) new | None => new = [] end) as Hlis.
  { rewrite <- Hal. unfold seen in L3. destruct (s_listener (w_sock w1)) as [l|].
    - split; [exact L3|]. eapply Forall_impl; [|exact L2]. intros e He. cbn in He. congruence.
    - destruct new as [|e new]; [reflexivity|]. inversion L2. discriminate. }
  destruct H as [(Ho2 & _ & Hv & Hs)|(Ho2 & Hv & o4 & w4 & E4 & Hs)].
  - assert (over = false) as ->.
    { unfold over. destruct (stream_ending false (bytes_of X)); try reflexivity; destruct L4 as [L4 _]; congruence. }
    rewrite !app_nil_r. split; [exact Hv|]. split; [exact Hlis|]. rewrite Hs, <- Eout, N2, Hfa. reflexivity.
  - assert (over = true) as ->.
    { unfold over. destruct (stream_ending false (bytes_of X)); try reflexivity; try contradiction; destruct L4 as [L4 _]; congruence. }
    split; [exact Hv|]. split; [exact Hlis|].
    destruct (mask_kept (react i) W o3 w3 Hmr) as [Hmk3 Hrnd3]; [rewrite HWin; exact (clean_mask false _ Hcl)|exact R1|exact Hw1|exact E3|].
    assert (s_mask (w_sock w2) = false) as Hmk2 by congruence.
    assert (w_rnd w2 = w_rnd (ws i)) as Hrnd2 by (rewrite <- Ernd, Hrnd3; exact R3).
    destruct (reply_cmds false _ Hm2 _ _ _ E4 Hmk2) as (_ & _ & _ & _ & Q5 & _); [rewrite <- Ewr; exact L7|].
    rewrite Hs, Q5, Hfr, Hrnd2, <- Eout, N2, !Hfa, <- app_assoc. reflexivity.
Qed.
Print Assumptions C74_completion.

(** * A server with two connections *)
(** Listener 3 answers pings; the instance listener installs it and greets, and says goodbye. *)
Definition demo_setup : nat -> nat -> list cmd := fun l p => [CSetListener (Some 3); CSend true (SoText (Some [x68]))].
Definition demo_farewell : nat -> list cmd := fun l => [CSend true (SoText (Some [x62]))].
Definition demo_world : world := World [] [WAccept 1] [] (fun _ => x00) 0 [] (sock_new false).
Definition demo_evs : list bev :=
  [BSet (Some 9); BConn 0 5 true; BArrive 1 [RData x81 [x01]]; BConn 1 6 true; BRun 1; BArrive 0 [RData x89 [x00; x88; x00]]; BSet None; BRun 0;
   BArrive 1 [RIo IoRetry; RData x61 []]; BRun 1].
Definition demo_react : nat -> react_t := fun _ => echo 10.
Definition demo_end : option bserver := match brun demo_setup demo_farewell demo_react demo_evs (bserver_init (fun _ => demo_world)) with BOk s => Some s | _ => None end.
Example C74_nonvacuous :
  option_map (fun s => (bview 0 s, bsent_to 0 s)) demo_end =
    Some ([NCreate 9 5; NListen; NCall 3 (EvPing []); NCall 3 (EvClose 0 []); NDestroy 9],
          [x81; x01; x68] ++ [x8a; x00] ++ [x88; x02; x00; x00] ++ [x81; x01; x62]) /\
  option_map (fun s => (bview 1 s, bsent_to 1 s)) demo_end =
    Some ([NCreate 9 6; NListen; NCall 3 (EvMsg 1 [x61]); NCall 3 (EvEnd 1)], [x81; x01; x68] ++ [x81; x01; x61]).
Proof. split; vm_compute; reflexivity. Qed.
Example C74_completion_nonvacuous :
  clean (barrived 1 demo_evs) /\ barrived 1 demo_evs = [RData x81 [x01]; RIo IoRetry; RData x61 []] /\
  Forall harmless_cmd (demo_setup 9 6) /\ Forall harmless_cmd (demo_farewell 9) /\ Forall gentle_cmd (demo_farewell 9) /\
  after_cmds None (demo_setup 9 6) = Some 3 /\ polite_react (demo_react 1) /\ never_stops (demo_react 1).
Proof.
  split; [repeat constructor|]. split; [reflexivity|].
  split; [repeat constructor|]. split; [repeat constructor|]. split; [repeat constructor|]. split; [reflexivity|].
  split; [apply echo_polite; lia|]. apply echo_never.
Qed.
(** Nobody takes the bytes any more: a goodbye without a handler brings the server down. *)
Example C75_farewell_nonvacuous :
  brun demo_setup (fun _ => [CSend false (SoText (Some [x62]))]) demo_react
    [BSet (Some 9); BConn 0 5 true; BRun 0; BArrive 0 [RIo IoZero]; BRun 0]
    (bserver_init (fun _ => World [] [WAccept 2; WAccept 1; WIo IoBroken] [] (fun _ => x00) 0 [] (sock_new false))) = BTerminate.
Proof. vm_compute. reflexivity. Qed.
