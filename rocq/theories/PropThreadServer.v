(** C73, C74: a server with one thread per connection. *)
From Verif Require Import Bytes Frame World WebSocket AsyncWebSocket SpecCausal SpecFrame SpecSend SpecListen SpecReply ProofSend Lifecycle Server SpecServer ProofServer
  ThreadServer SpecThreadServer ProofThreadServer ProofApi SpecApi ProofInv ProofCausal PropCausal PropBound PropListen PropListen2 PropReply.

(** * C73 *)
(** What the application sees of a connection and what its peer is sent depend only on the events that concern it. *)
Theorem C73_isolation : forall setup farewell react ws1 ws2 evs1 evs2 i s1 s2, ws1 i = ws2 i -> bown i evs1 = bown i evs2 ->
  brun setup farewell react evs1 (bserver_init ws1) = BOk s1 -> brun setup farewell react evs2 (bserver_init ws2) = BOk s2 ->
  bview i s1 = bview i s2 /\ bsent_to i s1 = bsent_to i s2 /\ b_phase s1 i = b_phase s2 i.
Proof.
  intros setup farewell react ws1 ws2 evs1 evs2 i s1 s2 Hw He E1 E2.
  pose proof (brun_part setup farewell react evs1 _ (binvs_init ws1)) as H1. rewrite E1 in H1. destruct H1 as [_ H1].
  pose proof (brun_part setup farewell react evs2 _ (binvs_init ws2)) as H2. rewrite E2 in H2. destruct H2 as [_ H2].
  specialize (H1 i). specialize (H2 i). rewrite He in H1.
  assert (bpart_of i (bserver_init ws1) = bpart_of i (bserver_init ws2)) as Hp.
  { unfold bpart_of, bserver_init, bview. cbn [b_life b_phase b_log]. now rewrite Hw. }
  rewrite Hp, H2 in H1. injection H1 as _ _ G1 G2. unfold bsent_to. rewrite G1. auto.
Qed.
Print Assumptions C73_isolation.

Definition bno_run (i : nat) (evs : list bev) : Prop := ~ In (BRun i) evs.

Section Serve.
Variable setup : nat -> nat -> list cmd.
Variable farewell : nat -> list cmd.
Variable react : nat -> react_t.
Variable i p : nat.
Variable spawn : bool.
Variable w : world.
Variable before : list bev.
Hypothesis Hlog : w_log w = [].
Notation L := (binstance before).

Definition step1 (x : option bpart) (e : bev) : option bpart := obind x (fun x => if bconcerns i e then bpstep setup farewell react i e x else Some x).
Lemma fold_own evs : forall x, fold_left step1 evs x = fold_left (fun x e => obind x (bpstep setup farewell react i e)) (bown i evs) x.
Proof.
  induction evs as [|e evs IH]; intros x; [reflexivity|]. unfold bown in *. cbn [fold_left filter]. rewrite IH. unfold step1 at 1.
  destruct (bconcerns i e); [reflexivity|]. destruct x; reflexivity.
Qed.

Lemma more_nil u : more [] u = u.
Proof. unfold more, set_in. rewrite app_nil_r. now destruct u. Qed.
Lemma more_more u a b : more b (more a u) = more (a ++ b) u.
Proof. unfold more, set_in. cbn. now rewrite app_assoc. Qed.
Lemma barrived_app a b : barrived i (a ++ b) = barrived i a ++ barrived i b.
Proof. apply flat_map_app. Qed.
Lemma binstance_snoc evs e : binstance (evs ++ [e]) = match e with BSet l => l | _ => binstance evs end.
Proof. unfold binstance. rewrite fold_left_app. reflexivity. Qed.

Lemma fold_before evs : bno_conn i evs ->
  fold_left step1 evs (Some (None, None, PNew w, [])) = Some (binstance evs, None, PNew (more (barrived i evs) w), []).
Proof.
  induction evs as [|e evs IH] using List.rev_ind; intros Hn.
  - cbn. now rewrite more_nil.
  - rewrite fold_left_app, IH by (intros q b H; apply (Hn q b), in_or_app; now left). rewrite binstance_snoc, barrived_app.
    cbn [fold_left step1 obind]. destruct e as [l|j q b|j s|j]; cbn [bconcerns bpstep barrived flat_map]; rewrite ?app_nil_r; try reflexivity.
    + destruct (Nat.eqb_spec j i) as [->|Hj]; [|reflexivity]. exfalso. apply (Hn q b), in_or_app. right. now left.
    + destruct (Nat.eqb j i); rewrite ?app_nil_r; [|reflexivity]. cbn [arrive_phase]. now rewrite more_more.
    + destruct (Nat.eqb j i); reflexivity.
Qed.

Notation start := (set_sock w (sock_new false)).
Notation arr after := (barrived i (before ++ BConn i p spawn :: after)).

(** The connection after [after]. *)
Inductive served (after : list bev) : bpart -> Prop :=
| sv_refused M o w1 a x : exec_cmds (hello setup L p) start = (o, w1) -> (forall u, o <> Ret u) -> x = POver (more a w1) \/ x = PStuck (more a w1) ->
    served after (M, None, x, created L p)
| sv_nothread M w1 a o3 w3 x : exec_cmds (hello setup L p) start = (Ret tt, w1) -> spawn = false ->
    exec_cmds (bye farewell L) w1 = (o3, w3) -> x = POver (more a w3) \/ x = PStuck (more a w3) ->
    served after (M, None, x, created L p ++ destroyed L)
| sv_ready M w1 : exec_cmds (hello setup L p) start = (Ret tt, w1) -> spawn = true -> bno_run i after ->
    served after (M, L, PReady (more (arr after) w1), created L p)
| sv_listen M w1 after1 after2 w2 : exec_cmds (hello setup L p) start = (Ret tt, w1) -> spawn = true ->
    after = after1 ++ BRun i :: after2 -> bno_run i after2 -> listen (react i) (more (arr after1) w1) = (Wait, w2) ->
    served after (M, L, PListen (more (arr after) w1) w2, created L p ++ NListen :: called (w_log w2))
| sv_over M w1 after1 after2 w2 o3 w3 x : exec_cmds (hello setup L p) start = (Ret tt, w1) -> spawn = true ->
    after = after1 ++ BRun i :: after2 -> listen (react i) (more (arr after1) w1) = (Ret tt, w2) ->
    exec_cmds (bye farewell L) w2 = (o3, w3) -> x = POver w3 \/ x = PStuck w3 ->
    served after (M, None, x, created L p ++ NListen :: called (w_log w2) ++ destroyed L).

Lemma cmds_more cs t u o u' : exec_cmds cs u = (o, u') -> exec_cmds cs (more t u) = (o, more t u').
Proof. intros E. pose proof (blind_cmds cs) as H. now apply H. Qed.

Lemma served_conn x : bno_conn i before -> fold_left step1 (before ++ [BConn i p spawn]) (Some (None, None, PNew w, [])) = Some x -> served [] x.
Proof.
  intros Hn. rewrite fold_left_app, fold_before by exact Hn. cbn [fold_left step1 obind bconcerns]. rewrite Nat.eqb_refl. cbn [bpstep].
  set (a := barrived i before).
  change (set_sock (more a w) (sock_new false)) with (more a start).
  destruct (exec_cmds (hello setup L p) start) as [o w1] eqn:E. rewrite (cmds_more _ a _ _ _ E).
  destruct o as [[]|e| |u|]; try discriminate; cbn [app].
  - destruct spawn eqn:Hs.
    + intros H. injection H as <-. replace a with (barrived i (before ++ [BConn i p true])) by (rewrite barrived_app; cbn; apply app_nil_r).
      rewrite <- Hs. apply sv_ready; [exact E|exact Hs|intros []].
    + unfold pend. destruct (exec_cmds (bye farewell L) w1) as [o3 w3] eqn:E3. rewrite (cmds_more _ a _ _ _ E3).
      destruct o3 as [[]|e| |u|]; try discriminate; intros H; injection H as <-; eapply sv_nothread; eauto.
  - intros H. assert (x = (L, None, POver (more a w1), created L p)) as -> by (revert H; clear; destruct L; [intros H; now injection H as <-|discriminate]).
    eapply sv_refused; [exact E|discriminate|left; reflexivity].
  - intros H. assert (x = (L, None, PStuck (more a w1), created L p)) as -> by (revert H; clear; destruct L; [intros H; now injection H as <-|discriminate]).
    eapply sv_refused; [exact E|discriminate|right; reflexivity].
Qed.

Lemma arr_snoc after e : arr (after ++ [e]) = arr after ++ barrived i [e].
Proof. rewrite <- barrived_app. f_equal. now rewrite <- app_assoc. Qed.
Lemma more_same_log t u : w_log (more t u) = w_log u.
Proof. reflexivity. Qed.

Lemma log_w1 w1 o : exec_cmds (hello setup L p) start = (o, w1) -> w_log w1 = [].
Proof. intros E. apply exec_cmds_log in E. rewrite E. exact Hlog. Qed.

Lemma no_run_snoc after e : bno_run i after -> e <> BRun i -> bno_run i (after ++ [e]).
Proof. intros H He Hin. apply in_app_or in Hin. destruct Hin as [Hin|[Hin|[]]]; [now apply H|congruence]. Qed.

Lemma served_step after x e y : (forall q b, e <> BConn i q b) -> served after x -> step1 (Some x) e = Some y -> served (after ++ [e]) y.
Proof.
  intros Hn H. cbn [step1 obind].
  (* events that are not a run of this connection *)
  assert (e <> BRun i -> forall M', served (after ++ [e]) (M', snd (fst (fst x)), arrive_phase (barrived i [e]) (snd (fst x)), snd x)) as Hother.
  { intros He M'. destruct H as [M o w1 a x Eh Ho Hx|M w1 a o3 w3 x Eh Hs E3 Hx|M w1 Eh Hs Hr|M w1 a1 a2 w2 Eh Hs Ha Hr El|M w1 a1 a2 w2 o3 w3 x Eh Hs Ha El E3 Hx];
      cbn [fst snd arrive_phase].
    - eapply (sv_refused _ M' o w1 a); [exact Eh|exact Ho|]. destruct Hx as [-> | ->]; auto.
    - eapply (sv_nothread _ M' w1 a); [exact Eh|exact Hs|exact E3|]. destruct Hx as [-> | ->]; auto.
    - rewrite more_more, <- arr_snoc. apply sv_ready; [exact Eh|exact Hs|now apply no_run_snoc].
    - rewrite more_more, <- arr_snoc. eapply (sv_listen _ M' w1 a1 (a2 ++ [e])); [exact Eh|exact Hs|rewrite Ha, <- app_assoc; reflexivity|now apply no_run_snoc|exact El].
    - eapply (sv_over _ M' w1 a1 (a2 ++ [e]) w2 o3 w3); [exact Eh|exact Hs|rewrite Ha, <- app_assoc; reflexivity|exact El|exact E3|].
      destruct Hx as [-> | ->]; auto. }
  assert (forall z, arrive_phase [] z = z) as Hnil by (intros []; cbn [arrive_phase]; now rewrite ?more_nil).
  destruct x as [[[M l] ph] v]. cbn [fst snd] in Hother.
  destruct e as [l'|j q b|j s|j]; cbn [bconcerns bpstep].
  - intros E. injection E as <-. specialize (Hother ltac:(discriminate) l'). cbn [barrived flat_map] in Hother. now rewrite Hnil in Hother.
  - destruct (Nat.eqb_spec j i) as [->|Hj]; [exfalso; now apply (Hn q b)|]. intros E. injection E as <-.
    specialize (Hother ltac:(discriminate) M). cbn [barrived flat_map] in Hother. now rewrite Hnil in Hother.
  - specialize (Hother ltac:(discriminate) M). cbn [barrived flat_map] in Hother. rewrite app_nil_r in Hother.
    destruct (Nat.eqb j i); intros E; injection E as <-; [exact Hother|]. now rewrite Hnil in Hother.
  - destruct (Nat.eqb_spec j i) as [->|Hj].
    2: { intros E. injection E as <-. specialize (Hother ltac:(congruence) M). cbn [barrived flat_map] in Hother. now rewrite Hnil in Hother. }
    clear Hother.
    assert (forall M' w1 u0 v0, exec_cmds (hello setup L p) start = (Ret tt, w1) -> spawn = true ->
      (forall o' w', listen (react i) (more (arr after) w1) = (o', w') -> v0 ++ called (skipn (length (w_log u0)) (w_log w')) = created L p ++ NListen :: called (w_log w')) ->
      pgo farewell react i M' L (more (arr after) w1) u0 v0 = Some y -> served (after ++ [BRun i]) y) as Hgo.
    { intros M' w1 u0 v0 Eh Hs Hv. unfold pgo. destruct (listen (react i) (more (arr after) w1)) as [o2 w2] eqn:El. specialize (Hv o2 w2 eq_refl).
      destruct o2 as [[]|e| |u|]; try discriminate.
      - unfold pend. rewrite Hv. destruct (exec_cmds (bye farewell L) w2) as [o3 w3] eqn:E3.
        replace ((created L p ++ NListen :: called (w_log w2)) ++ destroyed L) with (created L p ++ NListen :: called (w_log w2) ++ destroyed L) by (rewrite <- app_assoc; reflexivity).
        destruct o3 as [[]|e| |u|]; try discriminate; intros E; injection E as <-; eapply (sv_over _ M' w1 after []); eauto.
      - rewrite Hv. intros E. injection E as <-.
        assert (arr after = arr (after ++ [BRun i])) as Harr by (rewrite arr_snoc; cbn; symmetry; apply app_nil_r).
        assert (served (after ++ [BRun i]) (M', L, PListen (more (arr (after ++ [BRun i])) w1) w2, created L p ++ NListen :: called (w_log w2))) as HS
          by (eapply (sv_listen _ M' w1 after []); eauto; intros []).
        rewrite <- Harr in HS. exact HS. }
    remember (M, l, ph, v) as x eqn:Ex.
    destruct H as [M0 o w1 a x Eh Ho Hx|M0 w1 a o3 w3 x Eh Hs E3 Hx|M0 w1 Eh Hs Hr|M0 w1 a1 a2 w2 Eh Hs Ha Hr El|M0 w1 a1 a2 w2 o3 w3 x Eh Hs Ha El E3 Hx];
      injection Ex as <- <- <- <-.
    + destruct Hx as [Hx|Hx]; rewrite Hx; intros E; injection E as <-; eapply (sv_refused _ M0 o w1 a); eauto.
    + destruct Hx as [Hx|Hx]; rewrite Hx; intros E; injection E as <-; eapply (sv_nothread _ M0 w1 a); eauto.
    + eapply Hgo; [exact Eh|exact Hs|]. intros o' w' El. rewrite more_same_log, (log_w1 _ _ Eh). cbn [length skipn]. rewrite <- app_assoc. reflexivity.
    + eapply Hgo; [exact Eh|exact Hs|]. intros o' w' El'.
      assert (exists t, arr after = arr a1 ++ t) as [t Ht].
      { exists (barrived i (BRun i :: a2)). rewrite <- barrived_app, Ha. f_equal. rewrite <- app_assoc. reflexivity. }
      rewrite Ht, <- more_more in El'.
      destruct (C48_causality (react i) _ t _ _ _ _ El El') as ([n Hlg] & _). rewrite Hlg, skipn_app_len. unfold called. rewrite map_app, <- app_assoc. reflexivity.
    + assert (after ++ [BRun i] = a1 ++ BRun i :: a2 ++ [BRun i]) as Ha' by (rewrite Ha, <- app_assoc; reflexivity).
      destruct Hx as [Hx|Hx]; rewrite Hx; intros E; injection E as <-; eapply (sv_over _ M0 w1 a1 (a2 ++ [BRun i])); eauto.
Qed.

Lemma fold_step1_none evs : fold_left step1 evs None = None.
Proof. induction evs; [reflexivity|assumption]. Qed.
Lemma served_fold after x : bno_conn i before -> bno_conn i after ->
  fold_left step1 (before ++ BConn i p spawn :: after) (Some (None, None, PNew w, [])) = Some x -> served after x.
Proof.
  intros Hb. revert x. induction after as [|e after IH] using List.rev_ind; intros x Ha E.
  - now apply served_conn.
  - change (BConn i p spawn :: after ++ [e]) with ((BConn i p spawn :: after) ++ [e]) in E. rewrite app_assoc, fold_left_app in E.
    destruct (fold_left step1 (before ++ BConn i p spawn :: after) (Some (None, None, PNew w, []))) as [y|] eqn:Ey; [|discriminate].
    eapply served_step; [|apply IH; [|reflexivity]|exact E].
    + intros q b ->. apply (Ha q b), in_or_app. right. now left.
    + intros q b H. apply (Ha q b), in_or_app. now left.
Qed.
End Serve.

(** * C74 *)
(** Exactly what the application sees of a connection and what its peer is sent: the instance listener's two calls around a
    listen() on everything that has arrived, the second exactly when listen() has returned; neither thread nor second call if
    the first one threw; the second at once if no thread can be created. *)
Theorem C74_service : forall setup farewell react ws before i p spawn after s, w_log (ws i) = [] -> bno_conn i before -> bno_conn i after ->
  let evs := before ++ BConn i p spawn :: after in let L := binstance before in
  brun setup farewell react evs (bserver_init ws) = BOk s ->
  exists o w1, exec_cmds (hello setup L p) (set_sock (ws i) (sock_new false)) = (o, w1) /\
  match o with
  | Ret _ =>
    if spawn then
      (bno_run i after /\ bview i s = created L p /\ bsent_to i s = w_out w1) \/
      exists after1 after2 o2 w2, after = after1 ++ BRun i :: after2 /\
        listen (react i) (more (barrived i (before ++ BConn i p spawn :: after1)) w1) = (o2, w2) /\
        ((o2 = Wait /\ bno_run i after2 /\ bview i s = created L p ++ NListen :: called (w_log w2) /\ bsent_to i s = w_out w2) \/
         (o2 = Ret tt /\ bview i s = created L p ++ NListen :: called (w_log w2) ++ destroyed L /\
          exists o3 w3, exec_cmds (bye farewell L) w2 = (o3, w3) /\ bsent_to i s = w_out w3))
    else bview i s = created L p ++ destroyed L /\ exists o3 w3, exec_cmds (bye farewell L) w1 = (o3, w3) /\ bsent_to i s = w_out w3
  | _ => bview i s = created L p /\ bsent_to i s = w_out w1
  end.
Proof.
  intros setup farewell react ws before i p spawn after s Hlog Hb Ha evs L E.
  pose proof (brun_part setup farewell react evs _ (binvs_init ws)) as H. rewrite E in H. destruct H as [_ H]. specialize (H i).
  unfold bpfold in H. rewrite <- fold_own in H. change (bpart_of i (bserver_init ws)) with (None : option nat, None : option nat, PNew (ws i), [] : list seen_ev) in H.
  apply served_fold in H; [|exact Hlog|exact Hb|exact Ha]. unfold bpart_of in H. unfold bsent_to.
  remember (h_listener (b_life s), obj_l (h_objs (b_life s) i), b_phase s i, bview i s) as y eqn:Ey.
  destruct H as [M o w1 a x Eh Ho Hx|M w1 a o3 w3 x Eh Hs E3 Hx|M w1 Eh Hs Hr|M w1 a1 a2 w2 Eh Hs Hsp Hr El|M w1 a1 a2 w2 o3 w3 x Eh Hs Hsp El E3 Hx];
    injection Ey as -> _ Hph Hv; rewrite <- Hv.
  - exists o, w1. split; [exact Eh|]. rewrite <- Hph. destruct o; [destruct (Ho a0 eq_refl)|..]; (split; [reflexivity|]); destruct Hx as [-> | ->]; reflexivity.
  - exists (Ret tt), w1. split; [exact Eh|]. rewrite Hs. split; [reflexivity|]. exists o3, w3. split; [exact E3|]. rewrite <- Hph. destruct Hx as [-> | ->]; reflexivity.
  - exists (Ret tt), w1. split; [exact Eh|]. rewrite Hs. left. rewrite <- Hph. auto.
  - exists (Ret tt), w1. split; [exact Eh|]. rewrite Hs in *. right. exists a1, a2, Wait, w2. rewrite <- Hph. split; [exact Hsp|]. split; [exact El|]. left. auto.
  - exists (Ret tt), w1. split; [exact Eh|]. rewrite Hs in *. right. exists a1, a2, (Ret tt), w2. split; [exact Hsp|]. split; [exact El|]. right.
    split; [reflexivity|]. split; [reflexivity|]. exists o3, w3. split; [exact E3|]. rewrite <- Hph. destruct Hx as [-> | ->]; reflexivity.
Qed.
Print Assumptions C74_service.
