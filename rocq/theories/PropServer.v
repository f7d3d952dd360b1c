(** C67, C68: connections of a server do not influence each other, and each is served as if it were alone. *)
From Verif Require Import Bytes Frame World WebSocket AsyncWebSocket Lifecycle Server SpecServer.
From Verif Require Import SpecFrame SpecSend SpecListen SpecApi SpecAsync SpecReply ProofAsync2 PropAsync PropAsync2 PropAsync3 ProofServer.
Local Open Scope nat_scope.

(** * C67 *)

(** However connections come, go and interleave, nothing undefined happens in the handler, and what the application sees
    of a connection, what its peer is sent and the state of its socket depend only on the events that concern it. *)
Theorem C67_isolation : forall setup react ws1 ws2 evs1 evs2 i, ws1 i = ws2 i -> own i evs1 = own i evs2 ->
  exists s1 s2, vrun setup react evs1 (server_init ws1) = Some s1 /\ vrun setup react evs2 (server_init ws2) = Some s2 /\
    view i s1 = view i s2 /\ sent_to i s1 = sent_to i s2 /\ v_run s1 i = v_run s2 i.
Proof.
  intros setup react ws1 ws2 evs1 evs2 i Hw He.
  destruct (vrun_part setup react evs1 _ (sinv_init ws1)) as (s1 & E1 & _ & H1).
  destruct (vrun_part setup react evs2 _ (sinv_init ws2)) as (s2 & E2 & _ & H2).
  exists s1, s2. split; [exact E1|]. split; [exact E2|]. specialize (H1 i). specialize (H2 i).
  rewrite He in H1. assert (part_of i (server_init ws1) = part_of i (server_init ws2)) as Hp.
  { unfold part_of, server_init, view. cbn [v_life v_run v_log]. now rewrite Hw. }
  rewrite Hp, <- H2 in H1. unfold part_of in H1. unfold sent_to.
  injection H1 as _ _ G1 G2. rewrite G1. auto.
Qed.
Print Assumptions C67_isolation.

(** * C68 *)

Definition log_of (r : status * conf) : list (nat * event) := w_log (c_world (snd r)).
Lemma called_app a b : called (a ++ b) = called a ++ called b.
Proof. apply map_app. Qed.
Lemma arrivals_app a b : arrivals (a ++ b) = arrivals a ++ arrivals b.
Proof. induction a as [|[|s] a IH]; cbn [app arrivals]; [reflexivity|exact IH|]. now rewrite IH, app_assoc. Qed.
Lemma tick_grows r x : log_of (tick r x) = log_of x ++ calls_since x (tick r x).
Proof.
  unfold log_of, calls_since. destruct x as [st c]. destruct (tick r (st, c)) as [st' c'] eqn:E.
  destruct (run_grows r [Tick] st c st' c' E) as [m Hm]. cbn [snd]. rewrite Hm, skipn_app_len. reflexivity.
Qed.

Section Own.
Variable i : nat.
Lemma pfold_arr a e : arrived i (a ++ e) = arrived i a ++ arrived i e.
Proof. apply flat_map_app. Qed.

(** Only events of connection [i]. *)
Definition mine (evs : list vev) : Prop := Forall (fun e => concerns i e = true) evs.
Lemma own_mine evs : mine (own i evs).
Proof. apply Forall_forall. intros e H. apply filter_In in H. tauto. Qed.
Lemma own_arrived evs : arrived i (own i evs) = arrived i evs.
Proof.
  induction evs as [|e evs IH]; [reflexivity|]. unfold own in *. cbn [filter].
  destruct e as [l|j p|j|j s|j]; cbn [concerns]; try destruct (Nat.eqb j i) eqn:Ej; unfold arrived in *; cbn [flat_map] in *; rewrite ?Ej, ?IH; reflexivity.
Qed.
Lemma own_in e evs : concerns i e = true -> In e (own i evs) <-> In e evs.
Proof. intros H. unfold own. rewrite filter_In. tauto. Qed.
Lemma own_no_conn evs : no_conn i evs -> no_conn i (own i evs).
Proof. intros H q Hq. apply (H q). unfold own in Hq. apply filter_In in Hq. tauto. Qed.
Lemma own_app a b : own i (a ++ b) = own i a ++ own i b.
Proof. apply filter_app. Qed.
Lemma own_listener evs : instance_listener (own i evs) = instance_listener evs.
Proof.
  unfold instance_listener. generalize (@None nat). induction evs as [|e evs IH]; intros l; [reflexivity|]. unfold own in *. cbn [filter].
  destruct e as [l'|j p|j|j s|j]; cbn [concerns]; try destruct (Nat.eqb j i); cbn [fold_left]; apply IH.
Qed.

End Own.

Section Serve.
Variable setup : nat -> nat -> option (list ext).
Variable react : nat -> react_t.
Variable i : nat.
Variable w : world.
Hypothesis Hlog : w_log w = [].

Notation pst := (pstep setup react i).
Notation fold := (fold_left (fun x e => pst e x)).

Definition before_conn (evs : list vev) : part := (instance_listener evs, None, (ARun, Conf header_init [] [] (give w (arrived i evs))), []).

Lemma give_nil : give w [] = w.
Proof. unfold give, set_in. rewrite app_nil_r. now destruct w. Qed.
Lemma give_give u a b : give (give u a) b = give u (a ++ b).
Proof. unfold give, set_in. cbn. now rewrite app_assoc. Qed.

Lemma fold_before evs : mine i evs -> no_conn i evs -> fold evs (None, None, (ARun, Conf header_init [] [] w), []) = before_conn evs.
Proof.
  induction evs as [|e evs IH] using List.rev_ind; intros Hm Hn.
  - unfold before_conn. cbn. now rewrite give_nil.
  - apply Forall_app in Hm. destruct Hm as [Hm He]. inversion He as [|? ? He' _]; subst.
    rewrite fold_left_app, IH; [|exact Hm|intros p H; apply (Hn p), in_or_app; now left].
    unfold before_conn. rewrite pfold_arr. unfold instance_listener. rewrite fold_left_app.
    destruct e as [l|j p|j|j s|j]; cbn [fold_left pstep concerns arrived flat_map] in *; rewrite ?app_nil_r; try reflexivity.
    + exfalso. apply Nat.eqb_eq in He'. subst. apply (Hn p), in_or_app. right. now left.
    + rewrite He', ?app_nil_r. cbn [fst snd]. unfold arrive. cbn [c_hdr c_short c_stack c_world]. do 4 f_equal. apply give_give.
Qed.

Definition machine (xs : list ext) (sched : list xev) : status * conf :=
  run (react i) sched (ARun, start_listen (set_sock w (served_sock xs))).

(** Phases of a connection, [a]: what has arrived, [d]: whether its coroutine has been dropped. *)
Inductive phase (L : option nat) (p : nat) (a : list rev) (d : bool) : part -> Prop :=
| PWait M : phase L p a d (M, Some (p, L, false), (ARun, Conf header_init [] [] (give w a)), [])
| PGone M r : d = true -> phase L p a d (M, None, r, [])
| PThrew M r : plan setup L p = None -> phase L p a d (M, None, r, created L p ++ destroyed L)
| PRun M xs sched : plan setup L p = Some xs -> arrivals sched = a -> ended (fst (machine xs sched)) = false ->
    phase L p a d (M, Some (p, L, true), machine xs sched, created L p ++ NListen :: called (log_of (machine xs sched)))
| PDone M xs sched : plan setup L p = Some xs -> arrivals sched = a -> ended (fst (machine xs sched)) = true \/ d = true ->
    phase L p a d (M, None, machine xs sched, created L p ++ NListen :: called (log_of (machine xs sched)) ++ destroyed L).

Lemma machine_tick xs sched : machine xs (sched ++ [Tick]) = tick (react i) (machine xs sched).
Proof. unfold machine. rewrite run_app. reflexivity. Qed.
Lemma machine_arrive xs sched s : machine xs (sched ++ [Arrive s]) = (fst (machine xs sched), arrive s (snd (machine xs sched))).
Proof. unfold machine. rewrite run_app. reflexivity. Qed.

Lemma phase_step L p a d e x : concerns i e = true -> (forall q, e <> VConn i q) -> phase L p a d x ->
  phase L p (a ++ arrived i [e]) (d || match e with VDrop _ => true | _ => false end) (pst e x).
Proof.
  intros Hc Hn H. destruct e as [l|j q|j|j s|j]; cbn [concerns] in Hc; try (apply Nat.eqb_eq in Hc; subst j);
    cbn [arrived flat_map]; rewrite ?Nat.eqb_refl, ?app_nil_r, ?orb_false_r, ?orb_true_r.
  - inversion H; subst; cbn [pstep]; econstructor; eauto.
  - exfalso. now apply (Hn q).
  - inversion H; subst; cbn [pstep]; try (econstructor; eauto; fail).
    + destruct (plan setup L p) as [xs|] eqn:Ep; [|cbn [app]; now constructor].
      cbn [snd c_world app]. assert (machine xs [Arrive a] = (ARun, start_listen (set_sock (give w a) (served_sock xs)))) as E by reflexivity.
      rewrite <- E. replace [NListen] with (NListen :: called (log_of (machine xs [Arrive a]))) by (rewrite E; unfold log_of; cbn; now rewrite Hlog).
      apply PRun; [exact Ep|cbn; now rewrite app_nil_r|reflexivity].
    + cbv zeta. rewrite <- machine_tick.
      destruct (ended (fst (machine xs (sched ++ [Tick])))) eqn:Ee.
      * rewrite <- app_assoc. cbn [app]. rewrite app_assoc, <- called_app. rewrite machine_tick at 2. rewrite <- tick_grows, <- machine_tick.
        apply PDone; [assumption|rewrite arrivals_app; apply app_nil_r|now left].
      * rewrite <- app_assoc. cbn [app]. rewrite <- called_app. rewrite machine_tick at 2. rewrite <- tick_grows, <- machine_tick.
        apply PRun; [assumption|rewrite arrivals_app; apply app_nil_r|assumption].
  - inversion H; subst; cbn [pstep].
    + unfold arrive. cbn [fst snd c_hdr c_short c_stack c_world]. change (set_in (give w a) (w_in (give w a) ++ s)) with (give (give w a) s).
      rewrite give_give. constructor.
    + now constructor.
    + now constructor.
    + rewrite <- machine_arrive. replace (log_of (machine xs sched)) with (log_of (machine xs (sched ++ [Arrive s]))) by (now rewrite machine_arrive).
      apply PRun; [assumption|rewrite arrivals_app; cbn; now rewrite app_nil_r|now rewrite machine_arrive].
    + rewrite <- machine_arrive. replace (log_of (machine xs sched)) with (log_of (machine xs (sched ++ [Arrive s]))) by (now rewrite machine_arrive).
      apply PDone; [assumption|rewrite arrivals_app; cbn; now rewrite app_nil_r|now rewrite machine_arrive].
  - inversion H; subst; cbn [pstep app].
    + now constructor.
    + now constructor.
    + now constructor.
    + rewrite <- app_assoc. cbn [app]. apply PDone; auto.
    + apply PDone; auto.
Qed.

Definition dropped (evs : list vev) : bool := existsb (fun e => match e with VDrop j => Nat.eqb j i | _ => false end) evs.
Lemma phase_fold L p evs : mine i evs -> no_conn i evs -> forall a d x, phase L p a d x -> phase L p (a ++ arrived i evs) (d || dropped evs) (fold evs x).
Proof.
  induction evs as [|e evs IH]; intros Hm Hn a d x H; cbn [fold_left].
  - cbn [arrived flat_map dropped existsb]. now rewrite app_nil_r, orb_false_r.
  - inversion Hm as [|? ? He Hm']; subst. change (e :: evs) with ([e] ++ evs). rewrite pfold_arr, app_assoc.
    unfold dropped. rewrite existsb_app. rewrite orb_assoc. apply IH; [exact Hm'|intros q Hq; apply (Hn q); now right|].
    replace (existsb _ [e]) with (match e with VDrop _ => true | _ => false end).
    + apply phase_step; [exact He| |exact H]. intros q ->. apply (Hn q). now left.
    + cbn [existsb]. destruct e; cbn [concerns] in He; rewrite ?He; reflexivity.
Qed.
End Serve.

(** A connection handled once. *)
Definition handled_once (i p : nat) (before after : list vev) : Prop := no_conn i before /\ no_conn i after.

Lemma serve_phase setup react ws before i p after : w_log (ws i) = [] -> no_conn i before -> no_conn i after ->
  exists s, vrun setup react (before ++ VConn i p :: after) (server_init ws) = Some s /\
    phase setup react i (ws i) (instance_listener before) p (arrived i (before ++ VConn i p :: after)) (dropped i after) (part_of i s).
Proof.
  intros Hlog H1 H2. destruct (vrun_part setup react (before ++ VConn i p :: after) _ (sinv_init ws)) as (s & E & _ & HP).
  exists s. split; [exact E|]. rewrite HP. rewrite own_app. change (VConn i p :: after) with ([VConn i p] ++ after).
  rewrite own_app, !fold_left_app. replace (own i [VConn i p]) with [VConn i p] by (unfold own; cbn; now rewrite Nat.eqb_refl).
  replace (part_of i (server_init ws)) with (None : option nat, None : option (nat * option nat * bool), (ARun, Conf header_init [] [] (ws i)), [] : list seen_ev) by reflexivity.
  rewrite fold_before; [|exact Hlog|apply own_mine|now apply own_no_conn].
  unfold before_conn. cbn [fold_left pstep]. rewrite own_listener, own_arrived.
  replace (arrived i (before ++ [VConn i p] ++ after)) with (arrived i before ++ arrived i (own i after)).
  2: { rewrite own_arrived, !pfold_arr. reflexivity. }
  replace (dropped i after) with (false || dropped i (own i after)).
  2: { cbn [orb]. clear. induction after as [|e after IH]; [reflexivity|]. unfold own in *. cbn [filter].
       destruct e as [l|j q|j|j x|j]; cbn [concerns]; try destruct (Nat.eqb j i) eqn:Ej; unfold dropped in *; cbn [existsb] in *; rewrite ?Ej, ?IH; reflexivity. }
  apply phase_fold; [exact Hlog|apply own_mine|now apply own_no_conn|].
  constructor.
Qed.

(** The application's view of a connection: nothing yet, or its setup threw, or the calls of a socket that has been
    listening to everything that arrived, as if it were alone, framed by the instance listener's two calls, the second of
    which comes exactly when the socket is done or the coroutine is dropped. *)
Theorem C68_service : forall setup react ws before i p after, w_log (ws i) = [] -> no_conn i before -> no_conn i after ->
  let evs := before ++ VConn i p :: after in let L := instance_listener before in
  exists s, vrun setup react evs (server_init ws) = Some s /\
    (view i s = [] \/
     (plan setup L p = None /\ view i s = created L p ++ destroyed L) \/
     exists xs sched st c d, plan setup L p = Some xs /\ arrivals sched = arrived i evs /\
       run (react i) sched (ARun, start_listen (set_sock (ws i) (served_sock xs))) = (st, c) /\
       view i s = created L p ++ NListen :: called (w_log (c_world c)) ++ d /\ sent_to i s = w_out (c_world c) /\
       (d = [] /\ ended st = false \/ d = destroyed L /\ (ended st = true \/ In (VDrop i) after))).
Proof.
  intros setup react ws before i p after Hlog H1 H2 evs L.
  destruct (serve_phase setup react ws before i p after Hlog H1 H2) as (s & E & HP).
  exists s. split; [exact E|]. unfold part_of in HP. unfold sent_to.
  assert (dropped i after = true -> In (VDrop i) after) as Hd.
  { unfold dropped. intros H. apply existsb_exists in H. destruct H as ([l|j q|j|j x|j] & Hin & Hx); try discriminate.
    apply Nat.eqb_eq in Hx. now subst. }
  inversion HP; subst.
  - now left.
  - now left.
  - right. left. auto.
  - right. right. destruct (machine react i (ws i) xs sched) as [st c] eqn:Em. exists xs, sched, st, c, [].
    rewrite app_nil_r. unfold log_of. cbn [fst snd]. repeat (split; [solve [auto]|]). left. auto.
  - right. right. destruct (machine react i (ws i) xs sched) as [st c] eqn:Em. exists xs, sched, st, c, (destroyed (instance_listener before)).
    unfold log_of. cbn [fst snd]. repeat (split; [solve [auto]|]). right. split; [reflexivity|]. tauto.
Qed.
Print Assumptions C68_service.

(** ** What the application gets *)
Lemma served_fields xs : s_listening (served_sock xs) = false /\ s_last (served_sock xs) = (-1)%Z.
Proof.
  unfold served_sock. induction xs as [|x xs IH] using List.rev_ind; [split; reflexivity|]. rewrite fold_left_app. cbn [fold_left].
  destruct IH as [H1 H2]. destruct x; cbn [apply_ext set_listening set_listener set_config s_listening s_last]; auto.
Qed.

(** A connection on which nothing has happened yet. *)
Definition fresh_conn (w : world) : Prop := w_in w = [] /\ w_out w = [] /\ w_log w = [].

(** Whatever arrives on it (data, retries, failures), whatever the listener sends or throws, whatever happens elsewhere and
    whenever it is dropped: the listener it was given is called with a prefix of what the received bytes say. *)
Theorem C68_faithful : forall setup react ws before i p after, fresh_conn (ws i) -> no_conn i before -> no_conn i after ->
  let evs := before ++ VConn i p :: after in let L := instance_listener before in
  io_only (arrived i evs) -> user_react (react i) ->
  exists s, vrun setup react evs (server_init ws) = Some s /\
    (view i s = [] \/
     (plan setup L p = None /\ view i s = created L p ++ destroyed L) \/
     exists xs log d, plan setup L p = Some xs /\
       view i s = created L p ++ NListen :: called log ++ d /\ (d = [] \/ d = destroyed L) /\
       Forall (fun e => s_listener (served_sock xs) = Some (fst e)) log /\
       prefix (transcript log) (stream_reading false (bytes_of (arrived i evs)))).
Proof.
  intros setup react ws before i p after (Hin & _ & Hlog) H1 H2 evs L Hio Hu.
  destruct (C68_service setup react ws before i p after Hlog H1 H2) as (s & E & H). fold evs L in E, H.
  exists s. split; [exact E|]. destruct H as [H|[H|H]]; [now left|right; now left|right; right].
  destruct H as (xs & sched & st & c & d & Hp & Ha & Er & Hv & _ & Hd).
  destruct (served_fields xs) as [F1 F2].
  destruct (C53_only_a_prefix (react i) (set_sock (ws i) (served_sock xs)) sched st c) as (new & N1 & N2 & N3).
  - exact F1.
  - cbn [w_in set_sock]. rewrite Hin. constructor.
  - now rewrite Ha.
  - exact Hu.
  - left. exact F2.
  - exact Er.
  - cbn [w_in set_sock w_log w_sock] in *. rewrite Hlog in N1. cbn [app] in N1. rewrite Hin, Ha in N3. cbn [app] in N3.
    exists xs, new, d. rewrite <- N1. split; [exact Hp|]. split; [exact Hv|]. split; [tauto|]. rewrite N1. split; [exact N2|].
    replace (open_of (served_sock xs)) with false in N3 by (unfold open_of; now rewrite F2). exact N3.
Qed.
Print Assumptions C68_faithful.

(** ** Completion *)
Section Settle.
Variable setup : nat -> nat -> option (list ext).
Variable react : nat -> react_t.
Variables (i p : nat) (w : world) (L : option nat) (xs : list ext).
Hypothesis Hp : plan setup L p = Some xs.
Notation pst := (pstep setup react i).
Notation mach := (machine react i w xs).

Definition settled (sched : list xev) (x : part) : Prop := exists M,
  x = (M, if ended (fst (mach sched)) then None else Some (p, L, true), mach sched,
       created L p ++ NListen :: called (log_of (mach sched)) ++ if ended (fst (mach sched)) then destroyed L else []).

Lemma ticks_snoc n : ticks n ++ [Tick] = ticks (S n).
Proof. induction n as [|n IH]; [reflexivity|]. cbn [ticks app]. now rewrite IH. Qed.
Lemma tick_ended r x : ended (fst x) = true -> tick r x = x.
Proof. destruct x as [[] c]; cbn; congruence. Qed.

Lemma settled_step sched x : settled sched x -> settled (sched ++ [Tick]) (pst (VStep i) x).
Proof.
  intros [M ->]. exists M. rewrite machine_tick. destruct (ended (fst (mach sched))) eqn:Ee.
  - rewrite tick_ended by exact Ee. rewrite Ee. reflexivity.
  - cbn [pstep]. cbv zeta. destruct (ended (fst (tick (react i) (mach sched)))) eqn:Ef; rewrite (tick_grows _ (mach sched)), called_app, ?app_nil_r.
    + rewrite <- !app_assoc. reflexivity.
    + rewrite <- !app_assoc. reflexivity.
Qed.
Lemma settled_set sched l x : settled sched x -> settled sched (pst (VSet l) x).
Proof. intros [M ->]. now exists l. Qed.

Lemma settled_more more : mine i more -> no_conn i more -> no_drop i more -> no_arrival i more -> forall sched x, settled sched x ->
  settled (sched ++ ticks (steps_of i more)) (fold_left (fun x e => pst e x) more x).
Proof.
  induction more as [|e more IH]; intros H1 H2 H3 H4 sched x H; cbn [fold_left].
  - cbn. now rewrite app_nil_r.
  - inversion H1 as [|? ? He H1']; subst.
    assert (forall sched x, settled sched x -> settled (sched ++ ticks (steps_of i more)) (fold_left (fun x e => pst e x) more x)) as IH'.
    { apply IH; [exact H1'|intros q Hq; apply (H2 q); now right|intros Hq; apply H3; now right|intros q Hq; apply (H4 q); now right]. }
    destruct e as [l|j q|j|j s|j]; cbn [concerns] in He; try (apply Nat.eqb_eq in He; subst j).
    + apply IH', settled_set, H.
    + exfalso. apply (H2 q). now left.
    + unfold steps_of. cbn [filter]. rewrite Nat.eqb_refl. cbn [length ticks].
      change (sched ++ Tick :: ?l) with (sched ++ [Tick] ++ l). rewrite app_assoc. apply IH', settled_step, H.
    + exfalso. apply (H4 s). now left.
    + exfalso. apply H3. now left.
Qed.

(** A coroutine that has not taken its first step. *)
Lemma wait_more more : w_log w = [] -> mine i more -> no_conn i more -> no_drop i more -> no_arrival i more -> forall M a, 1 <= steps_of i more ->
  settled (Arrive a :: ticks (steps_of i more - 1))
    (fold_left (fun x e => pst e x) more (M, Some (p, L, false), (ARun, Conf header_init [] [] (give w a)), [])).
Proof.
  intros Hlog. induction more as [|e more IH]; intros H1 H2 H3 H4 M a Hs; [cbn in Hs; lia|]. cbn [fold_left].
  inversion H1 as [|? ? He H1']; subst.
  assert (no_conn i more) as H2' by (intros q Hq; apply (H2 q); now right).
  assert (no_drop i more) as H3' by (intros Hq; apply H3; now right).
  assert (no_arrival i more) as H4' by (intros q Hq; apply (H4 q); now right).
  destruct e as [l|j q|j|j s|j]; cbn [concerns] in He; try (apply Nat.eqb_eq in He; subst j).
  - cbn [pstep]. apply IH; assumption.
  - exfalso. apply (H2 q). now left.
  - unfold steps_of. cbn [filter]. rewrite Nat.eqb_refl. cbn [length]. rewrite Nat.sub_succ, Nat.sub_0_r.
    change (Arrive a :: ?l) with ([Arrive a] ++ l). apply settled_more; try assumption.
    cbn [pstep]. rewrite Hp. exists M. change (mach [Arrive a]) with (ARun, start_listen (set_sock (give w a) (served_sock xs))).
    cbn [fst snd ended c_world log_of start_listen set_sock w_log give set_in]. rewrite Hlog. reflexivity.
  - exfalso. apply (H4 s). now left.
  - exfalso. apply H3. now left.
Qed.

Lemma phase_settled a x : phase setup react i w L p a false x ->
  (exists M, x = (M, Some (p, L, false), (ARun, Conf header_init [] [] (give w a)), [])) \/
  exists sched, arrivals sched = a /\ settled sched x.
Proof.
  intros H. inversion H; subst; try congruence.
  - left. eauto.
  - right. exists sched. split; [reflexivity|]. assert (xs0 = xs) as -> by congruence. exists M.
    match goal with H : ended _ = false |- _ => rewrite H end. now rewrite app_nil_r.
  - right. exists sched. split; [reflexivity|]. assert (xs0 = xs) as -> by congruence. exists M.
    match goal with H : _ \/ false = true |- _ => destruct H as [H|H]; [rewrite H|discriminate] end. reflexivity.
Qed.

(** There is a schedule that everything after now extends by steps. *)
Lemma phase_more a x : w_log w = [] -> phase setup react i w L p a false x ->
  exists sched, arrivals sched = a /\ forall more, mine i more -> no_conn i more -> no_drop i more -> no_arrival i more -> 1 <= steps_of i more ->
    exists m, steps_of i more <= S m /\ settled (sched ++ ticks m) (fold_left (fun x e => pst e x) more x).
Proof.
  intros Hlog H. destruct (phase_settled a x H) as [[M ->]|(sched & Ha & Hs)].
  - exists [Arrive a]. split; [cbn; apply app_nil_r|]. intros more H1 H2 H3 H4 H5. exists (steps_of i more - 1). split; [lia|].
    change ([Arrive a] ++ ?l) with (Arrive a :: l). now apply wait_more.
  - exists sched. split; [exact Ha|]. intros more H1 H2 H3 H4 _. exists (steps_of i more). split; [lia|]. now apply settled_more.
Qed.
End Settle.

Lemma own_steps i evs : steps_of i (own i evs) = steps_of i evs.
Proof.
  unfold steps_of, own. induction evs as [|e evs IH]; [reflexivity|]. cbn [filter].
  destruct e as [l|j q|j|j s|j]; cbn [concerns]; try destruct (Nat.eqb j i) eqn:Ej; cbn [filter]; rewrite ?Ej; cbn [length]; rewrite ?IH; reflexivity.
Qed.
Lemma vrun_app setup react a b : forall s, vrun setup react (a ++ b) s = match vrun setup react a s with Some s' => vrun setup react b s' | None => None end.
Proof. induction a as [|e a IH]; intros s; cbn [app vrun]; [reflexivity|]. destruct (vstep setup react e s); [apply IH|reflexivity]. Qed.

Lemma user_no_stop react : user_react react -> never_stops react.
Proof.
  intros H l log. specialize (H l log). induction H as [|c cs Hc _ IH]; [reflexivity|]. cbn [existsb]. rewrite IH.
  destruct c; cbn in *; try contradiction; reflexivity.
Qed.

(** Whatever else the server does: once the executor has iterated its coroutine often enough, the application has been told
    everything the received bytes say, every reply has been sent, and the instance listener's second call has been made
    exactly if those bytes end the connection. *)
Theorem C68_completion : forall setup react ws before i p after, fresh_conn (ws i) -> no_conn i before -> no_conn i after -> no_drop i after ->
  let evs := before ++ VConn i p :: after in let L := instance_listener before in forall xs, plan setup L p = Some xs ->
  let k := served_sock xs in
  clean (arrived i evs) -> healthy (w_wr (ws i)) -> (0 < s_buf k)%Z ->
  user_react (react i) -> polite_react (react i) -> no_use (react i) -> mask_react (s_mask k) (react i) ->
  exists n, forall more, no_conn i more -> no_drop i more -> no_arrival i more -> n <= steps_of i more ->
  exists s log, vrun setup react (evs ++ more) (server_init ws) = Some s /\
    view i s = created L p ++ NListen :: called log ++
      (match stream_ending false (bytes_of (arrived i evs)) with Closed _ | Rejected _ => destroyed L | _ => [] end) /\
    Forall (fun e => s_listener k = Some (fst e)) log /\
    transcript log = seen k (stream_reading false (bytes_of (arrived i evs))) /\
    sent_to i s = frames_of (s_mask k) (w_rnd (ws i)) (w_rpos (ws i)) (replies (react i) [] log).
Proof.
  intros setup react ws before i p after (Hin & Hout & Hlog) H1 H2 H3 evs L xs Hp k Hc Hh Hb Hu Hpo Hnu Hm.
  destruct (serve_phase setup react ws before i p after Hlog H1 H2) as (s0 & E0 & HP). fold evs L in E0, HP.
  assert (dropped i after = false) as Hd.
  { destruct (dropped i after) eqn:Ed; [|reflexivity]. exfalso. unfold dropped in Ed. apply existsb_exists in Ed.
    destruct Ed as ([l|j q|j|j x|j] & Hx & Hy); try discriminate. apply Nat.eqb_eq in Hy. subst j. now apply H3. }
  rewrite Hd in HP. destruct (phase_more setup react i p (ws i) L xs Hp _ _ Hlog HP) as (sched & Ha & Hmore).
  set (w := set_sock (ws i) k). destruct (served_fields xs) as [F1 F2]. fold k in F1, F2.
  assert (good (react i) (give w (arrivals sched))) as Hg.
  { unfold good, give, w. cbn [w_in set_in set_sock w_wr w_sock]. rewrite Hin, Ha. cbn [app]. split; [exact Hc|]. split; [exact Hh|].
    split; [exact Hpo|]. split; [now apply user_no_stop|]. split; [exact Hb|]. left. exact F2. }
  destruct (C53_delivery (react i) w sched F1 Hu Hg) as [n1 Hn1].
  assert (io_only (arrivals sched)) as Hio by (rewrite Ha; now apply clean_io_only).
  assert (io_only (w_in w)) as Hio' by (unfold w; cbn [w_in set_sock]; rewrite Hin; constructor).
  destruct (C56_completion (s_mask k) (react i) w sched F1 Hio' Hio Hu Hnu eq_refl Hm Hh) as [n2 Hn2].
  exists (S (Nat.max n1 n2)). intros more G1 G2 G3 G4.
  destruct (vrun_part setup react (evs ++ more) _ (sinv_init ws)) as (s & E & _ & HS).
  assert (vrun setup react more s0 = Some s) as Es by (rewrite vrun_app, E0 in E; exact E).
  assert (part_of i s = fold_left (fun x e => pstep setup react i e x) (own i more) (part_of i s0)) as Hpart.
  { destruct (vrun_part setup react evs _ (sinv_init ws)) as (s0' & E0' & _ & HS0). rewrite HS, own_app, fold_left_app, <- HS0. congruence. }
  destruct (Hmore (own i more)) as (m & Hm1 & [M Hset]).
  { apply own_mine. } { now apply own_no_conn. }
  { intros H. apply filter_In in H. now apply G2. } { intros q H. apply filter_In in H. now apply (G3 q). }
  { rewrite own_steps. lia. }
  rewrite own_steps in Hm1. rewrite <- Hpart in Hset.
  destruct (machine react i (ws i) xs (sched ++ ticks m)) as [st c] eqn:Em. unfold machine in Em. fold k in Em. fold w in Em.
  destruct (Hn2 m ltac:(lia) st c Em) as (new2 & Q1 & Q2).
  destruct (Hn1 m ltac:(lia) st c Em) as [-> |(new & N1 & N2 & N3 & N4)].
  { exfalso. destruct (C31_only_way _ _ _ _ Em) as (log & l & op & d & _ & Hi).
    specialize (Hnu l (w_log (c_world c))). rewrite Forall_forall in Hnu. exact (Hnu _ Hi eq_refl). }
  cbn [w w_log w_in w_sock w_out set_sock w_rnd w_rpos] in N1, N2, N3, N4, Q1, Q2. rewrite Hin, Ha in N3, N4. cbn [app] in N3, N4.
  rewrite Hlog in N1, Q1. cbn [app] in N1, Q1. rewrite Hout, Hlog in Q2. cbn [app] in Q2.
  replace (open_of k) with false in N3, N4 by (unfold open_of; now rewrite F2).
  unfold part_of in Hset. unfold log_of in Hset. cbn [fst snd] in Hset. injection Hset as _ _ R3 R4.
  exists s, new. split; [exact E|]. split.
  { rewrite R4, N1. do 3 f_equal. destruct (stream_ending false _).
    - destruct N4 as [-> _]. reflexivity.
    - destruct N4 as [-> _]. reflexivity.
    - destruct N4 as [[e ->] _]. reflexivity.
    - contradiction. }
  split; [exact N2|]. split; [exact N3|]. unfold sent_to. rewrite R3. cbn [snd]. rewrite Q2. congruence.
Qed.
Print Assumptions C68_completion.

(** ** A server with an echo listener: connection 1 talks, 2 closes, 3 is refused by the instance listener, 4 is dropped
    while a message is half received, 5 comes after the instance listener is replaced; all interleaved. *)
Definition demo_setup (l p : nat) : option (list ext) := if Nat.eqb p 9 then None else Some [XSetListener (Some (l + p))].
Definition demo_evs : list vev :=
  [VArrive 1 [RData x81 [x02]]; VSet (Some 50); VConn 1 1; VConn 2 2; VStep 2; VConn 3 9; VStep 1; VStep 3; VStep 1; VStep 2; VConn 4 4;
   VArrive 2 [RData x88 [x00; x89]]; VStep 4; VStep 1; VArrive 4 [RData x82 [x03; x70]]; VStep 2; VArrive 1 [RIo IoRetry; RData x61 [x62]]; VStep 4;
   VSet (Some 60)]
  ++ repeat (VStep 1) 9 ++ flat_map (fun n => [VStep 4; VStep 2]) (seq 0 9) ++ [VDrop 4; VStep 4; VConn 5 5]
  ++ flat_map (fun n => [VStep 2; VStep 1; VStep 5]) (seq 0 30).
Definition demo_worlds : nat -> world := fun _ => aworld [] [].
Example C67_nonvacuous :
  own 1 (filter (concerns 1) demo_evs) = own 1 demo_evs /\ filter (concerns 1) demo_evs <> demo_evs.
Proof. vm_compute. split; [reflexivity|discriminate]. Qed.
Example C68_nonvacuous :
  match vrun demo_setup (fun _ => SpecReply.echo 50) demo_evs (server_init demo_worlds) with
  | Some s =>
    view 1 s = [NCreate 50 1; NListen; NCall 51 (EvMsg 1 [x61; x62]); NCall 51 (EvEnd 1)] /\ sent_to 1 s = [x81; x02; x61; x62] /\
    view 2 s = [NCreate 50 2; NListen; NCall 52 (EvClose 0 []); NDestroy 50] /\
    view 3 s = [NCreate 50 9; NDestroy 50] /\
    view 4 s = [NCreate 50 4; NListen; NCall 54 (EvMsg 2 [x70]); NDestroy 50] /\
    view 5 s = [NCreate 60 5; NListen]
  | None => False
  end.
Proof. vm_compute. repeat split. Qed.
Example C68_applies : fresh_conn (demo_worlds 1) /\ clean (arrived 1 demo_evs) /\ bytes_of (arrived 1 demo_evs) = [x81; x02; x61; x62] /\
  stream_ending false (bytes_of (arrived 2 demo_evs)) = Closed [x89] /\
  (exists before after, demo_evs = before ++ VConn 1 1 :: after /\ no_conn 1 before /\ no_conn 1 after /\ no_drop 1 after /\ instance_listener before = Some 50).
Proof.
  split; [repeat split|]. split; [unfold clean; cbn; repeat constructor|]. split; [reflexivity|]. split; [vm_compute; reflexivity|].
  exists (firstn 2 demo_evs), (skipn 3 demo_evs). split; [reflexivity|].
  assert (forall e l, existsb (fun x => match x, e with VConn a _, VConn b _ => Nat.eqb a b | VDrop a, VDrop b => Nat.eqb a b | _, _ => false end) l = false ->
    (match e with VConn _ _ | VDrop _ => True | _ => False end) -> ~ In e l) as Hno.
  { intros e l H He Hin. apply Bool.not_true_iff_false in H. apply H, existsb_exists. exists e. split; [exact Hin|].
    destruct e; try contradiction; apply Nat.eqb_refl. }
  split; [intros q; apply Hno; [vm_compute; reflexivity|exact I]|]. split; [intros q; apply Hno; [vm_compute; reflexivity|exact I]|].
  split; [apply Hno; [vm_compute; reflexivity|exact I]|reflexivity].
Qed.
