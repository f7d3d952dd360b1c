(** C89: a server whose application sends from threads of its own. *)
From Coq Require Import Cantor.
From Verif Require Import Bytes Frame World WebSocket AsyncWebSocket SpecFrame SpecSend SpecListen SpecApi SpecAsync SpecReply Lifecycle Server SpecServer ProofServer PropServer ThreadServer
  ProofThreads PropListen PropReply ProofApi PropAsync2 PropThreadServer2 Threads SpecThreads Concurrent SpecConcurrent Process SpecProcess ProofProcess3 PropProcess PropProcess2 PropCoroutines
  PushThreads SpecPushThreads ProofPushThreads.
Local Open Scope nat_scope.
Local Notation upd := Lifecycle.upd.
Local Notation gentle_cmd := SpecProcess.gentle_cmd.

Section Part.
Variable waits : nat -> bool.
Variable setup : nat -> nat -> list cmd.
Variable react : nat -> react_t.
Notation step := (ustep waits setup react).
Notation run := (urun waits setup react).

Lemma view_add i k new (log : list (nat * seen_ev)) :
  map snd (filter (fun e => Nat.eqb (fst e) i) (log ++ map (pair k) new)) =
  map snd (filter (fun e => Nat.eqb (fst e) i) log) ++ if Nat.eqb k i then new else [].
Proof.
  rewrite filter_app, map_app. f_equal. induction new as [|x new IH]; cbn [map filter fst]; [now destruct (Nat.eqb k i)|].
  destruct (Nat.eqb k i); cbn [map snd]; [now rewrite IH|exact IH].
Qed.
(** What one event does to one connection. *)
Lemma step_part e s s' i : step e s = UOk s' ->
  (exists l, e = USet l /\ u_inst s' = l /\ u_phase s' i = u_phase s i /\ uview i s' = uview i s) \/
  (exists k, uabout e = Some k /\ k <> i /\ u_inst s' = u_inst s /\ u_phase s' i = u_phase s i /\ uview i s' = uview i s) \/
  (uabout e = Some i /\ u_inst s' = u_inst s /\ exists new, uconn waits setup react (u_inst s) i e (u_phase s i) = UOk (u_phase s' i, new) /\ uview i s' = uview i s ++ new).
Proof.
  intros E. destruct e as [l|k q|k cs|k j]; cbn [ustep] in E; [injection E as <-; left; exists l; auto|..]; right;
    (destruct (uconn waits setup react (u_inst s) k _ (u_phase s k)) as [[ph new]| |] eqn:Eu; try discriminate); injection E as <-;
    cbn [u_inst u_phase u_log uabout]; unfold uview; cbn [u_log]; rewrite view_add;
    (destruct (Nat.eq_dec k i) as [->|Hne]; [right; split; [reflexivity|]; split; [reflexivity|]; exists new; rewrite upd_same, Nat.eqb_refl; auto|]);
    left; exists k; (split; [reflexivity|]); (split; [exact Hne|]); (split; [reflexivity|]); rewrite upd_other by congruence; apply Nat.eqb_neq in Hne; rewrite Hne, app_nil_r; auto.
Qed.
Lemma run_app a b s : run (a ++ b) s = match run a s with UOk s' => run b s' | UTerminate => UTerminate | UUndef => UUndef end.
Proof. revert s. induction a as [|e a IH]; intros s; [reflexivity|]. cbn [app urun]. destruct (step e s); auto. Qed.

Lemma asked_app i a b : uasked i (a ++ b) = uasked i a ++ uasked i b.
Proof. apply flat_map_app. Qed.
Lemma turns_app i a b : forall n, uturns i n (a ++ b) = uturns i n a ++ uturns i (n + length (uasked i a)) b.
Proof.
  induction a as [|e a IH]; intros n; cbn [app]; [cbn; now rewrite Nat.add_0_r|]. change (uasked i (e :: a)) with (uasked i ([e] ++ a)). rewrite asked_app, app_length.
  destruct e as [l|k q|k cs|k j]; cbn [uturns uasked flat_map length Nat.add]; rewrite IH; cbn [length Nat.add].
  - reflexivity.
  - reflexivity.
  - destruct (Nat.eqb k i); cbn [app length]; [now rewrite <- plus_n_Sm|reflexivity].
  - now rewrite app_assoc.
Qed.

Lemma run_new i evs : uno_conn i evs -> forall s s' w, u_phase s i = UNew w -> uview i s = [] -> run evs s = UOk s' ->
  u_phase s' i = UNew w /\ uview i s' = [] /\ u_inst s' = fold_left (fun l e => match e with USet l' => l' | _ => l end) evs (u_inst s).
Proof.
  induction 1 as [|e evs He _ IH]; intros s s' w H1 H2 E; cbn [urun] in E; [injection E as <-; auto|].
  destruct (step e s) as [s1| |] eqn:E1; try discriminate. cbn [fold_left]. apply (step_part _ _ _ i) in E1. destruct E1 as [(l & -> & A1 & A2 & A3)|[(k & A0 & _ & A1 & A2 & A3)|(A0 & A1 & new & A2 & A3)]].
  - rewrite H1 in A2. rewrite H2 in A3. destruct (IH _ _ _ A2 A3 E) as (B1 & B2 & B3). rewrite A1 in B3. auto.
  - rewrite H1 in A2. rewrite H2 in A3. destruct (IH _ _ _ A2 A3 E) as (B1 & B2 & B3). rewrite A1 in B3. destruct e; try discriminate; auto.
  - rewrite H1 in A2. rewrite H2 in A3. destruct e as [l|k q|k cs|k j]; cbn [uabout] in A0; try discriminate; injection A0 as ->.
    + exfalso. now apply (He q).
    + cbn in A2. injection A2 as A2 <-. symmetry in A2. destruct (IH _ _ _ A2 A3 E) as (B1 & B2 & B3). rewrite A1 in B3. auto.
    + destruct j; cbn in A2; injection A2 as A2 <-; symmetry in A2; destruct (IH _ _ _ A2 A3 E) as (B1 & B2 & B3); rewrite A1 in B3; auto.
Qed.
Lemma run_follows i L p w1 evs : w_log w1 = [] -> uno_conn i evs -> forall asked sch s s',
  follows waits react i L p w1 asked sch (u_phase s i) (uview i s) -> run evs s = UOk s' ->
  follows waits react i L p w1 (asked ++ uasked i evs) (sch ++ uturns i (length asked) evs) (u_phase s' i) (uview i s').
Proof.
  intros Hlog. induction 1 as [|e evs He _ IH]; intros asked sch s s' HF E; cbn [urun] in E.
  - injection E as <-. cbn. now rewrite !app_nil_r.
  - destruct (step e s) as [s1| |] eqn:E1; try discriminate.
    change (e :: evs) with ([e] ++ evs). rewrite asked_app, turns_app, !app_assoc, <- app_length. apply (IH _ _ s1); [|exact E].
    apply (step_part _ _ _ i) in E1. destruct E1 as [(l & -> & A1 & A2 & A3)|[(k & A0 & Hne & A1 & A2 & A3)|(A0 & A1 & new & A2 & A3)]].
    + rewrite A2, A3. cbn [uasked flat_map uturns]. now rewrite !app_nil_r.
    + rewrite A2, A3. apply Nat.eqb_neq in Hne. destruct e; cbn [uabout] in A0; try discriminate; injection A0 as ->; cbn [uasked flat_map uturns]; rewrite ?Hne; cbn [app andb]; now rewrite !app_nil_r.
    + rewrite A3. eapply follows_step; [exact Hlog|exact A0|exact He|exact HF|exact A2].
Qed.
End Part.

(** Connections do not influence each other (unless one brings the process down, C89_safe). *)
Theorem C89_isolation : forall waits setup react ws1 ws2 evs1 evs2 i s1 s2, ws1 i = ws2 i -> uown i evs1 = uown i evs2 ->
  urun waits setup react evs1 (userver_init ws1) = UOk s1 -> urun waits setup react evs2 (userver_init ws2) = UOk s2 ->
  uview i s1 = uview i s2 /\ usent i s1 = usent i s2 /\ uthreads i s1 = uthreads i s2 /\ forall j o, ufinished i j s1 o <-> ufinished i j s2 o.
Proof.
  intros waits setup react ws1 ws2 evs1 evs2 i s1 s2 Hw He E1 E2.
  set (pst := fun (x : option (option nat * uphase * list seen_ev)) e => match x with
    | None => None
    | Some (inst, ph, v) =>
      match e with
      | USet l => Some (l, ph, v)
      | _ => match uconn waits setup react inst i e ph with UOk (ph', new) => Some (inst, ph', v ++ new) | _ => None end
      end end).
  assert (forall evs s s', urun waits setup react evs s = UOk s' ->
    fold_left pst (uown i evs) (Some (u_inst s, u_phase s i, uview i s)) = Some (u_inst s', u_phase s' i, uview i s')) as HP.
  { clear. induction evs as [|e evs IH]; intros s s' E; cbn [urun] in E; [injection E as <-; reflexivity|].
    destruct (ustep waits setup react e s) as [s1| |] eqn:E1; try discriminate. apply IH in E. unfold uown in *. cbn [filter].
    apply (step_part _ _ _ _ _ _ i) in E1. destruct E1 as [(l & -> & A1 & A2 & A3)|[(k & A0 & Hne & A1 & A2 & A3)|(A0 & A1 & new & A2 & A3)]].
    - cbn [uconcerns uabout]. cbn [fold_left pst]. rewrite <- E, A1, A2, A3. reflexivity.
    - assert (uconcerns i e = Nat.eqb k i) as -> by (destruct e; cbn in A0 |- *; congruence). apply Nat.eqb_neq in Hne. rewrite Hne, <- E, A1, A2, A3. reflexivity.
    - assert (uconcerns i e = Nat.eqb i i) as -> by (destruct e; cbn in A0 |- *; congruence). rewrite Nat.eqb_refl. cbn [fold_left]. rewrite <- E, A1, A3. f_equal. unfold pst. destruct e; try discriminate; now rewrite A2. }
  apply HP in E1. apply HP in E2. rewrite He in E1. cbn [userver_init u_inst u_phase] in E1, E2. rewrite Hw in E1. 
  change (uview i (userver_init ws1)) with (uview i (userver_init ws2)) in E1. rewrite E2 in E1.
  assert (u_phase s1 i = u_phase s2 i /\ uview i s1 = uview i s2) as [P1 P2] by (split; congruence).
  unfold usent, uthreads, ufinished. rewrite P1. split; [exact P2|]. split; [reflexivity|]. split; [reflexivity|]. reflexivity.
Qed.
Print Assumptions C89_isolation.

(** A connection's life. *)
Lemma serve waits setup react ws before i p later w1 s : w_log (ws i) = [] -> uno_conn i before -> uno_conn i later ->
  let L := uinstance before in exec_cmds (hello setup L p) (set_sock (ws i) (sock_new false)) = (Ret tt, w1) ->
  urun waits setup react (before ++ UConn i p :: later) (userver_init ws) = UOk s ->
  follows waits react i L p w1 (uasked i later) (uturns i 0 later) (u_phase s i) (uview i s) /\ w_log w1 = [].
Proof.
  intros Hlog H1 H2 L Eh E. rewrite run_app in E. destruct (urun waits setup react before (userver_init ws)) as [s0| |] eqn:E0; try discriminate.
  destruct (run_new waits setup react i before H1 (userver_init ws) _ (ws i) eq_refl eq_refl E0) as (P1 & P2 & P3). cbn [userver_init u_inst] in P3. fold (uinstance before) in P3. fold L in P3.
  cbn [urun ustep] in E. rewrite P3, P1 in E. cbn [uconn] in E. unfold uhandle in E. change (on_create setup) with (hello setup) in E. rewrite Eh in E.
  assert (w_log w1 = []) as Hl1 by (apply exec_cmds_effect in Eh; destruct Eh as (_ & -> & _); exact Hlog). split; [|exact Hl1].
  set (s1 := UServer _ _ _) in E.
  assert (follows waits react i L p w1 [] [] (u_phase s1 i) (uview i s1)) as HF.
  { unfold s1. cbn [u_phase]. rewrite upd_same. unfold uview. cbn [u_log]. rewrite view_add, Nat.eqb_refl. unfold uview in P2. rewrite P2. cbn [app].
    exists StReady, []. eexists. split; [reflexivity|]. split; [split; [intros [|[|j]]; reflexivity|reflexivity]|]. split; [constructor|]. split; [now exists []|]. split; [reflexivity|].
    split; [split; [intros _ []|reflexivity]|]. split; [discriminate|]. unfold shown_so_far. now rewrite app_nil_r. }
  apply (run_follows waits setup react i L p w1 later Hl1 H2 [] [] s1 s HF E).
Qed.

Lemma turn0 i later : forall n, In 0 (uturns i n later) <-> In (UTurn i 0) later.
Proof.
  induction later as [|e later IH]; intros n; [reflexivity|]. destruct e as [l|k q|k cs|k j]; cbn [uturns In].
  - rewrite IH. intuition discriminate.
  - rewrite IH. intuition discriminate.
  - rewrite IH. intuition discriminate.
  - rewrite in_app_iff, IH. destruct (Nat.eqb_spec k i) as [->|Hne]; cbn [andb].
    + destruct j as [|j]; [cbn; tauto|]. destruct (S j <=? n); cbn [In]; intuition discriminate.
    + cbn [In]. split; [tauto|]. intros [Hx|Hx]; [congruence|tauto].
Qed.

(** Whatever happens on other connections: the application sees onAfterCreate, then (when its thread has begun) the notifications of the socket, then (only when listen() has
    returned) onBeforeDestroy; and the socket is one with several threads (Process.v) that take the turns they take. *)
Theorem C89_service : forall waits setup react ws before i p later w1 s, w_log (ws i) = [] -> uno_conn i before -> uno_conn i later ->
  let L := uinstance before in exec_cmds (hello setup L p) (set_sock (ws i) (sock_new false)) = (Ret tt, w1) ->
  urun waits setup react (before ++ UConn i p :: later) (userver_init ws) = UOk s ->
  let c := srun (uturns i 0 later) (system_init (react i) (uwork (uthreads i s)) w1) in
  exists over, (over = true -> finished c 0 (Ret tt)) /\
    (uview i s = created L p /\ ~ In (UTurn i 0) later \/
     uview i s = created L p ++ NListen :: called (told c) ++ (if over : bool then destroyed L else []) /\ In (UTurn i 0) later) /\
    usent i s = wire_out c /\ (forall j o, ufinished i j s o <-> finished c j o) /\
    prefix (uthreads i s) (uasked i later) /\ (L <> None -> over = false -> uthreads i s = uasked i later).
Proof.
  intros waits setup react ws before i p later w1 s Hlog H1 H2 L Eh E c.
  destruct (serve waits setup react ws before i p later w1 s Hlog H1 H2 Eh E) as [HF Hl1]. fold L in HF.
  destruct HF as (st & ths & cc & E1 & E2 & E3 & E4 & E5 & E6 & E7 & E8).
  assert (uthreads i s = ths) as Et by (unfold uthreads; now rewrite E1). subst c. rewrite Et. fold (alone react i w1 ths (uturns i 0 later)) in *.
  set (c := alone react i w1 ths (uturns i 0 later)) in *. exists (leaving st). split; [exact E7|]. split.
  { rewrite <- (turn0 i later 0). unfold shown_so_far in E8. destruct st; [left|right..].
    - rewrite app_nil_r in E8. split; [exact E8|]. now apply E6.
    - split; [exact E8|]. destruct (in_dec Nat.eq_dec 0 (uturns i 0 later)) as [Hx|Hx]; [exact Hx|apply E6 in Hx; discriminate].
    - split; [exact E8|]. destruct (in_dec Nat.eq_dec 0 (uturns i 0 later)) as [Hx|Hx]; [exact Hx|apply E6 in Hx; discriminate].
    - split; [exact E8|]. destruct (in_dec Nat.eq_dec 0 (uturns i 0 later)) as [Hx|Hx]; [exact Hx|apply E6 in Hx; discriminate]. }
  split; [unfold usent; rewrite E1; now apply same_wire|]. split; [intros j o; unfold ufinished; rewrite E1; now apply same_finished|].
  split; [exact E4|]. intros HL Hov. apply E5; [exact HL|]. now rewrite Hov.
Qed.
Print Assumptions C89_service.
