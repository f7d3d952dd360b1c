(** One connection of a server with sending coroutines is a socket with several coroutines, as if it were alone. *)
From Verif Require Import Bytes Frame World WebSocket AsyncWebSocket Lifecycle Server SpecServer ProofServer ProofAsync2 PropAsync3 SpecFrame SpecSend SpecListen SpecApi SpecAsync SpecReply
  Coroutines SpecCoroutines ProofCoroutines3 ProofCoroutines4 PropServer PropCoroutines PushServer SpecPushServer ProofPushServer.
Local Open Scope nat_scope.

Section Own.
Variable i : nat.
Lemma started_cons e evs : pstarted i (e :: evs) = pstarted i [e] ++ pstarted i evs.
Proof. unfold pstarted. cbn [flat_map]. now rewrite app_nil_r. Qed.
Definition drops (evs : list pev) : bool := existsb (fun e => match e with PDrop j => Nat.eqb j i | _ => false end) evs.
(** Only the events of the connection count. *)
Lemma turns_own g n evs : turns i g n (pown i evs) = turns i g n evs.
Proof.
  revert g n. induction evs as [|e evs IH]; intros g n; [reflexivity|]. unfold pown in *. cbn [filter turns]. destruct (pconcerns i e) eqn:E; [|apply IH].
  cbn [turns]. rewrite E. destruct e; now rewrite ?IH.
Qed.
Lemma started_own evs : pstarted i (pown i evs) = pstarted i evs.
Proof.
  induction evs as [|e evs IH]; [reflexivity|]. unfold pown in *. cbn [filter]. destruct (pconcerns i e) eqn:E; rewrite started_cons, IH; [symmetry; apply started_cons|].
  rewrite started_cons. destruct e; unfold pconcerns in E; cbn [conn_of] in E; try reflexivity. unfold pstarted at 2. cbn [flat_map]. now rewrite E.
Qed.
Lemma arrived_cons e evs : parrived i (e :: evs) = parrived i [e] ++ parrived i evs.
Proof. unfold parrived. cbn [flat_map]. now rewrite app_nil_r. Qed.
Lemma arrived_own evs : parrived i (pown i evs) = parrived i evs.
Proof.
  induction evs as [|e evs IH]; [reflexivity|]. unfold pown in *. cbn [filter]. destruct (pconcerns i e) eqn:E; rewrite arrived_cons, IH; [symmetry; apply arrived_cons|].
  rewrite arrived_cons. destruct e; unfold pconcerns in E; cbn [conn_of] in E; try reflexivity. unfold parrived at 2. cbn [flat_map]. now rewrite E.
Qed.
Lemma drops_own evs : drops (pown i evs) = drops evs.
Proof.
  induction evs as [|e evs IH]; [reflexivity|]. unfold pown, drops in *. cbn [filter existsb]. destruct (pconcerns i e) eqn:E; cbn [existsb]; rewrite IH; [reflexivity|].
  destruct e; unfold pconcerns in E; cbn [conn_of] in E; try reflexivity. now rewrite E.
Qed.
Lemma instance_own evs l : fold_left (fun l e => match e with PSet l' => l' | _ => l end) (pown i evs) l = fold_left (fun l e => match e with PSet l' => l' | _ => l end) evs l.
Proof.
  revert l. induction evs as [|e evs IH]; intros l; [reflexivity|]. unfold pown in *. cbn [filter]. destruct (pconcerns i e) eqn:E; cbn [fold_left]; rewrite IH; [reflexivity|].
  destruct e; try reflexivity. discriminate.
Qed.
Lemma never_own P evs : never P evs -> never P (pown i evs).
Proof. unfold never. rewrite !Forall_forall. intros H x Hx. apply H. apply filter_In in Hx. tauto. Qed.
Lemma own_own evs : Forall (fun e => pconcerns i e = true) (pown i evs).
Proof. apply Forall_forall. intros x Hx. apply filter_In in Hx. tauto. Qed.

End Own.

Section Serve.
Variable setup : nat -> nat -> list ext * bool.
Variable react : nat -> react_t.
Variable i : nat.
Variables (L : option nat) (p : nat) (thr : bool) (work : nat -> list cmd).
Notation pst := (ppstep setup react i).
Notation r := (react i).

Definition gone_b (g : bool) (M : crowd_t) : bool := g || ended (status_of M 0).
Definition shown (g : bool) (M : crowd_t) : list seen_ev :=
  created L p ++ (if thr then destroyed L else NListen :: called (notified M) ++ if gone_b g M then destroyed L else []).

(** [M]: the socket with its coroutines, alone; [g]: the handler's coroutine has been dropped or has thrown; [n]: the number of coroutines the application has started. *)
Definition like_alone (g : bool) (n : nat) (M : crowd_t) (x : ppart) : Prop := exists l c,
  x = (l, (if gone_b g M then None else Some (p, L, true)), c, true, n, shown g M) /\
  snd c = snd M /\ (forall j, 0 < j <= n -> fst c j = fst M j) /\ (thr = false -> fst c 0 = fst M 0) /\ (thr = true -> g = true) /\
  (forall j, n < j -> fst M j = Task ARun header_init [] [CoUser (work j) false]) /\ (forall j, 0 < j -> app_only j M).

Lemma kstep_congr s1 s2 j : snd s1 = snd s2 -> fst s1 j = fst s2 j ->
  snd (kstep r (CTick j) s1) = snd (kstep r (CTick j) s2) /\ fst (kstep r (CTick j) s1) j = fst (kstep r (CTick j) s2) j.
Proof.
  intros E1 E2. rewrite !(proj1 (own_step r j _)), !(proj2 (own_step r j _)), E1, E2. auto.
Qed.
Lemma ended_stays M : ended (status_of M 0) = true -> kstep r (CTick 0) M = (fun j => if Nat.eqb j 0 then fst M 0 else fst M j, snd M).
Proof.
  unfold status_of. intros H. unfold kstep. rewrite tick_stopped; [reflexivity|]. intros [E|E]; rewrite E in H; discriminate.
Qed.

Definition gone_next (g : bool) (e : pev) : bool := g || match e with PDrop _ => true | _ => false end.
Definition count_next (n : nat) (e : pev) : nat := match e with PStart _ _ => S n | _ => n end.

Lemma like_step g n M x e : pconcerns i e = true -> (forall q, e <> PConn i q) -> (forall j cs, e = PStart j cs -> work (S n) = cs) -> like_alone g n M x ->
  like_alone (gone_next g e) (count_next n e) (krun r (turns i g n [e]) M) (pst e x).
Proof.
  intros Hc Hn Hw (l & c & -> & E1 & E2 & E3 & Eg & E4 & E5).
  destruct e as [l'|j q|j|j s|j|j cs|j t]; unfold pconcerns in Hc; cbn [conn_of] in Hc; try (apply Nat.eqb_eq in Hc; subst j);
    unfold turns, pconcerns; cbn [conn_of]; rewrite ?Nat.eqb_refl; unfold gone_next; rewrite ?orb_false_r, ?orb_true_r, ?app_nil_r; cbn [count_next krun fold_left].
  - cbn [ppstep]. exists l', c. auto 10.
  - exfalso. now apply (Hn q).
  - unfold gone_b. destruct g; cbn [orb krun fold_left].
    { cbn [ppstep]. exists l, c. unfold shown, gone_b. cbn [orb]. auto 10. }
    assert (thr = false) as Et by (destruct thr; [discriminate Eg; reflexivity|reflexivity]).
    destruct (ended (status_of M 0)) eqn:Een.
    { cbn [ppstep]. assert (kstep r (CTick 0) M = (fun j => if Nat.eqb j 0 then fst M 0 else fst M j, snd M)) as EM by now apply ended_stays.
      assert (status_of (kstep r (CTick 0) M) 0 = status_of M 0) as ES by (rewrite EM; reflexivity).
      exists l, c. unfold shown, gone_b. rewrite ES, Een. cbn [orb]. split.
      { unfold notified. rewrite EM. cbn [snd]. reflexivity. }
      split; [rewrite EM; exact E1|]. split; [intros j Hj; rewrite EM; cbn [fst]; destruct j; [lia|cbn [Nat.eqb]; now apply E2]|].
      split; [intros _; rewrite EM; cbn [fst Nat.eqb]; now apply E3|]. split; [congruence|].
      split; [intros j Hj; rewrite EM; cbn [fst]; destruct j; [lia|cbn [Nat.eqb]; now apply E4]|].
      intros j Hj. apply app_only_step, E5, Hj. }
    cbn [ppstep]. cbv zeta. destruct (kstep_congr c M 0 E1 (E3 Et)) as [K1 K2].
    set (c' := kstep r (CTick 0) c) in *. set (M' := kstep r (CTick 0) M) in *.
    assert (news c c' = skipn (length (notified M)) (notified M')) as En by (unfold news, notified; now rewrite E1, K1).
    assert (notified M' = notified M ++ news c c') as Eg' by (rewrite En; apply kstep_grows).
    assert (forall j, 0 < j -> fst c' j = fst c j /\ fst M' j = fst M j) as Eo by (intros j Hj; split; apply others_same; lia).
    exists l, c'. unfold shown, gone_b. cbn [orb].
    assert (ended (k_status (fst c' 0)) = ended (status_of M' 0)) as Ee by (unfold status_of; now rewrite K2). rewrite Ee. split.
    { unfold gone_b. cbn [orb]. rewrite Een, Et. destruct (ended (status_of M' 0)); rewrite Eg', called_app, ?app_nil_r.
      - f_equal. rewrite <- !app_assoc. cbn [app]. rewrite <- ?app_assoc. reflexivity.
      - f_equal. rewrite <- !app_assoc. reflexivity. }
    split; [exact K1|]. split; [intros j Hj; destruct (Eo j) as [-> ->]; [lia|]; now apply E2|]. split; [intros _; exact K2|]. split; [congruence|].
    split; [intros j Hj; destruct (Eo j) as [_ ->]; [lia|]; now apply E4|]. intros j Hj. apply app_only_step, E5, Hj.
  - cbn [ppstep]. exists l, (kstep r (CArrive s) c). split; [reflexivity|]. cbn [kstep fst snd]. split; [now rewrite E1|]. auto.
  - cbn [ppstep]. unfold gone_b, shown, gone_b. destruct g; cbn [orb].
    { exists l, c. split; [reflexivity|auto 10]. }
    assert (thr = false) as Et by (destruct thr; [discriminate Eg; reflexivity|reflexivity]).
    destruct (ended (status_of M 0)) eqn:Een; exists l, c; unfold shown, gone_b; cbn [orb]; rewrite Et.
    + split; [reflexivity|]. auto 10.
    + split; [|auto 10]. rewrite app_nil_r. f_equal. rewrite <- app_assoc. reflexivity.
  - cbn [ppstep]. exists l. eexists. split; [reflexivity|]. cbn [fst snd]. split; [exact E1|]. split.
    { intros j Hj. destruct (Nat.eq_dec j (S n)) as [->|Hne]; [rewrite upd_same, E4 by lia; now rewrite (Hw i cs eq_refl)|]. rewrite upd_other by exact Hne. apply E2. lia. }
    split; [intros Ht; rewrite upd_other by lia; auto|]. split; [exact Eg|]. split; [intros j Hj; apply E4; lia|exact E5].
  - cbn [ppstep]. destruct ((1 <=? t) && (t <=? n)) eqn:Et; cbn [krun fold_left]; [|exists l, c; auto 10].
    apply andb_true_iff in Et. destruct Et as [T1 T2]. apply Nat.leb_le in T1, T2.
    destruct (kstep_congr c M t E1 (E2 t ltac:(lia))) as [K1 K2]. set (c' := kstep r (CTick t) c) in *. set (M' := kstep r (CTick t) M) in *.
    assert (notified M' = notified M) as Eno by (apply app_tick_log, E5; lia).
    assert (status_of M' 0 = status_of M 0) as Es by (unfold status_of, M'; rewrite others_same by lia; reflexivity).
    assert (news c c' = []) as En by (unfold news; rewrite E1, K1; change (w_log (snd M')) with (notified M'); rewrite Eno; apply skipn_len).
    cbv zeta. exists l, c'. unfold shown, gone_b. rewrite Es, Eno, En. split; [now rewrite app_nil_r|]. split; [exact K1|]. split.
    { intros j Hj. destruct (Nat.eq_dec j t) as [->|Hne]; [exact K2|]. unfold c', M'. rewrite !others_same by congruence. now apply E2. }
    split; [intros Ht; unfold c', M'; rewrite !others_same by lia; auto|]. split; [exact Eg|].
    split; [intros j Hj; unfold M'; rewrite others_same by lia; now apply E4|]. intros j Hj. apply app_only_step, E5, Hj.
Qed.

Lemma turns_cons g n e evs : pconcerns i e = true -> turns i g n (e :: evs) = turns i g n [e] ++ turns i (gone_next g e) (count_next n e) evs.
Proof.
  intros H. cbn [turns]. rewrite H. unfold gone_next. destruct e; cbn [count_next app]; rewrite ?orb_false_r, ?orb_true_r, ?app_nil_r; reflexivity.
Qed.

Lemma like_run evs : Forall (fun e => pconcerns i e = true) evs -> never (is_conn i) evs -> forall g n M x,
  (forall k, k < length (pstarted i evs) -> work (S (n + k)) = nth k (pstarted i evs) []) -> like_alone g n M x ->
  like_alone (g || drops i evs) (n + length (pstarted i evs)) (krun r (turns i g n evs) M) (fold_left (fun x e => pst e x) evs x).
Proof.
  induction evs as [|e evs IH]; intros Hc Hn g n M x Hw H.
  - cbn. rewrite orb_false_r, Nat.add_0_r. exact H.
  - inversion Hc as [|? ? C1 C2]; subst. inversion Hn as [|? ? N1 N2]; subst. rewrite turns_cons by exact C1. rewrite krun_app. cbn [fold_left].
    assert (like_alone (gone_next g e) (count_next n e) (krun r (turns i g n [e]) M) (pst e x)) as H1.
    { apply like_step; [exact C1|intros q ->; apply N1; now exists q| |exact H]. intros j cs ->. cbn in C1. 
      specialize (Hw 0). rewrite Nat.add_0_r in Hw. unfold pstarted in Hw. cbn [flat_map] in Hw. unfold pconcerns in C1. cbn in C1. rewrite C1 in Hw. cbn in Hw. apply Hw. lia. }
    apply IH in H1; [|exact C2|exact N2|].
    + replace (g || drops i (e :: evs)) with (gone_next g e || drops i evs); [replace (n + length (pstarted i (e :: evs))) with (count_next n e + length (pstarted i evs)); [exact H1|]|].
      * rewrite started_cons, app_length. unfold pstarted at 2. destruct e; unfold pconcerns in C1; cbn [conn_of] in C1; cbn [count_next flat_map]; try rewrite C1; cbn [app length]; lia.
      * unfold gone_next, drops. cbn [existsb]. destruct e; unfold pconcerns in C1; cbn [conn_of] in C1; try rewrite C1; cbn [orb]; try (now rewrite ?orb_false_r, ?orb_true_r); destruct g; reflexivity.
    + intros k Hk. rewrite started_cons in Hw.
      assert (pstarted i [e] = match e with PStart _ cs => [cs] | _ => [] end) as Es by (unfold pstarted; destruct e; unfold pconcerns in C1; cbn [conn_of] in C1; cbn [flat_map]; try rewrite C1; reflexivity).
      rewrite Es in Hw. destruct e; cbn [count_next]; cbn [app length] in Hw; try (now apply Hw).
      specialize (Hw (S k)). rewrite Nat.add_succ_r in Hw. cbn [nth] in Hw. apply Hw. lia.
Qed.

(** Before the first step. *)
Definition waiting (l : option nat) (o : option (nat * option nat * bool)) (w : world) : ppart := (l, o, ((fun _ => no_task), w), false, 0, []).
Lemma give_nil (w : world) : give w [] = w.
Proof. unfold give, set_in. rewrite app_nil_r. now destruct w. Qed.
Lemma give_give (w : world) a b : give (give w a) b = give w (a ++ b).
Proof. unfold give, set_in. cbn. now rewrite app_assoc. Qed.
Lemma wait_run evs : Forall (fun e => pconcerns i e = true) evs -> never (is_conn i) evs -> forall o l w,
  o = None \/ (exists q l', o = Some (q, l', false)) /\ never (fun e => e = PStep i \/ e = PDrop i) evs ->
  fold_left (fun x e => pst e x) evs (waiting l o w) =
  waiting (fold_left (fun l e => match e with PSet l' => l' | _ => l end) evs l) o (give w (parrived i evs)).
Proof.
  induction evs as [|e evs IH]; intros Hc Hn o l w Ho.
  - cbn. now rewrite give_nil.
  - inversion Hc as [|? ? C1 C2]; subst. inversion Hn as [|? ? N1 N2]; subst. cbn [fold_left]. rewrite arrived_cons, <- give_give.
    assert (o = None \/ (exists q l', o = Some (q, l', false)) /\ never (fun e => e = PStep i \/ e = PDrop i) evs) as Ho'
      by (destruct Ho as [Ho|[Ho1 Ho2]]; [now left|right; split; [exact Ho1|now inversion Ho2]]).
    destruct e as [l'|j q|j|j s|j|j cs|j t]; unfold pconcerns in C1; cbn [conn_of] in C1; try (apply Nat.eqb_eq in C1; subst j); unfold waiting at 1; cbn [ppstep].
    + change (parrived i [PSet l']) with (@nil rev). rewrite give_nil. now apply IH.
    + exfalso. apply N1. now exists q.
    + change (parrived i [PStep i]) with (@nil rev). rewrite give_nil.
      destruct Ho as [-> |[_ Hx]]; [|inversion Hx as [|? ? X _]; subst; exfalso; apply X; now left]. apply IH; auto.
    + replace (parrived i [PArrive i s]) with s by (unfold parrived; cbn; now rewrite Nat.eqb_refl, app_nil_r).
      change (kstep r (CArrive s) (fun _ => no_task, w)) with ((fun _ : nat => no_task), give w s). apply IH; auto.
    + change (parrived i [PDrop i]) with (@nil rev). rewrite give_nil.
      destruct Ho as [-> |[_ Hx]]; [|inversion Hx as [|? ? X _]; subst; exfalso; apply X; now right]. apply IH; auto.
    + change (parrived i [PStart i cs]) with (@nil rev). rewrite give_nil. now apply IH.
    + change (parrived i [PTask i t]) with (@nil rev). rewrite give_nil. destruct t; cbn [Nat.leb andb]; now apply IH.
Qed.
End Serve.

Lemma pown_app i a b : pown i (a ++ b) = pown i a ++ pown i b.
Proof. apply filter_app. Qed.
Lemma parrived_app i a b : parrived i (a ++ b) = parrived i a ++ parrived i b.
Proof. apply flat_map_app. Qed.

(** The whole history of a connection. *)
Lemma serve_alone setup react ws before i p mid later xs thr : w_log (ws i) = [] -> handed_over i before mid later ->
  let L := pinstance before in pplan setup L p = (xs, thr) ->
  exists s, prun setup react (before ++ PConn i p :: mid ++ PStep i :: later) (pserver_init ws) = Some s /\
    like_alone L p thr (pwork i later) (thr || drops i later) (length (pstarted i later))
      (krun (react i) (CArrive (parrived i (before ++ mid)) :: turns i thr 0 later) (crowd_init (pwork i later) (set_sock (ws i) (served_sock xs))))
      (ppart_of i s).
Proof.
  intros Hlog (H1 & H2 & H3 & H4) L Hp.
  destruct (prun_part setup react (before ++ PConn i p :: mid ++ PStep i :: later) _ (psinv_init ws)) as (s & E & _ & HP).
  exists s. split; [exact E|]. rewrite HP. change (PConn i p :: mid ++ PStep i :: later) with ([PConn i p] ++ mid ++ [PStep i] ++ later).
  rewrite !pown_app, !fold_left_app. replace (pown i [PConn i p]) with [PConn i p] by (unfold pown, pconcerns; cbn; now rewrite Nat.eqb_refl).
  replace (pown i [PStep i]) with [PStep i] by (unfold pown, pconcerns; cbn; now rewrite Nat.eqb_refl).
  change (ppart_of i (pserver_init ws)) with (waiting None None (ws i)).
  rewrite wait_run; [|apply own_own|exact (never_own _ _ _ H1)|now left]. rewrite instance_own, arrived_own. fold (pinstance before). fold L.
  cbn [fold_left]. assert (forall w, ppstep setup react i (PConn i p) (waiting L None w) = waiting L (Some (p, L, false)) w) as -> by reflexivity.
  rewrite wait_run; [|apply own_own|exact (never_own _ _ _ H2)|right; split; [eauto|exact (never_own _ _ _ H4)]]. rewrite arrived_own, give_give, <- parrived_app, instance_own.
  set (w := give (ws i) (parrived i (before ++ mid))). unfold waiting at 1. cbn [ppstep]. rewrite Hp. cbv zeta. cbn [snd].
  replace (length (pstarted i later)) with (0 + length (pstarted i (pown i later))) by now rewrite started_own.
  rewrite <- drops_own, <- (turns_own i thr 0 later).
  change (krun (react i) (CArrive (parrived i (before ++ mid)) :: turns i thr 0 (pown i later)) (crowd_init (pwork i later) (set_sock (ws i) (served_sock xs))))
    with (krun (react i) (turns i thr 0 (pown i later)) (crowd_init (pwork i later) (set_sock w (served_sock xs)))).
  apply like_run; [apply own_own|exact (never_own _ _ _ H3)| |].
  - intros k Hk. rewrite started_own in *. reflexivity.
  - assert (forall j, 0 < j -> fst (crowd_init (pwork i later) (set_sock w (served_sock xs))) j = Task ARun header_init [] [CoUser (pwork i later j) false]) as HC
      by (intros [|j] Hj; [lia|reflexivity]).
    destruct thr; eexists; eexists; (split; [unfold shown, gone_b; cbn; rewrite ?Hlog; cbn; rewrite ?app_nil_r; reflexivity|]); cbn [snd fst crowd_init];
      (split; [reflexivity|]); (split; [intros; lia|]); (split; [try discriminate; reflexivity|]); (split; [try discriminate; auto|]);
      (split; [exact HC|intros j Hj; apply starts_app; lia]).
Qed.

Lemma drops_in i evs : drops i evs = true <-> pdropped i evs.
Proof.
  unfold drops, pdropped. rewrite existsb_exists. split.
  - intros (e & H1 & H2). destruct e; try discriminate. apply Nat.eqb_eq in H2. now subst.
  - intros H. exists (PDrop i). split; [exact H|apply Nat.eqb_refl].
Qed.
