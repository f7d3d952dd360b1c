(** One connection of a server with sending coroutines, seen on its own. *)
From Verif Require Import Bytes Frame World WebSocket AsyncWebSocket Lifecycle Server SpecServer ProofServer ProofAsync2 PropAsync3 SpecFrame SpecSend SpecListen SpecApi SpecAsync SpecReply
  Coroutines SpecCoroutines ProofCoroutines3 ProofCoroutines4 PropCoroutines PushServer SpecPushServer.
Local Open Scope nat_scope.

(** ** Logs *)
Lemma fail_world e c : c_world (snd (fail e c)) = c_world c.
Proof. unfold fail. destruct (unwind (c_stack c)); reflexivity. Qed.
Lemma write_log d w : w_log (snd (writeExactAsyncInline d w)) = w_log w.
Proof.
  unfold writeExactAsyncInline. destruct d; [reflexivity|]. destruct (w_wr w) as [|[n|[]|] q]; reflexivity.
Qed.
(** Application coroutines call no listeners. *)
Lemma app_log react hdr short co K w : app_co co -> w_log (c_world (snd (step react (Conf hdr short (co :: K) w)))) = w_log w.
Proof.
  intros Ha.
  destruct co as [|p|l p|l u a g p|fin opcode m h p|h p|cs freed|]; try (exfalso; apply Ha; exact Logic.I); cbn [step].
  - destruct p as [| |d|]; cbn [step_send].
    + destruct m as [[|b m]|]; unfold sendFrameHeaderAsync; cbn [h_hasMask]; destruct (s_mask (w_sock w)); reflexivity.
    + destruct (h_hasMask h); [destruct (_ <=? _)%N|]; reflexivity.
    + pose proof (write_log d w) as H. destruct (writeExactAsyncInline d w) as [[d1|d1| |] w']; rewrite ?fail_world; exact H.
    + reflexivity.
  - destruct p as [d| |d| |d]; cbn [step_writeFrame].
    + pose proof (write_log d w) as H. destruct (writeExactAsyncInline d w) as [[d1|d1| |] w']; rewrite ?fail_world; exact H.
    + destruct (_ =? 2)%N; [|destruct (_ =? 3)%N]; reflexivity.
    + pose proof (write_log d w) as H. destruct (writeExactAsyncInline d w) as [[d1|d1| |] w']; rewrite ?fail_world; exact H.
    + destruct (h_hasMask h); reflexivity.
    + pose proof (write_log d w) as H. destruct (writeExactAsyncInline d w) as [[d1|d1| |] w']; rewrite ?fail_world; exact H.
  - destruct cs as [|c cs]; cbn [step_user]; [reflexivity|]. destruct c as [|l|mm b|catch op| | |fin opcode mm]; try reflexivity; rewrite ?fail_world; try reflexivity.
    destruct freed; reflexivity.
  - reflexivity.
Qed.
Lemma app_tick_log react i s : app_only i s -> notified (kstep react (CTick i) s) = notified s.
Proof.
  unfold app_only, notified. intros H. rewrite (proj2 (own_step react i s)). unfold ktick. set (k := fst s i) in *. destruct (going_dec (k_status k)) as [Hg|Hg].
  - rewrite tick_going by exact Hg. destruct (k_stack k) as [|co K] eqn:E; [reflexivity|]. inversion H; subst.
    pose proof (app_log react (k_hdr k) (k_short k) co K (snd s)) as HX. destruct (step react _) as [st c]. apply HX; assumption.
  - change (w_log (snd (ktick react k (snd s))) = w_log (snd s)). now rewrite tick_stopped.
Qed.
Lemma kstep_grows react j s : notified (kstep react (CTick j) s) = notified s ++ skipn (length (notified s)) (notified (kstep react (CTick j) s)).
Proof.
  unfold notified. rewrite (proj2 (own_step react j s)). unfold ktick.
  destruct (tick react (k_status (fst s j), Conf (k_hdr (fst s j)) (k_short (fst s j)) (k_stack (fst s j)) (snd s))) as [st c] eqn:E.
  destruct (run_grows react [Tick] _ _ st c E) as [m Hm]. cbn [snd c_world] in *. rewrite Hm, skipn_app_len. reflexivity.
Qed.

(** ** The part of the server's state that concerns one connection *)
Definition ppart : Type := option nat * option (nat * option nat * bool) * crowd_t * bool * nat * list seen_ev.
Definition ppart_of (i : nat) (s : pserver) : ppart :=
  (a_listener (p_life s), obj_part (a_objs (p_life s) i), p_crowd s i, p_made s i, p_count s i, pview i s).

Section Part.
Variable setup : nat -> nat -> list ext * bool.
Variable react : nat -> react_t.

Definition news (c c' : crowd_t) : list (nat * event) := skipn (length (w_log (snd c))) (w_log (snd c')).
Definition ppstep (i : nat) (e : pev) (x : ppart) : ppart :=
  let '(L, o, c, m, n, v) := x in
  match e with
  | PSet l => (l, o, c, m, n, v)
  | PConn _ p => (L, Some (p, L, false), c, m, n, v)
  | PArrive _ rs => (L, o, kstep (react i) (CArrive rs) c, m, n, v)
  | PDrop _ =>
    match o with
    | None => x
    | Some (p, l, b) => (L, None, c, m, n, v ++ if b : bool then destroyed l else [])
    end
  | PStart _ cs => if m then (L, o, (upd (fst c) (S n) (Task ARun header_init [] [CoUser cs false]), snd c), m, S n, v) else x
  | PTask _ j => if (1 <=? j) && (j <=? n) then let c' := kstep (react i) (CTick j) c in (L, o, c', m, n, v ++ called (news c c')) else x
  | PStep _ =>
    match o with
    | None => x
    | Some (p, l, false) =>
      let (xs, throws) := pplan setup l p in
      let w := set_sock (snd c) (served_sock xs) in
      if throws : bool then (L, None, ((fun _ => no_task), w), true, n, v ++ created l p ++ destroyed l)
      else (L, Some (p, l, true), ((fun j => match j with O => Task ARun (c_hdr (start_listen w)) [] [CoListen] | _ => no_task end), w), true, n, v ++ created l p ++ [NListen])
    | Some (p, l, true) =>
      let c' := kstep (react i) (CTick 0) c in
      if ended (k_status (fst c' 0)) then (L, None, c', m, n, v ++ called (news c c') ++ destroyed l)
      else (L, o, c', m, n, v ++ called (news c c'))
    end
  end.

Definition psinv (s : pserver) : Prop := forall i, own_obj i (a_objs (p_life s) i).

Lemma plife_set l s : plife (ASetListener l) s = Some (PServer (AState l (a_objs (p_life s)) (a_count (p_life s)) (a_log (p_life s))) (p_log s) (p_crowd s) (p_made s) (p_count s)).
Proof. unfold plife. cbn [acstep a_log]. now rewrite skipn_len, app_nil_r. Qed.
Lemma plife_handle i j p s : plife (AHandle i j p) s =
  Some (PServer (AState (a_listener (p_life s)) (upd (a_objs (p_life s)) i (Some (SCor j p (a_listener (p_life s)) None))) (a_count (p_life s)) (a_log (p_life s))) (p_log s)
    (p_crowd s) (p_made s) (p_count s)).
Proof. unfold plife. cbn [acstep a_log]. now rewrite skipn_len, app_nil_r. Qed.
Lemma plife_act i t s c : a_objs (p_life s) i = Some c -> exists a,
  plife (AAct i t) s = Some (PServer a (p_log s ++ map SLife
    (match c_listener c with
     | Some l => EvAfterCreate l (Socket (a_count (p_life s)) (c_conn c) false) (c_params c) :: (if t then [] else [EvListen (Socket (a_count (p_life s)) (c_conn c) false)])
     | None => [EvListen (Socket (a_count (p_life s)) (c_conn c) false)] end)) (p_crowd s) (p_made s) (p_count s)) /\
  a_listener a = a_listener (p_life s) /\
  a_objs a = upd (a_objs (p_life s)) i (Some (SCor (c_conn c) (c_params c) (c_listener c) (Some (Socket (a_count (p_life s)) (c_conn c) false)))).
Proof.
  intros E. destruct (life_act i t (Server (p_life s) (fun i => (ARun, Conf header_init [] [] (snd (p_crowd s i)))) (p_log s)) c E) as (a & E1 & E2 & E3).
  exists a. split; [|auto]. unfold plife. unfold life in E1. cbn [v_life v_log v_run] in E1. destruct (acstep (AAct i t) (p_life s)) as [a'|]; [|discriminate].
  injection E1 as -> E4. now rewrite E4.
Qed.
Lemma plife_destroy i s c : a_objs (p_life s) i = Some c -> exists a,
  plife (ADestroy i) s = Some (PServer a (p_log s ++ map SLife
    (match c_listener c, c_socket c with Some l, Some k => [EvBeforeDestroy l k] | _, _ => [] end)) (p_crowd s) (p_made s) (p_count s)) /\
  a_listener a = a_listener (p_life s) /\ a_objs a = upd (a_objs (p_life s)) i None.
Proof.
  intros E. destruct (life_destroy i (Server (p_life s) (fun i => (ARun, Conf header_init [] [] (snd (p_crowd s i)))) (p_log s)) c E) as (a & E1 & E2 & E3).
  exists a. split; [|auto]. unfold plife. unfold life in E1. cbn [v_life v_log v_run] in E1. destruct (acstep (ADestroy i) (p_life s)) as [a'|]; [|discriminate].
  injection E1 as -> E4. now rewrite E4.
Qed.

Lemma psinv_init ws : psinv (pserver_init ws).
Proof. intros i. exact I. Qed.

Lemma pview_app i a log l c m n : pview i (PServer a (log ++ l) c m n) = flat_map (seen_of i) log ++ flat_map (seen_of i) l.
Proof. unfold pview. cbn [p_log]. apply flat_map_app. Qed.

Ltac diff Hj := apply Nat.eqb_neq in Hj.
(** Each step is defined, and is a step of the parts it concerns. *)
Lemma qstep_part e s : psinv s -> exists s', qstep setup react e s = Some s' /\ psinv s' /\
  forall i, ppart_of i s' = if pconcerns i e then ppstep i e (ppart_of i s) else ppart_of i s.
Proof.
  intros HI. destruct e as [l|j p|j|j rs|j|j cs|j t]; unfold pconcerns; cbn [qstep conn_of].
  - rewrite plife_set. eexists. split; [reflexivity|]. split; [exact HI|]. intros i. reflexivity.
  - rewrite plife_handle. eexists. split; [reflexivity|]. split.
    + intros i. cbn [p_life a_objs]. apply own_upd; [exact HI|]. split; [reflexivity|exact I].
    + intros i. unfold ppart_of, ppstep. cbn [p_life a_listener a_objs p_crowd p_made p_count].
      destruct (Nat.eqb_spec j i) as [->|Hj]; [rewrite upd_same; reflexivity|]. rewrite upd_other by congruence. reflexivity.
  - destruct (a_objs (p_life s) j) as [c|] eqn:Eo.
    2: { exists s. split; [reflexivity|]. split; [exact HI|]. intros i. destruct (Nat.eqb_spec j i) as [->|Hj]; [|reflexivity].
         unfold ppstep, ppart_of. rewrite Eo. reflexivity. }
    pose proof (HI j) as Hj0. rewrite Eo in Hj0. destruct Hj0 as [Hc Hk].
    destruct (c_socket c) as [k|] eqn:Ek.
    + cbv zeta. set (cr := kstep (react j) (CTick 0) (p_crowd s j)).
      set (s1 := note_calls j (p_crowd s j) (set_crowd j cr s)).
      assert (p_crowd s1 j = cr) as Ecr by apply upd_same.
      assert (forall i, pview i s1 = pview i s ++ if Nat.eqb j i then called (news (p_crowd s j) cr) else []) as HV1.
      { intros i. unfold s1, note_calls, set_crowd. cbn [p_life p_log p_crowd p_made p_count]. rewrite upd_same, pview_app, view_calls. reflexivity. }
      rewrite Ecr. change over with ended. destruct (ended (k_status (fst cr 0))) eqn:Een.
      * destruct (plife_destroy j s1 c Eo) as (a & Ea & H1 & H2). rewrite Ea. eexists. split; [reflexivity|].
        split; [intros i; cbn [p_life]; rewrite H2; apply own_upd; [exact HI|exact I]|].
        intros i. unfold ppart_of. rewrite pview_app. fold (pview i s1). rewrite HV1. cbn [p_life p_crowd p_made p_count]. rewrite H1, H2. cbn [s1 note_calls set_crowd p_life p_crowd p_made p_count].
        destruct (Nat.eqb_spec j i) as [->|Hj].
        -- rewrite !upd_same, Eo. cbn [ppstep obj_part]. rewrite Ek. cbn zeta. fold cr. rewrite Een. cbn [obj_part]. f_equal.
           rewrite <- app_assoc. f_equal. f_equal. destruct (c_listener c) as [l|]; cbn [map flat_map seen_of destroyed]; [|reflexivity].
           rewrite Hk, Nat.eqb_refl. reflexivity.
        -- rewrite !upd_other by congruence. rewrite app_nil_r. f_equal.
           rewrite Ek. destruct (c_listener c) as [l|]; cbn [map flat_map seen_of]; [|now rewrite app_nil_r].
           rewrite Hk. diff Hj. rewrite Hj. cbn [app]. now rewrite app_nil_r.
      * exists s1. split; [reflexivity|]. split; [exact HI|].
        intros i. unfold ppart_of. rewrite HV1. cbn [s1 note_calls set_crowd p_life p_crowd p_made p_count].
        destruct (Nat.eqb_spec j i) as [->|Hj].
        -- rewrite upd_same, Eo. cbn [ppstep obj_part]. rewrite Ek. cbn zeta. fold cr. rewrite Een. cbn [obj_part]. reflexivity.
        -- rewrite upd_other by congruence. now rewrite app_nil_r.
    + change (at_pcreate setup) with (pplan setup). destruct (pplan setup (c_listener c) (c_params c)) as [xs throws] eqn:Ep.
      change (fold_left (fun k x => apply_ext x k) xs (sock_new false)) with (served_sock xs). cbv zeta. set (w := set_sock (snd (p_crowd s j)) (served_sock xs)).
      destruct (plife_act j throws s c Eo) as (a & Ea & H1 & H2). rewrite Ea. cbn [p_life p_log p_crowd p_made p_count]. destruct throws.
      * match goal with |- context [plife _ ?x] => set (s1 := x) end.
        edestruct (plife_destroy j s1) as (a2 & Ea2 & G1 & G2); [cbn [s1 p_life]; rewrite H2; apply upd_same|].
        cbn [c_listener c_socket] in Ea2. rewrite Ea2. eexists. split; [reflexivity|]. split.
        { intros i. cbn [p_life]. rewrite G2. cbn [s1 p_life]. rewrite H2. intros. apply own_upd; [|exact I]. apply own_upd; [exact HI|]. split; assumption. }
        intros i. unfold ppart_of. rewrite pview_app. cbn [s1 p_life p_log p_crowd p_made p_count]. rewrite flat_map_app. fold (pview i s). rewrite G1, G2. cbn [s1 p_life]. rewrite H1, H2.
        destruct (c_listener c) as [l|] eqn:El; [|discriminate].
        destruct (Nat.eqb_spec j i) as [->|Hj].
        -- rewrite !upd_same, Eo. cbn [ppstep obj_part c_params c_listener c_socket]. rewrite Ek, El. cbn iota. rewrite Ep. cbv zeta. f_equal.
           cbn [map flat_map seen_of created destroyed app k_conn]; rewrite Hc, ?Nat.eqb_refl. cbn [app]. now rewrite <- app_assoc.
        -- rewrite !upd_other by congruence. f_equal. diff Hj.
           cbn [map flat_map seen_of app k_conn]. rewrite Hc, ?Hj. cbn [app]. now rewrite !app_nil_r.
      * eexists. split; [reflexivity|]. split.
        { intros i. cbn [p_life]. rewrite H2. apply own_upd; [exact HI|]. split; assumption. }
        intros i. unfold ppart_of. cbn [p_life p_crowd p_made p_count]. rewrite pview_app, H1, H2. fold (pview i s).
        destruct (Nat.eqb_spec j i) as [->|Hj].
        -- rewrite !upd_same, Eo. cbn [ppstep obj_part c_params c_listener c_socket]. rewrite Ek. cbn iota. rewrite Ep. cbv zeta. f_equal.
           destruct (c_listener c) as [l|]; cbn [map flat_map seen_of created app k_conn]; rewrite Hc, ?Nat.eqb_refl; reflexivity.
        -- rewrite !upd_other by congruence. f_equal. diff Hj.
           destruct (c_listener c) as [l|]; cbn [map flat_map seen_of created app k_conn]; rewrite Hc, ?Hj; cbn [app]; now rewrite app_nil_r.
  - eexists. split; [reflexivity|]. split; [exact HI|]. intros i. unfold ppart_of, set_crowd. cbn [p_life p_crowd p_made p_count ppstep].
    destruct (Nat.eqb_spec j i) as [->|Hj]; [now rewrite upd_same|]. now rewrite upd_other by congruence.
  - destruct (a_objs (p_life s) j) as [c|] eqn:Eo.
    2: { exists s. split; [reflexivity|]. split; [exact HI|]. intros i. destruct (Nat.eqb_spec j i) as [->|Hj]; [|reflexivity].
         unfold ppstep, ppart_of. rewrite Eo. reflexivity. }
    pose proof (HI j) as Hj0. rewrite Eo in Hj0. destruct Hj0 as [Hc Hk].
    destruct (plife_destroy j s c Eo) as (a & Ea & H1 & H2). rewrite Ea. eexists. split; [reflexivity|].
    split; [intros i; cbn [p_life]; rewrite H2; apply own_upd; [exact HI|exact I]|].
    intros i. unfold ppart_of. rewrite pview_app. fold (pview i s). cbn [p_life p_crowd p_made p_count]. rewrite H1, H2.
    destruct (Nat.eqb_spec j i) as [->|Hj].
    + rewrite !upd_same, Eo. cbn [ppstep obj_part]. f_equal.
      destruct (c_listener c) as [l|]; destruct (c_socket c) as [k|]; cbn [map flat_map seen_of destroyed]; try reflexivity.
      rewrite Hk, Nat.eqb_refl. reflexivity.
    + rewrite !upd_other by congruence. f_equal. diff Hj.
      destruct (c_listener c) as [l|]; destruct (c_socket c) as [k|]; cbn [map flat_map seen_of app]; try now rewrite app_nil_r.
      rewrite Hk, Hj. cbn [app]. now rewrite app_nil_r.
  - destruct (p_made s j) eqn:Em.
    + eexists. split; [reflexivity|]. split; [exact HI|]. intros i. unfold ppart_of. cbn [p_life p_crowd p_made p_count ppstep].
      destruct (Nat.eqb_spec j i) as [->|Hj]; [now rewrite !upd_same, Em|]. now rewrite !upd_other by congruence.
    + eexists. split; [reflexivity|]. split; [exact HI|]. intros i. destruct (Nat.eqb_spec j i) as [->|Hj]; [|reflexivity].
      unfold ppstep, ppart_of. now rewrite Em.
  - destruct ((1 <=? t) && (t <=? p_count s j)) eqn:Et.
    + eexists. split; [reflexivity|]. split; [exact HI|]. intros i. unfold ppart_of, note_calls, set_crowd. cbn [p_life p_log p_crowd p_made p_count]. rewrite upd_same, pview_app, view_calls. fold (pview i s). cbn [ppstep].
      destruct (Nat.eqb_spec j i) as [->|Hj]; [now rewrite !upd_same, Et|]. rewrite !upd_other by congruence. now rewrite app_nil_r.
    + eexists. split; [reflexivity|]. split; [exact HI|]. intros i. destruct (Nat.eqb_spec j i) as [->|Hj]; [|reflexivity].
      unfold ppstep, ppart_of. now rewrite Et.
Qed.

Lemma prun_part evs : forall s, psinv s -> exists s', prun setup react evs s = Some s' /\ psinv s' /\
  forall i, ppart_of i s' = fold_left (fun x e => ppstep i e x) (pown i evs) (ppart_of i s).
Proof.
  induction evs as [|e evs IH]; intros s HI; cbn [prun pown filter].
  - exists s. auto.
  - destruct (qstep_part e s HI) as (s1 & E1 & H1 & H2). rewrite E1. destruct (IH s1 H1) as (s2 & E2 & G1 & G2).
    exists s2. split; [exact E2|]. split; [exact G1|]. intros i. rewrite G2. unfold pown. rewrite H2. now destruct (pconcerns i e).
Qed.
End Part.
