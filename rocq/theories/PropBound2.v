(** C66, continued: what a peer can make listeners do is bounded by what it sends, whatever other threads and coroutines do. *)
From Verif Require Import Bytes Frame World WebSocket AsyncWebSocket Process SpecProcess Coroutines SpecCoroutines SpecFrame SpecListen SpecAsync PropBound PropProcessStop PropAsyncClose.
From Verif Require ProofFrame ProofInv ProofStream ProofListen PropAsync ProofAsync2 PropProper.
From Coq Require Import ZifyBool ZifyNat ZifyN.
Local Open Scope N_scope.
Local Open Scope p_scope.
Local Arguments takeN : simpl never.
Local Arguments dropN : simpl never.
Local Arguments lenN : simpl never.
Local Arguments be_enc : simpl never.
Local Arguments be_dec : simpl never.
Notation step := AsyncWebSocket.step.

(** ** Threads *)
Definition pspent (v v' : priv) (pre post : N) : Prop := spent (world_of v) (world_of v') pre post.
Lemma pspent_same v v' p q : v_log v' = v_log v -> v_in v' = v_in v -> q <= p -> pspent v v' p q.
Proof. intros H1 H2 H. now apply spent_same. Qed.

Fixpoint pf {A} (Q : A -> N) (p : prog A) (n : N) : Prop :=
  match p with
  | PDone (Ret a) => Q a <= n
  | PDone _ => True
  | PAtom u k => forall v, exists n', pspent v (u v) n n' /\ pf Q (k v) n'
  | PAcc k => forall s, pf Q (k s) n
  | PExt _ k => pf Q k n
  | PStop k => pf Q k n
  | PMark _ k => pf Q k n
  | PBegin k => pf Q k n
  | PRand m k => forall b, pf Q (k b) n
  | PWrite d got k => forall m, pf Q (k m) n
  end.
Lemma pf_weak {A} (Q Q' : A -> N) : (forall a, Q' a <= Q a) -> forall p n n', pf Q p n -> n <= n' -> pf Q' p n'.
Proof.
  intros HQ. induction p as [o|u k IH|k IH|x k IH|k IH|k IH|m k IH|d got k IH|e k IH]; intros n n' Hp Hn; cbn [pf] in *; eauto.
  - destruct o; try exact Logic.I. pose proof (HQ a). lia.
  - intros v. destruct (Hp v) as (n1 & H1 & H2). exists n1. split; [|exact (IH v _ _ H2 (N.le_refl _))].
    eapply spent_less; [exact H1|exact Hn|apply N.le_refl].
Qed.
Lemma pf_bind {A B} (Q : A -> N) (R : B -> N) (f : A -> prog B) : (forall a, pf R (f a) (Q a)) -> forall p n, pf Q p n -> pf R (pbind p f) n.
Proof.
  intros Hf. induction p as [o|u k IH|k IH|x k IH|k IH|k IH|m k IH|d got k IH|e k IH]; intros n Hp; cbn [pbind pf] in *; auto.
  - destruct o; try exact Logic.I. eapply pf_weak; [intros; apply N.le_refl|apply Hf|exact Hp].
  - intros v. destruct (Hp v) as (n1 & H1 & H2). exists n1. split; [exact H1|now apply IH].
Qed.
Lemma pf_try : forall p n, pf (fun _ => 0) p n -> pf (fun _ => 0) (ptry p) n.
Proof.
  induction p as [o|u k IH|k IH|x k IH|k IH|k IH|m k IH|d got k IH|e k IH]; intros n Hp; cbn [ptry pf] in *; auto.
  - destruct o; try exact Logic.I; cbn; lia.
  - intros v. destruct (Hp v) as (n1 & H1 & H2). exists n1. split; [exact H1|now apply IH].
Qed.
Lemma mute_pf {A} q : forall (p : prog A) n, mute p -> q <= n -> pf (fun _ => q) p n.
Proof.
  induction p as [o|u k IH|k IH|x k IH|k IH|k IH|m k IH|d got k IH|e k IH]; intros n Hp Hn; cbn [mute pf] in *; auto; try destruct Hp.
  destruct o; try exact Logic.I. exact Hn.
Qed.
Lemma pf_local {A} n (m : M A) (Q : A -> N) : fee n m Q -> pf Q (plocal m) n.
Proof.
  intros Hm. cbn [plocal pf]. intros v. destruct (m (world_of v)) as [o w'] eqn:E. apply Hm in E. cbn [fst snd].
  exists (left Q o). split.
  - destruct E as (new & c & H1 & H2 & H3). exists new, c. now split.
  - destruct o; try exact Logic.I. apply N.le_refl.
Qed.

Section Threads.
Variable react : react_t.

Lemma pf_notify ev q n : price ev + q <= n -> pf (fun _ => q) (pnotify react ev) n.
Proof.
  intros Hn. unfold pnotify. cbn [paccess pbind pf pret]. intros s. destruct (k_listener s) as [l|]; [|cbn [pf pret]; lia].
  cbn [paccess pbind pf pret]. intros s2. destruct (k_listener s2) as [l2|]; [|exact Logic.I].
  cbn [pf]. intros v. exists q. split; [|apply mute_pf; [apply mute_cmds|apply N.le_refl]].
  exists [(l2, ev)], []. split; [reflexivity|]. split; [reflexivity|]. cbn [total snd]. clear -Hn. change (lenN (@nil byte)) with 0. lia.
Qed.
Lemma fee_read n p : fee p (readSimple n) (fun r => p + match r with inl d => N.max 1 (lenN d) | inr _ => 0 end).
Proof.
  intros w o w' E. unfold readSimple in E.
  destruct (Z.ltb_spec n 0) as [|Hn]; [injection E as <- <-; apply spent_same; [reflexivity|reflexivity|cbn; lia]|].
  destruct (Z.eqb_spec n 0); [injection E as <- <-; apply spent_same; [reflexivity|reflexivity|cbn; lia]|].
  destruct (read_raw (Z.to_N n) (w_in w) (w_sock w)) as [[r s1] k1] eqn:E1.
  apply ProofStream.read_raw_bytes in E1; [|lia].
  destruct r as [d|e|]; injection E as <- <-.
  - destruct E1 as (HB & H0 & _). eapply spent_read with (d := d); [reflexivity|exact HB|]. cbn [left]. lia.
  - destruct E1 as (HB & _). eapply spent_read with (d := []); [reflexivity|exact HB|]. cbn [left]. lia.
  - destruct E1 as (HB & ->). eapply spent_read with (d := []); [reflexivity|exact HB|]. cbn [left]. lia.
Qed.
Lemma pf_loop fuel : forall h short alloc progress n,
  pf (fun s => n + match short with Some _ => held s | None => 0 end) (preadPayload_loop react fuel h short alloc progress) (n + held short).
Proof.
  induction fuel as [|fuel IH]; intros h short alloc progress n; cbn [preadPayload_loop]; [exact Logic.I|].
  destruct (progress <? h_len h)%Z; [|cbn [pf pret]; destruct short; cbn [held]; lia].
  cbn [paccess pbind pret pf]. intros s. cbv zeta.
  eapply pf_bind; [|apply pf_local; apply (fee_read _ (n + held short))].
  intros [d|[]]; cbv beta; [|eapply pf_weak; [|apply (IH h short alloc progress n)|]; [intros; apply N.le_refl|lia]|exact Logic.I..].
  destruct (alloc <? Z.of_N (lenN d))%Z; [exact Logic.I|].
  set (d' := if h_hasMask h then _ else _).
  assert (lenN d' = lenN d) as Hd by (subst d'; destruct (h_hasMask h); [apply ProofFrame.lenN_xor_from|reflexivity]). clearbody d'.
  destruct short as [sh|]; cbn [held].
  - eapply pf_weak; [|apply (IH h (Some (sh ++ d')) alloc _ n)|]; [intros; cbv beta; apply N.le_refl|cbn [held]; rewrite lenN_app; lia].
  - eapply (pf_bind (fun _ => n + held None)); [|apply pf_notify; cbn [price held]; lia]. intros _. apply (IH h None alloc _ n).
Qed.
Lemma pf_short h n : pf (fun s => n + held s) (preadPayload react h (Some [])) n.
Proof.
  unfold preadPayload. destruct (_ && _)%bool; [exact Logic.I|]. cbn [paccess pbind pret pf]. intros s. destruct (_ <? 0)%Z; [exact Logic.I|].
  cbn [pget pbind pret pf]. intros v. exists n. split; [apply pspent_same; [reflexivity..|lia]|].
  eapply pf_bind; [|eapply pf_weak; [|apply (pf_loop _ h (Some []) _ _ n)|]; [intros; apply N.le_refl|cbn [held]; rewrite lenN_nil; lia]].
  intros r. cbn [pbind pf pret]. lia.
Qed.
Lemma pf_long h : pf (fun _ => 0) (preadPayload react h None) 2.
Proof.
  unfold preadPayload. cbn [andb paccess pbind pret pf]. intros s. destruct (_ <? 0)%Z; [exact Logic.I|].
  cbn [pget pbind pret pf]. intros v. exists 2. split; [apply pspent_same; [reflexivity..|lia]|].
  eapply pf_bind; [|eapply pf_weak; [|apply (pf_loop _ h None _ _ 2)|]; [intros; apply N.le_refl|cbn [held]; lia]].
  intros r. cbv beta. eapply (pf_bind (fun _ => 0)); [intros _; cbn; lia|].
  destruct (h_fin h); [apply pf_notify; cbn; lia|cbn; lia].
Qed.
Lemma pf_handle h : pf (fun _ => 0) (phandleFrame react h) 2.
Proof.
  assert (HL : pf (fun _ => 0) (preadPayload react h None ;;; pret tt) 2) by (eapply pf_bind; [|apply pf_long]; intros; cbn; lia).
  assert (HS : forall ev, (forall p, price (ev p) <= 2 + held p) -> pf (fun _ => 0) (p <- preadPayload react h (Some []) ;; pnotify react (ev p)) 2).
  { intros ev Hev. eapply pf_bind; [|apply pf_short]. intros p. apply pf_notify. pose proof (Hev p). lia. }
  assert (HC : pf (fun _ => 0) (ok <- plocal (checkForContinuation h) ;; if (ok : bool) then preadPayload react h None ;;; pret tt else pthrow ExContinuationExpected) 2).
  { eapply (pf_bind (fun _ => 2)); [intros []; [exact HL|exact Logic.I]|]. apply pf_local.
    unfold checkForContinuation. eapply fee_bind; [apply fee_get|]. intros w0. cbv beta zeta. destruct (_ || _)%bool; [apply fee_ret; lia|].
    eapply fee_bind; [apply fee_sock|]. intros ?; cbv beta. apply fee_ret. lia. }
  unfold phandleFrame. destruct (h_opcode h) as [|q] eqn:En;
  [|destruct q as [[[p|[p|p|]|]|[[p|p|]|[p|p|]|]|]|[[[p|p|]|[p|p|]|]|[[p|p|]|[p|p|]|]|]|]]; try exact Logic.I; try exact HC.
  - cbn [pget pbind pret pf]. intros v. exists 2. split; [apply pspent_same; [reflexivity..|lia]|]. destruct (_ <? 0)%Z; [exact Logic.I|exact HL].
  - apply (HS (fun p => EvPing (str p))). intros p. cbn [price carried]. rewrite str_held. lia.
  - apply (HS (fun p => EvPong (str p))). intros p. cbn [price carried]. rewrite str_held. lia.
  - apply (HS (fun p => EvClose (close_code (str p)) (close_reason (str p)))). intros p. cbn [price carried].
    pose proof (close_reason_len (str p)) as H. rewrite str_held in H. lia.
Qed.
Lemma pf_listen_loop : forall fuel h, pf (fun _ => 0) (plisten_loop react fuel h) 0.
Proof.
  induction fuel as [|fuel IH]; intros h; cbn [plisten_loop pf]; [exact Logic.I|].
  eapply pf_bind; [|apply pf_local; apply (fee_header h 0)]. intros h'. cbv beta. change (0 + 2) with 2.
  eapply pf_bind; [|apply pf_handle]. intros u. cbn [paccess pbind pret pf]. intros s.
  destruct (_ && _)%bool; [apply IH|cbn; lia].
Qed.
Lemma pf_listen : pf (fun _ => 0) (plisten react) 0.
Proof. unfold plisten, pget, pret. cbn [pbind pf]. intros v. exists 0. split; [apply pspent_same; [reflexivity..|lia]|]. apply pf_try, pf_listen_loop. Qed.

Lemma pf_step : forall p v g p' v' g' n, pf (fun _ : unit => 0) p n -> pstep p v g = Some (p', v', g') ->
  exists n', pspent v v' n n' /\ pf (fun _ => 0) p' n'.
Proof.
  intros p v g p' v' g' n Hp E.
  assert (Hr : pspent v v n n) by (apply pspent_same; [reflexivity..|lia]).
  destruct p as [o|u k|k|x k|k|k|m k|d got k|e k]; cbn [pstep] in E; cbn [pf] in Hp;
    try (injection E as <- <- <-; exists n; split; [exact Hr|]; first [exact Hp|apply Hp]; fail).
  - discriminate E.
  - injection E as <- <- <-. destruct (Hp v) as (n' & H1 & H2). exists n'. now split.
  - destruct d as [|b d]; [injection E as <- <- <-; exists n; split; [exact Hr|apply Hp]|].
    destruct (g_wr g) as [|[m|[]|] q]; try discriminate E; injection E as <- <- <-; exists n; (split; [exact Hr|]); first [exact Hp|apply Hp].
Qed.
Definition all_pf (v0 : priv) (s : system) : Prop := exists n, pspent v0 (snd (fst s 0%nat)) 0 n /\ pf (fun _ => 0) (fst (fst s 0%nat)) n.
Lemma all_pf_step v0 i s : all_pf v0 s -> all_pf v0 (sstep i s).
Proof.
  intros (n & H1 & H2). unfold sstep, all_pf. destruct (pstep _ _ _) as [[[p v] g]|] eqn:E; [|now exists n].
  cbn [fst snd]. destruct (Nat.eqb_spec 0 i) as [<-|]; [|now exists n].
  destruct (pf_step _ _ _ _ _ _ _ H2 E) as (n' & H3 & H4). exists n'. split; [|exact H4]. eapply spent_trans; eassumption.
Qed.
Lemma all_pf_run v0 : forall sch s, all_pf v0 s -> all_pf v0 (srun sch s).
Proof. induction sch as [|i sch IH]; intros s H; cbn [srun]; [exact H|]. apply IH, all_pf_step, H. Qed.
End Threads.

(** C66 for a thread listening while others send, reconfigure, replace the listener and stop: at every moment of every schedule. *)
Theorem C66_threads : forall react work w sch,
  let s := srun sch (system_init react work w) in
  exists new consumed, told s = w_log w ++ new /\ bytes_of (w_in w) = consumed ++ bytes_of (v_in (snd (fst s 0%nat))) /\ paid_by new consumed.
Proof.
  intros react work w sch s. destruct (all_pf_run (priv_of w) sch (system_init react work w)) as (n & (new & c & H1 & H2 & H3) & _).
  - exists 0. split; [apply pspent_same; [reflexivity..|lia]|apply pf_listen].
  - exists new, c. split; [exact H1|]. split; [exact H2|]. apply paid. fold s in H3. lia.
Qed.
Print Assumptions C66_threads.

(** ** Coroutines *)
Section Coroutines.
Variable react : react_t.

Lemma credit_talkers sh st : Forall talker st -> credit sh st = 0.
Proof. intros H. rewrite <- (app_nil_r st). rewrite (credit_users sh st []) by exact H. reflexivity. Qed.
Lemma shape3_talkers st : Forall talker st -> shape3 st.
Proof. intros H. rewrite <- (app_nil_r st). constructor; [exact H|constructor]. Qed.

Definition crowd_paid (w0 : world) (s : crowd_t) : Prop :=
  shape3 (k_stack (fst s 0%nat)) /\ spent w0 (snd s) 0 (credit (k_short (fst s 0%nat)) (k_stack (fst s 0%nat))) /\
  forall i, i <> 0%nat -> Forall talker (k_stack (fst s i)).
Lemma crowd_paid_tick w0 i s : crowd_paid w0 s -> crowd_paid w0 (kstep react (CTick i) s).
Proof.
  intros (H0 & H1 & Hi). cbn [kstep]. destruct (ktick react (fst s i) (snd s)) as [k w] eqn:E.
  destruct (ktick_cases _ _ _ _ _ E) as [[-> ->]|(st & c & Es & -> & ->)].
  - split; [|split]; cbn [fst snd].
    + destruct (Nat.eqb_spec 0 i) as [<-|]; exact H0.
    + destruct (Nat.eqb_spec 0 i) as [<-|]; exact H1.
    + intros j Hj. destruct (Nat.eqb_spec j i) as [->|]; now apply Hi.
  - pose proof (step_good react (Conf (k_hdr (fst s i)) (k_short (fst s i)) (k_stack (fst s i)) (snd s))) as G.
    rewrite Es in G. cbn [snd c_stack] in G.
    destruct (Nat.eqb_spec 0 i) as [<-|Hn].
    + destruct (G H0) as [G1 G2]. cbn [c_world c_short c_stack] in G2. unfold crowd_paid. cbn [fst snd Nat.eqb k_stack k_short].
      split; [exact G1|]. split; [eapply spent_trans; eassumption|].
      intros [|j] Hj; [now destruct Hj|]. now apply Hi.
    + pose proof (Hi i (fun x => Hn (eq_sym x))) as Ht. destruct (G (shape3_talkers _ Ht)) as [G1 G2].
      cbn [c_world c_short c_stack] in G2. rewrite (credit_talkers _ _ Ht) in G2.
      destruct (talkers_step react _ _ _ _ _ _ Ht Es) as [_ Ht']. rewrite (credit_talkers _ _ Ht') in G2.
      unfold crowd_paid. cbn [fst snd]. destruct (Nat.eqb_spec 0 i) as [Hx|_]; [now destruct Hn|].
      split; [exact H0|]. split.
      * eapply spent_trans; [exact H1|]. eapply spent_less; [apply (spent_plus _ _ _ _ (credit (k_short (fst s 0%nat)) (k_stack (fst s 0%nat))) G2)|lia|lia].
      * intros j Hj. destruct (Nat.eqb_spec j i) as [->|]; [exact Ht'|now apply Hi].
Qed.
Lemma crowd_paid_run : forall evs w0 s, crowd_paid w0 s ->
  spent (ProofAsync2.arr (arrived evs) w0) (snd (krun react evs s)) 0 0.
Proof.
  unfold krun. induction evs as [|[i|rs] evs IH]; intros w0 s H; cbn [fold_left arrived].
  - destruct H as (_ & (new & c & H1 & H2 & H3) & _). exists new, c. unfold ProofAsync2.arr. cbn [w_in set_in w_log]. rewrite app_nil_r.
    split; [exact H1|]. split; [exact H2|]. lia.
  - apply IH, crowd_paid_tick, H.
  - destruct H as (H0 & H1 & Hi). specialize (IH (ProofAsync2.arr rs w0) (kstep react (CArrive rs) s)).
    unfold ProofAsync2.arr in *. cbn [w_in set_in] in IH. rewrite <- app_assoc in IH. apply IH.
    split; [exact H0|]. split; [exact (spent_arrive rs _ _ _ _ H1)|exact Hi].
Qed.
End Coroutines.

(** C66 for listenAsync() while other coroutines use the socket: any order of their steps and of arrivals. *)
Theorem C66_coroutines : forall react work w evs,
  let s := krun react evs (crowd_init work w) in
  exists new consumed, notified s = w_log w ++ new /\ bytes_of (w_in w ++ arrived evs) = consumed ++ bytes_of (w_in (snd s)) /\ paid_by new consumed.
Proof.
  intros react work w evs s. destruct (crowd_paid_run react evs w (crowd_init work w)) as (new & c & H1 & H2 & H3).
  - split; [apply (sh3 [] [CoListen]); constructor|]. split; [apply spent_same; [reflexivity..|cbn; lia]|].
    intros [|i] Hi; [now destruct Hi|]. apply Forall_cons; [exact Logic.I|apply Forall_nil].
  - exists new, c. split; [exact H1|]. split; [exact H2|]. apply paid. fold s in H3. lia.
Qed.
Print Assumptions C66_coroutines.

(** * A concrete case (PropProper.v): 14 of 16 bytes have been taken from the connection, and the five calls cost 12 of them; the ping that
    follows the Close frame is left. *)
Example C66_shared_nonvacuous :
  let t := srun (concat (repeat [0; 0; 0; 1]%nat 200)) (system_init PropProper.proper_react PropProper.proper_work PropProper.proper_world) in
  let s := krun PropProper.proper_react (concat (repeat [CTick 0; CTick 0; CTick 0; CTick 1] 60)) (crowd_init PropProper.proper_work PropProper.proper_world) in
  total price (told t) = 12 /\ v_in (snd (fst t 0%nat)) = [RData x89 [x00]] /\ lenN (bytes_of (w_in PropProper.proper_world)) = 16 /\
  total price (notified s) = 12 /\ w_in (snd s) = [RData x89 [x00]].
Proof. vm_compute. repeat split. Qed.
