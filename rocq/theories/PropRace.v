(** C86: threads may send on a socket while one listens. *)
From Verif Require Import Bytes Frame World WebSocket SpecFrame SpecSend ProofFrame Threads Process SpecRace.
From Coq Require Import Lia.
Local Open Scope N_scope.
Local Arguments takeN : simpl never.
Local Arguments dropN : simpl never.
Local Arguments lenN : simpl never.
Local Arguments be_enc : simpl never.
Local Arguments packHeaderBits : simpl never.

(** The listening thread: any access but assigning m_config. *)
Inductive listening {A} : prog A -> Prop :=
| li_done o : listening (PDone o)
| li_atom u k : (forall v, listening (k v)) -> listening (PAtom u k)
| li_acc k : (forall s, listening (k s)) -> listening (PAcc k)
| li_ext x k : (forall m b, x <> XSetConfig m b) -> listening k -> listening (PExt x k)
| li_begin k : listening k -> listening (PBegin k)
| li_stop k : listening k -> listening (PStop k)
| li_rand n k : (forall b, listening (k b)) -> listening (PRand n k)
| li_write d got k : (forall n, listening (k n)) -> listening (PWrite d got k)
| li_mark e k : listening k -> listening (PMark e k).
(** A sending thread: reads m_config, assigns m_listening only after a failure ([failed] = true). [Q]: what it returns if nothing has failed. *)
Inductive sending {A} (Q : A -> Prop) : bool -> prog A -> Prop :=
| se_done b o : (b = false -> forall a, o = Ret a -> Q a) -> sending Q b (PDone o)
| se_acc b k : (forall s s', k_mask s = k_mask s' -> k s = k s') -> (forall s, sending Q b (k s)) -> sending Q b (PAcc k)
| se_stop k : sending Q true k -> sending Q true (PStop k)
| se_rand b n k : (forall m, sending Q b (k m)) -> sending Q b (PRand n k)
| se_write b d got k : sending Q b (k (got + lenN d)) -> (forall n, sending Q true (k n)) -> sending Q b (PWrite d got k)
| se_mark b e k : sending Q b k -> sending Q b (PMark e k).

Lemma li_bind {A B} (p : prog A) (f : A -> prog B) : listening p -> (forall a, listening (f a)) -> listening (pbind p f).
Proof.
  intros H Hf. induction H; cbn [pbind]; try (constructor; auto; fail).
  destruct o; try constructor. apply Hf.
Qed.
Lemma li_try p : listening p -> listening (ptry p).
Proof. induction 1; cbn [ptry]; try (constructor; auto; fail). destruct o; constructor. Qed.
Lemma se_true {A} (Q : A -> Prop) b (p : prog A) : sending Q b p -> sending Q true p.
Proof. induction 1; constructor; auto. discriminate. Qed.
Lemma se_bind {A B} Q R b (p : prog A) (f : A -> prog B) : sending Q b p -> (forall a, (b = false -> Q a) -> sending R b (f a)) -> (forall a, sending R true (f a)) ->
  sending R b (pbind p f).
Proof.
  intros H Hf Hf'. induction H; cbn [pbind]; try (constructor; auto; fail).
  - destruct o; try (constructor; discriminate). apply Hf. intros E. now apply H.
  - constructor; [|auto]. intros s s' Hs. now rewrite (H s s' Hs).
Qed.
Lemma se_try b p : sending (fun _ => True) b p -> sending (fun _ => True) b (ptry p).
Proof.
  induction 1; cbn [ptry]; try (constructor; auto; fail).
  - destruct o; constructor; auto.
  - constructor; [|auto]. intros s s' Hs. now rewrite (H s s' Hs).
Qed.
Lemma se_ret {A} (Q : A -> Prop) b a : (b = false -> Q a) -> sending Q b (pret a).
Proof. intros H. constructor. intros E a' E'. injection E' as <-. now apply H. Qed.
Lemma se_throw {A} (Q : A -> Prop) b e : sending Q b (pthrow e).
Proof. constructor. discriminate. Qed.

Lemma li_access {A} (f : shf -> A) : listening (paccess f).
Proof. constructor. intros s. constructor. Qed.
Lemma li_local {A} (m : M A) : listening (plocal m).
Proof. constructor. intros v. constructor. Qed.
Lemma li_pwrite d : listening (pwrite d).
Proof. constructor. intros n. constructor. Qed.
(** Sending. *)
Lemma se_pwrite d b : sending (fun n => n = lenN d) b (pwrite d).
Proof. constructor; [|intros n]; apply se_ret; [lia|discriminate]. Qed.
Definition whatever {A} : A -> Prop := fun _ => True.
Lemma se_checked d n e b : lenN d = n -> sending whatever b (pbind (pwrite d) (fun res => if negb (res =? n) then pthrow e else pret tt)).
Proof. intros Hn. eapply se_bind; [apply se_pwrite| |]; intros a _ || intros a; destruct (negb _); [apply se_throw|apply se_ret|apply se_throw|apply se_ret]; exact (fun _ => I). Qed.
Lemma se_header b h : sending whatever b (pwriteFrameHeader h).
Proof.
  unfold pwriteFrameHeader. destruct (packHeaderBits h) as [bb scenario].
  assert (forall x, sending whatever x
            (pbind (if scenario =? 2 then pbind (pwrite (be_enc 2 (i64_to_u16 (h_len h)))) (fun res => if negb (res =? 2) then pthrow ExLen2Write else pret tt)
                    else if scenario =? 3 then pbind (pwrite (be_enc 4 (i64_to_u32 (Z.shiftr (h_len h) 32)) ++ be_enc 4 (i64_to_u32 (Z.land (h_len h) 4294967295))))
                                                     (fun res => if negb (res =? 8) then pthrow ExLen3Write else pret tt)
                    else pret tt)
                   (fun _ => if h_hasMask h then pbind (pwrite (mask_bytes (h_mask h))) (fun res => if negb (res =? 4) then pthrow ExMaskWrite else pret tt) else pret tt))) as Hm.
  { intros x. assert (forall y, sending whatever y (if h_hasMask h then pbind (pwrite (mask_bytes (h_mask h))) (fun res => if negb (res =? 4) then pthrow ExMaskWrite else pret tt) else pret tt)) as Hk.
    { intros y. destruct (h_hasMask h); [apply se_checked; reflexivity|apply se_ret; exact (fun _ => I)]. }
    eapply (se_bind whatever); [|intros; apply Hk|intros; apply Hk].
    destruct (scenario =? 2); [|destruct (scenario =? 3)]; [apply se_checked; reflexivity|apply se_checked; reflexivity|apply se_ret; exact (fun _ => I)]. }
  eapply se_bind; [apply se_pwrite| |]; intros a _ || intros a; (destruct (negb _); [apply se_throw|apply Hm]).
Qed.
Lemma se_sendHeader b h fin op n : sending whatever b (psendFrameHeader h fin op n).
Proof.
  unfold psendFrameHeader. cbn [pbind paccess]. constructor.
  - intros s s' Hs. unfold pret. cbn [pbind]. now rewrite Hs.
  - intros s. unfold pret at 1. cbn [pbind].
    assert (forall x h2, sending whatever x (pbind (pwriteFrameHeader h2) (fun _ => pret h2))) as Hk.
    { intros x h2. eapply se_bind; [apply se_header| |]; intros; apply se_ret; exact (fun _ => I). }
    eapply (se_bind whatever); [|intros; apply Hk|intros; apply Hk].
    destruct (h_hasMask _); [constructor; intros m|]; apply se_ret; exact (fun _ => I).
Qed.
Lemma se_one b fin op m : sending (fun ok => ok = true) b (psendOneFrame fin op m).
Proof.
  unfold psendOneFrame. assert (forall x, sending (fun ok => ok = true) x (pbind (psendFrameHeader header_init fin op 0) (fun _ => pret true))) as H0.
  { intros x. eapply se_bind; [apply se_sendHeader| |]; intros; apply se_ret; auto. }
  destruct m as [[|y bs]|]; try apply H0. set (msg := y :: bs).
  assert (forall x h, sending (fun ok => ok = true) x (pbind (if h_hasMask h then if 2 ^ 31 <=? lenN msg then PDone (Ub UbSigned) else pwrite (xor_from (h_mask h) 0 msg) else pwrite msg)
                                                    (fun res => pret (res =? lenN msg)))) as Hk.
  { intros x h. eapply (se_bind (fun n => n = lenN msg)).
    - destruct (h_hasMask h); [destruct (_ <=? _)|]; [constructor; discriminate| |apply se_pwrite].
      rewrite <- (lenN_xor_from (h_mask h) 0 msg). apply se_pwrite.
    - intros a Ha. apply se_ret. intros E. rewrite (Ha E). apply N.eqb_refl.
    - intros a. apply se_ret. discriminate. }
  eapply se_bind; [apply se_sendHeader| |]; intros; apply Hk.
Qed.
Lemma se_send b op : sending whatever b (psend op).
Proof.
  assert (forall fin c m, sending whatever b (psendChecked fin c m)) as Hc.
  { intros fin c m. unfold psendChecked. eapply se_bind; [apply se_one| |].
    - intros a Ha. destruct a; [apply se_ret; exact (fun _ => I)|]. destruct b; [constructor; apply se_throw|]. discriminate (Ha eq_refl).
    - intros []; [apply se_ret; exact (fun _ => I)|]. constructor. apply se_throw. }
  destruct op; cbn [psend]; try apply Hc. eapply se_bind; [apply se_one| |]; intros; apply se_ret; exact (fun _ => I).
Qed.
Lemma se_cmds b cs : Forall only_sends cs -> sending whatever b (pexec_cmds cs).
Proof.
  revert b. induction cs as [|c cs IH]; intros b H; cbn [pexec_cmds]; [apply se_ret; exact (fun _ => I)|]. inversion H; subst.
  eapply (se_bind whatever); [|intros; now apply IH|intros; now apply IH].
  destruct c as [| | |[] op| | |fin op m]; try contradiction; cbn [pexec_cmd].
  - apply se_try. apply se_send.
  - apply se_send.
  - constructor; [reflexivity|intros; apply se_ret; exact (fun _ => I)].
  - constructor; [reflexivity|intros; apply se_throw].
  - eapply se_bind; [apply se_one| |].
    + intros [] _; [apply se_ret; exact (fun _ => I)|apply se_throw].
    + intros []; [apply se_ret; exact (fun _ => I)|apply se_throw].
Qed.

(** Listening. *)
Lemma li_header h : listening (pwriteFrameHeader h).
Proof.
  unfold pwriteFrameHeader. destruct (packHeaderBits h) as [bb scenario].
  apply li_bind; [apply li_pwrite|]. intros r. destruct (negb _); [constructor|].
  apply li_bind; [destruct (_ =? 2); [|destruct (_ =? 3)]|].
  - apply li_bind; [apply li_pwrite|]. intros r'. destruct (negb _); constructor.
  - apply li_bind; [apply li_pwrite|]. intros r'. destruct (negb _); constructor.
  - constructor.
  - intros _. destruct (h_hasMask h); [|constructor]. apply li_bind; [apply li_pwrite|]. intros r'. destruct (negb _); constructor.
Qed.
Lemma li_one fin op m : listening (psendOneFrame fin op m).
Proof.
  assert (forall h n, listening (psendFrameHeader h fin op n)) as Hh.
  { intros h n. unfold psendFrameHeader. apply li_bind; [apply li_access|]. intros k. apply li_bind.
    - destruct (h_hasMask _); [constructor; intros; constructor|constructor].
    - intros h2. apply li_bind; [apply li_header|]. intros _. constructor. }
  unfold psendOneFrame. destruct m as [[|y bs]|]; try (apply li_bind; [apply Hh|intros; constructor]).
  apply li_bind; [apply Hh|]. intros h. apply li_bind.
  - destruct (h_hasMask h); [destruct (_ <=? _)|]; [constructor|apply li_pwrite|apply li_pwrite].
  - intros r. constructor.
Qed.
Lemma li_send op : listening (psend op).
Proof.
  assert (forall fin c m, listening (psendChecked fin c m)) as Hc.
  { intros fin c m. apply li_bind; [apply li_one|]. intros []; repeat constructor. }
  destruct op; cbn [psend]; try apply Hc. apply li_bind; [apply li_one|]. intros; constructor.
Qed.
Lemma li_cmds cs : Forall no_config cs -> listening (pexec_cmds cs).
Proof.
  induction cs as [|c cs IH]; intros H; cbn [pexec_cmds]; [constructor|]. inversion H; subst. apply li_bind; [|intros; now apply IH].
  destruct c as [| | |[] op| | |fin op m]; try contradiction; cbn [pexec_cmd].
  - constructor; [discriminate|]. repeat constructor.
  - constructor; [discriminate|]. repeat constructor.
  - apply li_try. apply li_send.
  - apply li_send.
  - constructor. intros; constructor.
  - constructor. intros; constructor.
  - apply li_bind; [apply li_one|]. intros []; constructor.
Qed.
Section Listen.
Variable react : react_t.
Hypothesis Hr : forall l log, Forall no_config (react l log).
Lemma li_notify ev : listening (pnotify react ev).
Proof.
  apply li_bind; [apply li_access|]. intros [l|]; [|repeat constructor]. apply li_bind; [apply li_access|]. intros [l'|]; [|constructor].
  constructor. constructor. intros v. now apply li_cmds.
Qed.
Lemma li_loop fuel : forall h short alloc progress, listening (preadPayload_loop react fuel h short alloc progress).
Proof.
  induction fuel as [|fuel IH]; intros h short alloc progress; cbn [preadPayload_loop]; [constructor|].
  destruct (_ <? _)%Z; [|constructor]. apply li_bind; [apply li_access|]. intros d. apply li_bind; [apply li_local|]. intros [data|[]].
  - destruct (_ <? _)%Z; [constructor|]. cbv zeta. destruct short; [apply IH|]. apply li_bind; [apply li_notify|intros; apply IH].
  - apply IH.
  - constructor.
  - constructor.
Qed.
Lemma li_payload h short : listening (preadPayload react h short).
Proof.
  unfold preadPayload. destruct (_ && _)%bool; [constructor|]. apply li_bind; [apply li_access|]. intros al. destruct (_ <? _)%Z; [constructor|].
  apply li_bind; [constructor; intros; constructor|]. intros v. apply li_bind; [apply li_loop|]. intros s'. apply li_bind; [|intros; constructor].
  destruct short; [constructor|]. destruct (h_fin h); [apply li_notify|constructor].
Qed.
Lemma li_handle h : listening (phandleFrame react h).
Proof.
  assert (forall e, listening (pbind (preadPayload react h (Some [])) (fun p => pnotify react (e p)))) as Hc
    by (intros e; apply li_bind; [apply li_payload|intros; apply li_notify]).
  assert (listening (pbind (preadPayload react h None) (fun _ => pret tt))) as Hd by (apply li_bind; [apply li_payload|intros; constructor]).
  assert (listening (pbind (plocal (checkForContinuation h)) (fun ok : bool => if ok then pbind (preadPayload react h None) (fun _ => pret tt) else pthrow ExContinuationExpected))) as Hk
    by (apply li_bind; [apply li_local|intros []; [exact Hd|constructor]]).
  unfold phandleFrame.
  destruct (h_opcode h) as [|q]; [apply li_bind; [constructor; intros; constructor|]; intros v; destruct (_ <? _)%Z; [constructor|exact Hd]|].
  repeat match goal with |- context [match ?q with xH => _ | _ => _ end] => is_var q; destruct q end; first [exact Hk|apply (Hc (fun p => EvPing (str p)))|apply (Hc (fun p => EvPong (str p)))
    |apply (Hc (fun p => EvClose (close_code (str p)) (close_reason (str p))))|constructor].
Qed.
Lemma li_listen : listening (plisten react).
Proof.
  constructor. apply li_bind; [constructor; intros; constructor|]. intros v. apply li_try. generalize (S (script_size (v_in v))). intros fuel.
  generalize header_init. induction fuel as [|fuel IH]; intros h; cbn [plisten_loop]; [constructor|]. constructor.
  apply li_bind; [apply li_local|]. intros h'. apply li_bind; [apply li_handle|]. intros _. apply li_bind; [apply li_access|].
  intros b. destruct (_ && _)%bool; [apply IH|constructor].
Qed.
End Listen.

(** Steps. *)
Lemma li_step {A} (p : prog A) v g p' v' g' : listening p -> pstep p v g = Some (p', v', g') -> listening p'.
Proof.
  intros H E. destruct H; cbn [pstep] in E; try (injection E as <- <- <-; auto; fail); try discriminate.
  destruct d as [|y d]; [injection E as <- <- <-; auto|]. destruct (g_wr g) as [|[n|[]|] q]; try discriminate; injection E as <- <- <-; auto; now constructor.
Qed.
Lemma se_step {A} (Q : A -> Prop) b (p : prog A) v g p' v' g' : sending Q b p -> pstep p v g = Some (p', v', g') ->
  exists used, g_wr g = used ++ g_wr g' /\ sending Q true p' /\ (healthy used -> sending Q b p').
Proof.
  intros H E.
  assert (forall q, sending Q b q -> exists used, g_wr g = used ++ g_wr g /\ sending Q true q /\ (healthy used -> sending Q b q)) as Hsame
    by (intros q Hq; exists []; split; [reflexivity|]; split; [eapply se_true; exact Hq|auto]).
  destruct H as [b o Ho|b k Hk Hs|k Hk|b n k Hk|b d got k Hk Hk'|b e k Hk]; cbn [pstep] in E; try discriminate.
  - injection E as <- <- <-. apply Hsame. apply Hs.
  - injection E as <- <- <-. cbn [g_wr set_f]. apply Hsame. exact Hk.
  - injection E as <- <- <-. cbn [g_wr]. apply Hsame. apply Hk.
  - destruct d as [|y d]; [injection E as <- <- <-; apply Hsame; change (lenN []) with 0 in Hk; now rewrite N.add_0_r in Hk|].
    destruct (g_wr g) as [|[n|[]|] q] eqn:Eg; try discriminate; injection E as <- <- <-; cbn [g_wr].
    + apply Hsame. exact Hk.
    + exists [WAccept n]. split; [reflexivity|].
      assert (forall x, sending Q x (k (got + lenN (y :: d))) -> sending Q x (PWrite (dropN (N.pos n) (y :: d)) (got + lenN (takeN (N.pos n) (y :: d))) k)) as Hw.
      { intros x Hx. constructor; [|exact Hk']. rewrite <- N.add_assoc, <- lenN_app, take_drop. exact Hx. }
      split; [apply Hw; eapply se_true; exact Hk|intros _; now apply Hw].
    + exists [WIo IoRetry]. split; [reflexivity|]. split; [constructor; [eapply se_true; exact Hk|exact Hk']|]. intros _. now constructor.
    + exists [WIo IoZero]. split; [reflexivity|]. split; [apply Hk'|]. intros Hh. inversion Hh as [|? ? Hx]. destruct Hx.
    + exists [WIo IoBroken]. split; [reflexivity|]. split; [apply Hk'|]. intros Hh. inversion Hh as [|? ? Hx]. destruct Hx.
  - injection E as <- <- <-. apply Hsame. exact Hk.
Qed.
Lemma step_suffix {A} (p : prog A) v g p' v' g' : pstep p v g = Some (p', v', g') -> exists used, g_wr g = used ++ g_wr g'.
Proof.
  intros E. destruct p; cbn [pstep] in E; try discriminate; try (injection E as <- <- <-; now exists []).
  destruct d as [|y d]; [injection E as <- <- <-; now exists []|]. destruct (g_wr g) as [|[n|[]|] q]; try discriminate; injection E as <- <- <-; cbn [g_wr].
  - now exists [].
  - now exists [WAccept n].
  - now exists [WIo IoRetry].
  - now exists [WIo IoZero].
  - now exists [WIo IoBroken].
Qed.
Definition peace (b : bool) (s : system) : Prop := listening (fst (fst s 0%nat)) /\ forall i, i <> 0%nat -> sending whatever b (fst (fst s i)).
Lemma step_peace b i s : peace b s ->
  exists used, g_wr (snd s) = used ++ g_wr (snd (sstep i s)) /\ peace true (sstep i s) /\ (healthy used -> peace b (sstep i s)).
Proof.
  intros [H0 H1]. assert (forall s', peace b s' -> peace true s') as Hm by (intros s' [A B]; split; [exact A|]; intros j Hj; eapply se_true; apply B; exact Hj).
  unfold sstep. destruct (pstep _ _ _) as [[[p' v'] g']|] eqn:E.
  2:{ exists []. split; [reflexivity|]. split; [apply Hm|intros _]; split; assumption. }
  cbn [fst snd]. destruct (Nat.eq_dec i 0) as [-> |Hi].
  - destruct (step_suffix _ _ _ _ _ _ E) as [u Hu]. exists u. split; [exact Hu|].
    assert (peace b (fun j => if Nat.eqb j 0 then (p', v') else fst s j, g')) as Hp.
    { split; cbn [fst Nat.eqb]; [eapply li_step; eassumption|]. intros j Hj. destruct (Nat.eqb_spec j 0); [contradiction|now apply H1]. }
    split; [now apply Hm|auto].
  - destruct (se_step _ b _ _ _ _ _ _ (H1 i Hi) E) as (u & Hu & Ht & Hb). exists u. split; [exact Hu|].
    split; [|intros Hh]; (split; cbn [fst]; [destruct (Nat.eqb_spec 0 i); [congruence|exact H0]|]); intros j Hj; destruct (Nat.eqb_spec j i) as [-> |]; cbn [fst]; auto.
    eapply se_true. apply H1. exact Hj.
Qed.
Lemma run_peace b sch : forall s, peace b s ->
  exists used, g_wr (snd s) = used ++ g_wr (snd (srun sch s)) /\ peace true (srun sch s) /\ (healthy used -> peace b (srun sch s)).
Proof.
  revert b. induction sch as [|i sch IH]; intros b s H; cbn [srun].
  - exists []. split; [reflexivity|]. split; [|auto]. destruct H as [A B]. split; [exact A|]. intros j Hj. eapply se_true. apply B. exact Hj.
  - destruct (step_peace b i s H) as (u & Hu & Ht & Hb). destruct (IH true _ Ht) as (u2 & Hu2 & Ht2 & _). exists (u ++ u2).
    split; [now rewrite <- app_assoc, <- Hu2|]. split; [exact Ht2|]. intros Hh. apply Forall_app in Hh. destruct Hh as [Ha Hb2].
    destruct (IH b _ (Hb Ha)) as (u3 & Hu3 & _ & Hb3). assert (u3 = u2) as -> by (rewrite Hu2 in Hu3; now apply app_inv_tail in Hu3). now apply Hb3.
Qed.
Lemma peace_assigns b s f i : peace b s -> i <> 0%nat -> assigns (fst (fst s i)) f -> f = FListening /\ b = true.
Proof.
  intros [_ H] Hi Ha. specialize (H i Hi). destruct (fst (fst s i)); cbn in Ha; try contradiction; inversion H; subst; auto.
Qed.
Lemma peace_reads b s f i : peace b s -> i <> 0%nat -> reads (fst (fst s i)) f -> f = FConfig.
Proof.
  intros [_ H] Hi Ha. specialize (H i Hi). destruct (fst (fst s i)); cbn in Ha; try contradiction. inversion H as [|? ? Hk| | | |]; subst.
  destruct Ha as (x & x' & Hd & Hn). destruct f; [reflexivity|exfalso; apply Hn; apply Hk; apply Hd..].
Qed.
Lemma listening_assigns s f : listening (fst (fst s 0%nat)) -> assigns (fst (fst (s : system) 0%nat)) f -> f <> FConfig.
Proof.
  intros H Ha. destruct (fst (fst s 0%nat)); cbn in Ha; try contradiction; try (subst; discriminate). inversion H; subst.
  destruct x as [| |m b]; subst; try discriminate. exfalso. eapply H2. reflexivity.
Qed.
Lemma peace_race b s f : peace b s -> race_on f s -> f = FListening /\ b = true.
Proof.
  intros Hp (i & j & Hij & Ha & Hj). destruct (Nat.eq_dec i 0) as [-> |Hi].
  - assert (j <> 0%nat) as Hj0 by congruence. destruct Hj as [Hj|Hj]; [eapply peace_assigns; eassumption|].
    apply (peace_reads b s f j Hp Hj0) in Hj. exfalso. exact (listening_assigns s f (proj1 Hp) Ha Hj).
  - eapply peace_assigns; eassumption.
Qed.
Lemma init_peace react work w : (forall l log, Forall no_config (react l log)) -> (forall i, Forall only_sends (work i)) -> peace false (system_init react work w).
Proof.
  intros Hr Hw. split; [now apply li_listen|]. intros [|i] Hi; [contradiction|]. cbn. now apply se_cmds.
Qed.

(** One thread listens, its callbacks doing whatever they like except changing the configuration; any number of other threads send. Then,
    for every schedule: as long as no write has failed there is no race on any field of the socket; and after a failure, on no other field
    than the flag m_listening (which sendPing etc. reset when they fail). *)
Theorem C86_race_free : forall react work w sch f used,
  (forall l log, Forall no_config (react l log)) -> (forall i, Forall only_sends (work i)) ->
  let s := srun sch (system_init react work w) in
  w_wr w = used ++ g_wr (snd s) -> healthy used -> ~ race_on f s.
Proof.
  intros react work w sch f used Hr Hw s Hu Hh H. destruct (run_peace false sch _ (init_peace react work w Hr Hw)) as (u & Hu' & _ & Hp).
  cbn [snd system_init g_wr] in Hu'. fold s in Hu', Hp. assert (u = used) as -> by (rewrite Hu in Hu'; now apply app_inv_tail in Hu').
  now destruct (peace_race false s f (Hp Hh) H).
Qed.
Print Assumptions C86_race_free.
Theorem C86_only_the_flag : forall react work w sch f,
  (forall l log, Forall no_config (react l log)) -> (forall i, Forall only_sends (work i)) ->
  race_on f (srun sch (system_init react work w)) -> f = FListening.
Proof.
  intros react work w sch f Hr Hw H. destruct (run_peace false sch _ (init_peace react work w Hr Hw)) as (u & _ & Hp & _).
  now destruct (peace_race true _ f Hp H).
Qed.
Print Assumptions C86_only_the_flag.

(** What is not allowed: stopListening from another thread (at the latest together with the call of listen()), and setConfig while a third
    thread sends. *)
Theorem C86_stop_races : forall react work w i r, i <> 0%nat -> work i = CStop :: r -> race_on FListening (system_init react work w).
Proof.
  intros react work w i r Hi Hw. exists i, 0%nat. split; [exact Hi|]. destruct i; [contradiction|]. cbn [system_init fst]. rewrite Hw. split; [reflexivity|]. left. reflexivity.
Qed.
Theorem C86_config_races : forall react work w i j m b r catch op r',
  i <> 0%nat -> j <> 0%nat -> i <> j -> work i = CSetConfig m b :: r -> work j = CSend catch op :: r' -> race_on FConfig (system_init react work w).
Proof.
  intros react work w i j m b r catch op r' Hi Hj Hij Hw Hw'. exists i, j. split; [exact Hij|]. destruct i; [contradiction|]. destruct j; [contradiction|].
  cbn [system_init fst]. rewrite Hw, Hw'. split; [reflexivity|]. right.
  cbn [pexec_cmds pexec_cmd].
  destruct catch, op; cbn [psend]; unfold psendChecked, psendOneFrame.
  all: try match goal with |- context [match ?m with Some _ => _ | None => _ end] => destruct m as [[|y ys]|] end.
  all: unfold psendFrameHeader; cbn [pbind paccess ptry]; exists (Shf false 0 None false), (Shf true 0 None false); (split; [split; reflexivity|]).
  all: unfold pret, pwriteFrameHeader; cbn [pbind h_hasMask ptry k_mask]; destruct (packHeaderBits _); discriminate.
Qed.
(** A text message whose payload cannot be written: the sending thread resets the flag while another enters listen(). *)
Theorem C86_failure_races : forall react w,
  let w' := set_wr (set_sock w (sock_new false)) (w_out w) [WAccept 2; WIo IoBroken] in
  race_on FListening (srun [1; 1; 1; 1]%nat (system_init react (fun _ => [CSend true (SoText (Some [x61]))]) w')).
Proof.
  intros react w w'. exists 1%nat, 0%nat. split; [discriminate|]. split; [|left]; vm_compute; reflexivity.
Qed.

(** A listener that answers pings and replaces itself, and two threads that send; the connection takes the bytes one by one. *)
Example C86_nonvacuous :
  let react : react_t := fun l log => match snd (last log (0%nat, EvEnd 0)) with EvPing d => [CSend false (SoPong (Some d)); CSetListener (Some 8%nat); CStop] | _ => [] end in
  let work i := match i with 1%nat => [CSend false (SoText (Some [x61; x62]))] | 2%nat => [CSend true (SoPing (Some [x63])); CThrow] | _ => [] end in
  let w := World [RData x89 [x01; x64]] [WAccept 1; WIo IoRetry; WAccept 1; WAccept 1; WIo IoBroken] [] (fun _ => x07) 0 [] (set_listener (sock_new true) (Some 7%nat)) in
  let s := srun (concat (repeat [0; 1; 2]%nat 4)) (system_init react work w) in
  (forall l log, Forall no_config (react l log)) /\ (forall i, Forall only_sends (work i)) /\
  w_wr w = [WAccept 1; WIo IoRetry; WAccept 1; WAccept 1] ++ g_wr (snd s) /\ healthy [WAccept 1; WIo IoRetry; WAccept 1; WAccept 1] /\ g_out (snd s) = [x81; x82; x89].
Proof.
  cbv zeta. split; [|split; [|split; [|split]]].
  - intros l log. destruct (snd _); repeat constructor.
  - intros [|[|[|i]]]; repeat constructor.
  - vm_compute. reflexivity.
  - repeat constructor.
  - vm_compute. reflexivity.
Qed.
