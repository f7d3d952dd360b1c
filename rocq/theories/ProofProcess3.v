(** All threads of the interleaved system (Process.v) at once. *)
From Verif Require Import Bytes Frame World WebSocket AsyncWebSocket SpecFrame SpecSend SpecListen SpecApi SpecConfig SpecAsync Threads SpecThreads
  Concurrent SpecConcurrent Process ProofFrame ProofStream ProofSend ProofHeader ProofListen ProofInv ProofAsync ProofThreads ProofConcurrent ProofProcess ProofProcess2.
From Coq Require Import ZifyBool ZifyNat ZifyN.
Local Open Scope N_scope.
Local Arguments takeN : simpl never.
Local Arguments dropN : simpl never.
Local Arguments lenN : simpl never.
Local Arguments be_enc : simpl never.
Local Arguments be_dec : simpl never.
Local Arguments packHeaderBits : simpl never.

(** Commands that make only [ok] calls; a send that fails stops listening unless ([hh]) no write fails. *)
Definition cmd_ok (ok : ext -> Prop) (hh : Prop) (c : cmd) : Prop :=
  match c with
  | CStop => ok XStop
  | CSetListener l => ok (XSetListener l)
  | CSetConfig m b => ok (XSetConfig m b)
  | CSend _ (SoFrame _ _ _) => True
  | CSend _ _ => hh \/ ok XStop
  | _ => True
  end.

Lemma pok_mono {A} (ok ok' : ext -> Prop) lis bg hh (p : prog A) : (forall x, ok x -> ok' x) -> pok ok lis bg hh p -> pok ok' lis bg hh p.
Proof.
  intros H. induction p as [o|u k IH|k IH|x k IH|k IH|k IH|n k IH|d got k IH|e k IH]; cbn [pok]; intros Hp; auto.
  - split; [apply Hp|]. intros v. apply IH, Hp.
  - split; [apply Hp|]. intros v. apply IH, Hp.
  - split; [apply H, Hp|apply IH, Hp].
  - split; [apply Hp|apply IH, Hp].
  - split; [apply H, Hp|apply IH, Hp].
Qed.

Section Ok.
Variable ok : ext -> Prop.
Variables lis bg : bool.
Variable hh : Prop.
Notation pok := (pok ok lis bg hh).

Lemma pok_done {A} (o : outcome A) : pok (PDone o).
Proof. exact Logic.I. Qed.
Lemma pok_write {A} d (f : N -> prog A) : (forall n, (hh -> n = lenN d) -> pok (f n)) -> pok (pbind (pwrite d) f).
Proof. intros H. cbn [pwrite pbind ProofProcess2.pok pret]. intros n Hn. apply H. intros Hh. rewrite (Hn Hh). lia. Qed.
Lemma pok_acc {A B} (f : shf -> A) (g : A -> prog B) : (forall a b, agree lis a b -> f a = f b) -> (forall a, pok (g a)) -> pok (pbind (paccess f) g).
Proof. intros H1 H2. cbn [pbind paccess ProofProcess2.pok pret]. split; [|intros; apply H2]. intros a b Hab. now rewrite (H1 a b Hab). Qed.
Lemma pok_header h : pok (pwriteFrameHeader h).
Proof.
  unfold pwriteFrameHeader. destruct (packHeaderBits h) as [bb sc]. apply pok_write. intros n _. destruct (negb _); [apply pok_done|].
  apply pok_bind.
  - destruct (sc =? 2); [|destruct (sc =? 3); [|apply pok_done]]; apply pok_write; intros m _; destruct (negb _); apply pok_done.
  - intros _. destruct (h_hasMask h); [|apply pok_done]. apply pok_write; intros m _; destruct (negb _); apply pok_done.
Qed.
Lemma pok_sendFrameHeader h fin opc n : pok (psendFrameHeader h fin opc n).
Proof.
  unfold psendFrameHeader. apply pok_acc; [intros a b H; apply H|]. intros msk. cbv zeta. apply pok_bind; [|intros h2; apply pok_bind; [apply pok_header|intros; apply pok_done]].
  destruct (h_hasMask _); [|apply pok_done]. intros b. apply pok_done.
Qed.
(** What a program may return. *)
Fixpoint pres {A} (Q : A -> Prop) (p : prog A) : Prop :=
  match p with
  | PDone o => forall a, o = Ret a -> Q a
  | PAtom u k => forall v, pres Q (k v)
  | PAcc k => forall s, pres Q (k s)
  | PExt _ k | PBegin k | PStop k | PMark _ k => pres Q k
  | PRand n k => forall b, pres Q (k b)
  | PWrite d got k => forall n, (hh -> n = got + lenN d) -> pres Q (k n)
  end.
Lemma pres_bind {A B} (p : prog A) (f : A -> prog B) (Q : B -> Prop) : (forall a, pres Q (f a)) -> pres Q (pbind p f).
Proof.
  intros Hf. induction p as [o|u k IH|k IH|x k IH|k IH|k IH|n k IH|d got k IH|e k IH]; cbn [pbind pres]; auto.
  destruct o; [apply Hf|intros b; discriminate..].
Qed.
Lemma pok_bind_res {A B} (Q : A -> Prop) (p : prog A) (f : A -> prog B) : pok p -> pres Q p -> (forall a, Q a -> pok (f a)) -> pok (pbind p f).
Proof.
  intros Hp Hq Hf. induction p as [o|u k IH|k IH|x k IH|k IH|k IH|n k IH|d got k IH|e k IH]; cbn [pbind ProofProcess2.pok pres] in *.
  - destruct o; [now apply Hf, Hq|exact Logic.I..].
  - split; [apply Hp|]. intros v. apply IH; [apply Hp|apply Hq].
  - split; [intros a b Hab; f_equal; now apply Hp|]. intros s. apply IH; [apply Hp|apply Hq].
  - split; [apply Hp|apply IH; [apply Hp|apply Hq]].
  - split; [apply Hp|apply IH; [apply Hp|apply Hq]].
  - split; [apply Hp|apply IH; [apply Hp|apply Hq]].
  - intros b. apply IH; [apply Hp|apply Hq].
  - intros n Hn. apply IH; [now apply Hp|now apply Hq].
  - apply IH; [apply Hp|apply Hq].
Qed.

Lemma pok_sendOneFrame fin opc m : pok (psendOneFrame fin opc m).
Proof.
  unfold psendOneFrame. destruct m as [[|b bs]|]; (apply pok_bind; [apply pok_sendFrameHeader|]); intros h'; try apply pok_done.
  apply pok_bind; [|intros; apply pok_done].
  destruct (h_hasMask h'); [destruct (2 ^ 31 <=? lenN (b :: bs)); [apply pok_done|]|]; intros n _; apply pok_done.
Qed.
Lemma pres_sendOneFrame fin opc m : pres (fun b => hh -> b = true) (psendOneFrame fin opc m).
Proof.
  unfold psendOneFrame. destruct m as [[|b bs]|]; apply pres_bind; intros h'; try (intros a Ha _; injection Ha as <-; reflexivity).
  destruct (h_hasMask h'); [destruct (2 ^ 31 <=? lenN (b :: bs)) eqn:El|].
  - intros a; discriminate.
  - cbn [pwrite pbind pres]. intros n Hn a Ha H. injection Ha as <-. rewrite (Hn H), lenN_xor_from. apply N.eqb_eq. lia.
  - cbn [pwrite pbind pres]. intros n Hn a Ha H. injection Ha as <-. rewrite (Hn H). apply N.eqb_eq. lia.
Qed.
Lemma pok_sendChecked fin opc m : hh \/ ok XStop -> pok (psendChecked fin opc m).
Proof.
  intros H. unfold psendChecked. eapply pok_bind_res; [apply pok_sendOneFrame|apply pres_sendOneFrame|].
  cbv beta. intros b Hb. destruct b; [apply pok_done|]. destruct H as [H|H]; [specialize (Hb H); discriminate|]. split; [exact H|apply pok_done].
Qed.
Lemma pok_cmd c : cmd_ok ok hh c -> pok (pexec_cmd c).
Proof.
  assert (forall op, cmd_ok ok hh (CSend true op) -> pok (psend op)) as Hs.
  { intros op H. destruct op; cbn [psend cmd_ok] in *; try (apply pok_sendChecked; exact H). apply pok_bind; [apply pok_sendOneFrame|intros; apply pok_done]. }
  intros H. destruct c as [|l|m b|catch op| | |fin opc m]; cbn [pexec_cmd cmd_ok] in *.
  - split; [exact H|apply pok_done].
  - split; [exact H|apply pok_done].
  - split; [exact H|apply pok_done].
  - destruct catch; [apply pok_try|]; apply Hs; exact H.
  - split; [reflexivity|intros; apply pok_done].
  - split; [reflexivity|intros; apply pok_done].
  - apply pok_bind; [apply pok_sendOneFrame|]. intros []; apply pok_done.
Qed.
Lemma pok_cmds cs : Forall (cmd_ok ok hh) cs -> pok (pexec_cmds cs).
Proof. induction 1 as [|c cs Hc _ IH]; cbn [pexec_cmds]; [apply pok_done|]. apply pok_bind; [apply pok_cmd, Hc|intros; exact IH]. Qed.

Definition quiet_log {A} (m : M A) : Prop := forall w, w_log (snd (m w)) = w_log w.
Lemma pok_local {A} (m : M A) : quiet_log m -> pok (plocal m).
Proof. intros H. unfold plocal. split; [|intros; apply pok_done]. intros v. cbn [priv_of v_log]. rewrite H. cbn. exists []. now rewrite app_nil_r. Qed.
End Ok.

Lemma quiet_bind {A B} (m : M A) (f : A -> M B) : quiet_log m -> (forall a, quiet_log (f a)) -> quiet_log (bind m f).
Proof. intros H1 H2 w. unfold bind. specialize (H1 w). destruct (m w) as [[a|e| |u|] w1]; cbn [snd] in *; rewrite <- H1; auto. apply H2. Qed.
Lemma quiet_exact n : quiet_log (readExactSizeDataSimple n).
Proof. intros w. unfold readExactSizeDataSimple. destruct (readExact_raw n (w_in w) (w_sock w)) as [[r s] k]. destruct r; reflexivity. Qed.
Lemma quiet_same {A} (o : outcome A) : quiet_log (fun w => (o, w)).
Proof. intros w. reflexivity. Qed.
Lemma quiet_header h : quiet_log (readFrameHeader h).
Proof.
  unfold readFrameHeader. apply quiet_bind; [apply quiet_exact|]. intros bb. destruct (negb _); [apply quiet_same|].
  destruct (unpackHeaderBits (be_dec bb) h) as [h1 m1]. apply quiet_bind.
  - destruct (m1 <? 126); [apply quiet_same|]. destruct (m1 =? 126); [|destruct (m1 =? 127); [|apply quiet_same]].
    + apply quiet_bind; [apply quiet_exact|]. intros l. destruct (negb _); apply quiet_same.
    + apply quiet_bind; [apply quiet_exact|]. intros l. destruct (negb _); apply quiet_same.
  - intros h2. destruct (h_hasMask h2); [|apply quiet_same]. apply quiet_bind; [apply quiet_exact|]. intros l. destruct (negb _); apply quiet_same.
Qed.
Lemma quiet_read n : quiet_log (readSimple n).
Proof. intros w. unfold readSimple. destruct (_ <? _)%Z; [reflexivity|]. destruct (_ =? _)%Z; [reflexivity|]. destruct (read_raw _ _ _) as [[r s] k]. destruct r; reflexivity. Qed.
Lemma quiet_check h : quiet_log (checkForContinuation h).
Proof. intros w. unfold checkForContinuation, bind, get, modify_sock, ret. destruct (_ || _)%bool; reflexivity. Qed.

Section Listen.
Variable react : react_t.
Variable ok : ext -> Prop.
Variable hh : Prop.
Hypothesis Hr : forall l log, Forall (cmd_ok ok hh) (react l log).
Notation pok := (pok ok true true hh).

Lemma pok_get {A} (f : priv -> prog A) : (forall v, pok (f v)) -> pok (pbind pget f).
Proof. intros H. unfold pget. cbn [pbind ProofProcess2.pok pret]. split; [|exact H]. intros v. exists []. now rewrite app_nil_r. Qed.
Lemma pok_notify ev : pok (pnotify react ev).
Proof.
  unfold pnotify. apply pok_acc; [intros a b H; apply H|]. intros [l0|]; [|exact Logic.I].
  apply pok_acc; [intros a b H; apply H|]. intros [l|]; [|apply pok_done]. cbn [ProofProcess2.pok].
  split; [intros v; eexists; reflexivity|]. intros v. apply pok_cmds, Hr.
Qed.
Lemma pok_loop fuel : forall h short alloc progress, pok (preadPayload_loop react fuel h short alloc progress).
Proof.
  induction fuel as [|fuel IH]; intros h short alloc progress; cbn [preadPayload_loop]; [apply pok_done|].
  destruct (progress <? h_len h)%Z; [|apply pok_done]. apply pok_acc; [intros a b H; apply H|]. intros des. cbv zeta.
  apply pok_bind; [apply pok_local, quiet_read|]. intros [data|[| |]]; [|apply IH|apply pok_done..].
  destruct (_ <? _)%Z; [apply pok_done|]. destruct short; [apply IH|]. apply pok_bind; [apply pok_notify|intros; apply IH].
Qed.
Lemma pok_payload h short : pok (preadPayload react h short).
Proof.
  unfold preadPayload. destruct (_ && _)%bool; [apply pok_done|]. apply pok_acc; [intros a b H; apply H|]. intros alloc.
  destruct (alloc <? 0)%Z; [apply pok_done|]. apply pok_get. intros v. apply pok_bind; [apply pok_loop|]. intros short'. apply pok_bind; [|intros; apply pok_done].
  destruct short; [apply pok_done|]. destruct (h_fin h); [apply pok_notify|apply pok_done].
Qed.
Lemma pok_handle h : pok (phandleFrame react h).
Proof.
  assert (pok (pbind (preadPayload react h None) (fun _ => pret tt))) as HP by (apply pok_bind; [apply pok_payload|intros; apply pok_done]).
  assert (pok (pbind (plocal (checkForContinuation h)) (fun ok : bool => if ok then pbind (preadPayload react h None) (fun _ => pret tt) else pthrow ExContinuationExpected))) as HC.
  { apply pok_bind; [apply pok_local, quiet_check|]. intros []; [exact HP|apply pok_done]. }
  assert (forall f, pok (pbind (preadPayload react h (Some [])) (fun p => pnotify react (f p)))) as HN.
  { intros f. apply pok_bind; [apply pok_payload|]. intros p. apply pok_notify. }
  unfold phandleFrame. destruct (h_opcode h) as [|p].
  - apply pok_get. intros v. destruct (_ <? 0)%Z; [apply pok_done|exact HP].
  - destruct p as [p|p|]; [destruct p as [p|p|]|destruct p as [p|p|]|exact HC]; try apply pok_done; try exact HC;
      destruct p as [p|p|]; try apply pok_done; destruct p as [p|p|]; try apply pok_done; apply HN.
Qed.
Lemma pok_listen_loop fuel : forall h, pok (plisten_loop react fuel h).
Proof.
  induction fuel as [|fuel IH]; intros h; cbn [plisten_loop]; [apply pok_done|]. cbn [ProofProcess2.pok].
  apply pok_bind; [apply pok_local, quiet_header|]. intros h'. apply pok_bind; [apply pok_handle|]. intros _.
  apply pok_acc; [intros a b H; now apply H|]. intros b. destruct (_ && _)%bool; [apply IH|apply pok_done].
Qed.
Lemma pok_listen : pok (plisten react).
Proof. unfold plisten. cbn [ProofProcess2.pok]. split; [reflexivity|]. apply pok_get. intros v. apply pok_try, pok_listen_loop. Qed.
End Listen.

(** * The system *)
Definition first (i : nat) : bool := match i with O => true | _ => false end.
Section System.
Variable react : react_t.
Variable work : nat -> list cmd.
Variable w : world.
(** Calls made by listener code, calls made by the other threads. *)
Variables okr okw : ext -> Prop.
Variable hh : Prop.
Hypothesis Hr : forall l log, Forall (cmd_ok okr hh) (react l log).
Hypothesis Hw : forall i, Forall (cmd_ok okw hh) (work i).

Definition start_of (i : nat) : prog unit := match i with O => plisten react | _ => pexec_cmds (work i) end.
Definition priv0 (i : nat) : priv := match i with O => priv_of w | _ => nothing end.
Definition sock0 (i : nat) : sock := match i with O => w_sock w | _ => set_last (w_sock w) (-1) end.
(** Calls of the threads other than [i]. *)
Definition seen_by (i : nat) : ext -> Prop := match i with O => okw | _ => fun x => okr x \/ okw x end.
Definition made_by (i : nat) : ext -> Prop := match i with O => okr | _ => okw end.

Definition sys_inv (s : system) : Prop :=
  (hh -> healthy (g_wr (snd s))) /\
  exists lab rlab, g_out (snd s) = w_out w ++ map snd lab /\
  g_rnd (snd s) = w_rnd w /\ g_rpos (snd s) = (w_rpos w + length rlab)%nat /\ map snd rlab = map (w_rnd w) (seq (w_rpos w) (length rlab)) /\
  forall i, pok (made_by i) (first i) (first i) hh (fst (fst s i)) /\
    view (seen_by i) (first i) hh (start_of i) (priv0 i) (sock0 i) (fst (fst s i)) (snd (fst s i)) (g_f (snd s)) (from i lab) (from i rlab).

Lemma sys_start : (hh -> healthy (w_wr w)) -> sys_inv (system_init react work w).
Proof.
  intros Hh. split; [exact Hh|]. exists [], []. split; [cbn; now rewrite app_nil_r|]. split; [reflexivity|]. split; [cbn; lia|]. split; [reflexivity|]. intros i. split.
  - destruct i as [|i]; cbn [system_init fst snd made_by first]; [apply pok_listen; exact Hr|apply pok_cmds, Hw].
  - destruct i as [|i]; (apply view_start; [reflexivity|]); cbn; apply agree_refl.
Qed.
Lemma sys_step i s : sys_inv s -> sys_inv (sstep i s).
Proof.
  clear Hr Hw. intros (Hh & lab & rlab & Ho & Hr1 & Hr2 & Hr3 & Hi). unfold sstep. destruct (pstep (fst (fst s i)) (snd (fst s i)) (snd s)) as [[[p' v'] g']|] eqn:E.
  2: { split; [exact Hh|]. exists lab, rlab. auto 10. }
  destruct (Hi i) as [Hp Hv].
  destruct (view_own _ _ _ _ _ _ _ _ _ _ _ _ _ _ _ _ _ Hp Hh E Hv) as (d & dr & Hd & (D1 & D2 & D3) & Hv').
  destruct (pok_step _ _ _ _ _ _ _ _ _ _ Hp Hh E) as [Hp' Hh'].
  split; [exact Hh'|]. exists (lab ++ map (pair i) d), (rlab ++ map (pair i) dr). cbn [fst snd]. split; [rewrite Hd, Ho, map_app, snd_label, app_assoc; reflexivity|].
  split; [congruence|]. split; [rewrite D2, Hr2, app_length, map_length; lia|]. split.
  { rewrite map_app, snd_label, Hr3, app_length, map_length, seq_app, map_app. f_equal. rewrite D3 at 1. now rewrite Hr1, Hr2. }
  intros j. rewrite !from_app, !from_label. destruct (Nat.eqb_spec j i) as [->|Hne].
  - rewrite Nat.eqb_refl. cbn [fst snd]. auto.
  - replace (Nat.eqb i j) with false by (symmetry; apply Nat.eqb_neq; congruence). rewrite !app_nil_r. destruct (Hi j) as [Hpj Hvj]. split; [exact Hpj|].
    eapply (view_other (seen_by j)); [|..|exact E|exact Hvj].
    + eapply pok_mono; [|exact Hp]. intros x Hx. destruct i, j; cbn in *; auto; congruence.
    + destruct i, j; cbn; auto; congruence.
Qed.
Lemma sys_run sch s : sys_inv s -> sys_inv (srun sch s).
Proof. revert s. induction sch as [|i r IH]; intros s H; cbn [srun]; [exact H|]. apply IH, sys_step, H. Qed.
End System.

(** A program only adds to the calls made and the bytes written. *)
Lemma interp_grows {A} (p : prog A) : forall ok lis bg t o t', pok ok lis bg False p -> interp p t = (o, t') ->
  prefix (w_log (t_world t)) (w_log (t_world t')) /\ prefix (w_out (t_world t)) (w_out (t_world t')) /\ (w_rpos (t_world t) <= w_rpos (t_world t'))%nat.
Proof.
  assert (forall t, w_log (t_world (snd (interleave t))) = w_log (t_world t) /\ w_out (t_world (snd (interleave t))) = w_out (t_world t) /\
    w_rpos (t_world (snd (interleave t))) = w_rpos (t_world t)) as Hil.
  { intros t. unfold interleave. destruct (t_calls t); repeat split; reflexivity. }
  induction p as [o|u k IH|k IH|x k IH|k IH|k IH|n k IH|d got k IH|e k IH]; intros ok lis bg t o1 t' Hp E; cbn [interp pok] in *.
  - injection E as <- <-. split; [apply prefix_refl|]. split; [apply prefix_refl|lia].
  - eapply IH in E; [|apply Hp]. destruct E as [E1 E2]. unfold on_world, put_priv in *. cbn [t_world w_log w_out w_rpos] in *. split; [|exact E2].
    eapply prefix_trans; [exact (proj1 Hp (priv_of (t_world t)))|exact E1].
  - eapply IH in E; [|apply Hp]. destruct (Hil t) as (H1 & H2 & H3). rewrite H1, H2, H3 in E. exact E.
  - eapply IH in E; [|apply Hp]. destruct (Hil t) as (H1 & H2 & H3). cbn [on_world t_world set_sock w_log w_out w_rpos] in E. rewrite H1, H2, H3 in E. exact E.
  - eapply IH in E; [|apply Hp]. destruct (Hil t) as (H1 & H2 & H3). cbn [on_world t_world set_sock w_log w_out w_rpos] in E. rewrite H1, H2, H3 in E. exact E.
  - eapply IH in E; [|apply Hp]. exact E.
  - eapply IH in E; [|apply Hp]. cbn [on_world t_world set_rpos w_log w_out w_rpos] in E. destruct E as (E1 & E2 & E3). split; [exact E1|]. split; [exact E2|lia].
  - destruct (writeExact_raw d (w_wr (t_world t))) as [[r a] q'].
    assert (forall n, n = got + lenN a -> interp (k n) (on_world t (set_wr (t_world t) (w_out (t_world t) ++ a) q')) = (o1, t') ->
       prefix (w_log (t_world t)) (w_log (t_world t')) /\ prefix (w_out (t_world t)) (w_out (t_world t')) /\ (w_rpos (t_world t) <= w_rpos (t_world t'))%nat) as H.
    { intros n _ E'. eapply IH in E'; [|apply Hp; intros []]. cbn [on_world t_world set_wr w_log w_out w_rpos] in E'. split; [apply E'|].
      split; [|apply E']. eapply prefix_trans; [|apply E']. eexists; reflexivity. }
    destruct r; [eapply H; [reflexivity|exact E]..|]. injection E as <- <-. cbn [on_world t_world set_wr w_log w_out w_rpos]. split; [apply prefix_refl|]. split; [eexists; reflexivity|lia].
  - eapply IH in E; [|apply Hp]. exact E.
Qed.

(** [rlab]: the bytes of the random source drawn so far, with the thread that has drawn each. Whatever is drawn later ([later]), every thread behaves like a single thread
    that gets its own part of them, and finds calls of the other threads before its accesses. *)
Theorem each_alone react work w okr okw hh sch :
  (forall l log, Forall (cmd_ok okr hh) (react l log)) -> (forall i, Forall (cmd_ok okw hh) (work i)) -> (hh -> healthy (w_wr w)) ->
  let s := srun sch (system_init react work w) in
  exists lab rlab, g_out (snd s) = w_out w ++ map snd lab /\ map snd rlab = map (w_rnd w) (seq (w_rpos w) (length rlab)) /\
  forall (later : nat -> byte) i, let fn := fun n => nth n (from i rlab) (later n) in exists a C o t,
    interp (start_of react work i) (alone (priv0 w i) (sock0 w i) a C fn) = (o, t) /\
    others (seen_by okr okw i) C /\ (hh -> healthy a) /\
    prefix (v_log (snd (fst s i))) (w_log (t_world t)) /\ prefix (from i lab) (w_out (t_world t)) /\ (length (from i rlab) <= w_rpos (t_world t))%nat /\
    forall o', fst (fst s i) = PDone o' ->
      o' = o /\ v_log (snd (fst s i)) = w_log (t_world t) /\ v_in (snd (fst s i)) = w_in (t_world t) /\ from i lab = w_out (t_world t).
Proof.
  intros Hr Hw Hh s.
  assert (sys_inv react work w okr okw hh s) as (_ & lab & rlab & Ho & _ & _ & Hr3 & Hi) by (apply sys_run, sys_start; assumption).
  assert (sys_inv react work w (fun _ => True) (fun _ => True) False s) as (_ & lab0 & rlab0 & _ & _ & _ & _ & Hi0).
  { apply sys_run, sys_start; [intros l log|intros i|intros []].
    - apply Forall_forall. intros c _. destruct c as [| | |? []| | |]; cbn; auto.
    - apply Forall_forall. intros c _. destruct c as [| | |? []| | |]; cbn; auto. }
  exists lab, rlab. split; [exact Ho|]. split; [exact Hr3|]. intros later i fn. destruct (Hi i) as (_ & a & C & pend & k & tr & H1 & H2 & H3 & H4 & H5 & H6).
  specialize (H1 [] [] fn (fun n Hn => nth_indep _ _ _ Hn)). rewrite !app_nil_r in H1.
  destruct (interp (fst (fst s i)) (TWorld (World (v_in (snd (fst s i))) [] (from i lab) fn (length (from i rlab)) (v_log (snd (fst s i))) k) [] tr)) as [o t] eqn:E.
  exists a, C, o, t. split; [exact H1|]. split; [exact H5|]. split; [exact H6|].
  destruct (Hi0 i) as [Hp _]. pose proof (interp_grows _ _ _ _ _ _ _ Hp E) as (G1 & G2 & G3). split; [exact G1|]. split; [exact G2|]. split; [exact G3|].
  intros o' Ho'. rewrite Ho' in E. injection E as <- <-. auto.
Qed.
