(** C102: what listeners are handed, on both sockets, whatever arrives, fails or is done by callbacks, other threads and coroutines. *)
From Verif Require Import Bytes Frame World WebSocket AsyncWebSocket Process SpecProcess Coroutines SpecCoroutines SpecProper PropProcessStop PropAsyncClose.
From Verif Require ProofProcess3 ProofFrame PropProcess2.
Local Open Scope N_scope.
Local Open Scope p_scope.
Local Arguments takeN : simpl never.
Local Arguments dropN : simpl never.
Local Arguments lenN : simpl never.
Local Arguments be_enc : simpl never.
Local Arguments be_dec : simpl never.
Local Arguments packHeaderBits : simpl never.
Local Arguments unpackHeaderBits : simpl never.
Local Arguments N.leb : simpl never.
Local Arguments N.ltb : simpl never.
Local Arguments N.eqb : simpl never.
Local Arguments Z.ltb : simpl never.
Local Arguments Z.leb : simpl never.

Lemma proper_close p : lenN p <= 125 -> proper (EvClose (close_code p) (close_reason p)).
Proof.
  intros H. cbn [proper]. unfold close_code, close_reason. destruct (N.leb_spec 2 (lenN p)) as [Hl|Hl].
  - split; [|rewrite lenN_dropN; lia]. pose proof (be_dec_lt (takeN 2 p)) as Hb. rewrite lenN_takeN in Hb.
    replace (N.min 2 (lenN p)) with 2 in Hb by lia. exact Hb.
  - split; [lia|]. rewrite lenN_nil. lia.
Qed.
Lemma properly_refl l : properly l l.
Proof. exists []. split; [symmetry; apply app_nil_r|apply Forall_nil]. Qed.
Lemma properly_trans a b c : properly a b -> properly b c -> properly a c.
Proof.
  intros (n1 & -> & H1) (n2 & -> & H2). exists (n1 ++ n2). split; [symmetry; apply app_assoc|]. apply Forall_app. now split.
Qed.
Lemma properly_one l i ev : proper ev -> properly l (l ++ [(i, ev)]).
Proof. intros H. exists [(i, ev)]. split; [reflexivity|]. apply Forall_cons; [exact H|apply Forall_nil]. Qed.
Lemma nonempty_masked h n d : d <> [] -> (if h_hasMask h then xor_from (h_mask h) n d else d) <> [].
Proof.
  intros Hd. destruct (h_hasMask h); [|exact Hd]. intros E. apply Hd. apply lenN_0. rewrite <- (ProofFrame.lenN_xor_from (h_mask h) n d), E. reflexivity.
Qed.
Lemma lenN_masked h n d : lenN (if h_hasMask h then xor_from (h_mask h) n d else d) = lenN d.
Proof. destruct (h_hasMask h); [apply ProofFrame.lenN_xor_from|reflexivity]. Qed.

(** ** Threads *)
Fixpoint tl {A} (Q : A -> Prop) (p : prog A) : Prop :=
  match p with
  | PDone (Ret a) => Q a
  | PDone _ => True
  | PAtom u k => forall v, properly (v_log v) (v_log (u v)) /\ tl Q (k v)
  | PAcc k => forall s, tl Q (k s)
  | PExt _ k => tl Q k
  | PStop k => tl Q k
  | PMark _ k => tl Q k
  | PBegin k => tl Q k
  | PRand n k => forall b, tl Q (k b)
  | PWrite d got k => forall n, tl Q (k n)
  end.
Lemma tl_bind {A B} (Q : A -> Prop) (R : B -> Prop) (f : A -> prog B) : (forall a, Q a -> tl R (f a)) -> forall p, tl Q p -> tl R (pbind p f).
Proof.
  intros Hf. induction p as [o|u k IH|k IH|x k IH|k IH|k IH|n k IH|d got k IH|e k IH]; intros Hp; cbn [pbind tl] in *; auto.
  - destruct o; try exact I. now apply Hf.
  - intros v. destruct (Hp v) as [He Hk]. split; [exact He|now apply IH].
Qed.
Lemma tl_try : forall p, tl (fun _ => True) p -> tl (fun _ => True) (ptry p).
Proof.
  induction p as [o|u k IH|k IH|x k IH|k IH|k IH|n k IH|d got k IH|e k IH]; intros Hp; cbn [ptry tl] in *; auto.
  - destruct o; exact I.
  - intros v. destruct (Hp v) as [He Hk]. split; [exact He|now apply IH].
Qed.
Lemma mute_tl {A} : forall p : prog A, mute p -> tl (fun _ => True) p.
Proof.
  induction p as [o|u k IH|k IH|x k IH|k IH|k IH|n k IH|d got k IH|e k IH]; intros Hp; cbn [mute tl] in *; auto; try destruct Hp.
  destruct o; exact I.
Qed.
Lemma tl_local {A} (Q : A -> Prop) (m : M A) : (forall w, w_log (snd (m w)) = w_log w) -> (forall w a, fst (m w) = Ret a -> Q a) -> tl Q (plocal m).
Proof.
  intros Hm HQ. cbn [plocal tl]. intros v. split.
  - cbn [priv_of v_log]. rewrite Hm. apply properly_refl.
  - destruct (fst (m (world_of v))) as [a| | | |] eqn:E; try exact I. exact (HQ _ _ E).
Qed.

Section Proper.
Variable react : react_t.

Lemma tl_notify ev : proper ev -> tl (fun _ => True) (pnotify react ev).
Proof.
  intros Hev. unfold pnotify. cbn [paccess pbind tl pret]. intros s. destruct (k_listener s) as [l|]; [|exact I].
  cbn [paccess pbind tl pret]. intros s2. destruct (k_listener s2) as [l2|]; [|exact I].
  cbn [tl]. intros v. split; [apply properly_one, Hev|apply mute_tl, mute_cmds].
Qed.

Lemma readSimple_size n w a : fst (readSimple n w) = Ret a -> match a with inl d => d <> [] /\ (Z.of_N (lenN d) <= n)%Z | inr _ => True end.
Proof.
  unfold readSimple. destruct (Z.ltb_spec n 0) as [Hn|Hn]; [discriminate|]. destruct (Z.eqb_spec n 0) as [H0|H0]; [intros [= <-]; exact I|].
  assert (H : forall s k, match fst (fst (read_raw (Z.to_N n) s k)) with RGot d => d <> [] /\ (Z.of_N (lenN d) <= n)%Z | _ => True end).
  { induction s as [|[b bs|e|x] s IH]; intros k; cbn [read_raw fst]; try exact I; [|apply IH].
    assert (Hl : lenN (takeN (Z.to_N n) (b :: bs)) = N.min (Z.to_N n) (1 + lenN bs)) by (rewrite lenN_takeN, lenN_cons; reflexivity).
    split; [|rewrite Hl; clear -Hn H0; lia]. intros E. rewrite E, lenN_nil in Hl. clear -Hl Hn H0. lia. }
  specialize (H (w_in w) (w_sock w)). destruct (read_raw _ _ _) as [[[d|e|] s] k]; cbn [fst] in *; intros E; try discriminate E; injection E as <-; [exact H|exact I].
Qed.

Lemma tl_data h alloc : h_opcode h <= 2 -> forall fuel progress, tl (fun _ => True) (preadPayload_loop react fuel h None alloc progress).
Proof.
  intros Hop. induction fuel as [|fuel IH]; intros progress; cbn [preadPayload_loop]; [exact I|].
  destruct (progress <? h_len h)%Z; [|exact I]. cbn [paccess pbind pret]. intros s. cbv zeta.
  eapply tl_bind; [|apply tl_local; [apply ProofProcess3.quiet_read|intros w a; apply readSimple_size]].
  intros [data|[]] Hd; [|apply IH|exact I|exact I]. cbn beta iota in Hd. destruct (alloc <? _)%Z; [exact I|].
  eapply tl_bind; [|apply tl_notify]; [intros _ _; apply IH|]. split; [exact Hop|]. now apply nonempty_masked.
Qed.
Lemma tl_control h alloc : (h_len h <= 125)%Z -> forall fuel sh progress, (Z.of_N (lenN sh) <= 125)%Z -> (Z.of_N (lenN sh) <= progress)%Z ->
  tl (fun r => lenN (str r) <= 125) (preadPayload_loop react fuel h (Some sh) alloc progress).
Proof.
  intros Hlen. induction fuel as [|fuel IH]; intros sh progress Hs1 Hs2; cbn [preadPayload_loop]; [exact I|].
  destruct (Z.ltb_spec progress (h_len h)) as [Hp|Hp]; [|cbn; clear -Hs1; lia]. cbn [paccess pbind pret]. intros s. cbv zeta.
  eapply tl_bind; [|apply tl_local; [apply ProofProcess3.quiet_read|intros w a; apply readSimple_size]].
  intros [data|[]] Hd; [|now apply IH|exact I|exact I]. cbn beta iota in Hd. destruct (alloc <? _)%Z; [exact I|].
  destruct Hd as [_ Hd].
  assert (Hd2 : (Z.of_N (lenN data) <= h_len h - progress)%Z).
  { destruct (Z.ltb_spec (h_len h - progress) (k_buf s)); [exact Hd|lia]. }
  apply IH; rewrite lenN_app, lenN_masked; clear -Hd2 Hs1 Hs2 Hlen; lia.
Qed.
Lemma tl_payload_data h : h_opcode h <= 2 -> tl (fun _ => True) (preadPayload react h None).
Proof.
  intros Hop. unfold preadPayload. cbn [andb paccess pbind pret]. intros s. destruct (_ <? 0)%Z; [exact I|].
  cbn [pget pbind pret tl]. intros v. split; [apply properly_refl|].
  eapply tl_bind; [|now apply tl_data]. intros r _. cbn beta. eapply (tl_bind (fun _ => True)); [intros; exact I|].
  destruct (h_fin h); [|exact I]. now apply tl_notify.
Qed.
Lemma tl_payload_control h : tl (fun r => lenN (str r) <= 125) (preadPayload react h (Some [])).
Proof.
  unfold preadPayload. destruct (Z.ltb_spec 125 (h_len h)) as [Hl|Hl]; cbn [andb]; [exact I|].
  cbn [paccess pbind pret]. intros s. destruct (_ <? 0)%Z; [exact I|].
  cbn [pget pbind pret tl]. intros v. split; [apply properly_refl|].
  eapply tl_bind; [|apply tl_control; [exact Hl|rewrite lenN_nil; lia|rewrite lenN_nil; lia]]. intros r Hr. exact Hr.
Qed.
Lemma tl_handle h : tl (fun _ => True) (phandleFrame react h).
Proof.
  assert (Hd : h_opcode h <= 2 -> tl (fun _ => True) (preadPayload react h None ;;; pret tt)).
  { intros Hop. eapply tl_bind; [|now apply tl_payload_data]. intros; exact I. }
  assert (Hc : forall ev : option bytes -> event, (forall p, lenN (str p) <= 125 -> proper (ev p)) ->
            tl (fun _ => True) (p <- preadPayload react h (Some []) ;; pnotify react (ev p))).
  { intros ev Hev. eapply tl_bind; [|apply tl_payload_control]. intros p Hp. now apply tl_notify, Hev. }
  assert (Hk : h_opcode h <= 2 -> tl (fun _ => True) (ok <- plocal (checkForContinuation h) ;; if (ok : bool) then preadPayload react h None ;;; pret tt else pthrow ExContinuationExpected)).
  { intros Hop. eapply (tl_bind (fun _ => True)); [|apply tl_local; [apply ProofProcess3.quiet_check|auto]]. intros [] _; [now apply Hd|exact I]. }
  unfold phandleFrame. destruct (h_opcode h) as [|q] eqn:En;
  [|destruct q as [[[p|[p|p|]|]|[[p|p|]|[p|p|]|]|]|[[[p|p|]|[p|p|]|]|[[p|p|]|[p|p|]|]|]|]]; try exact I; try (apply Hk; lia).
  - cbn [pget pbind pret tl]. intros v. split; [apply properly_refl|]. destruct (_ <? 0)%Z; [exact I|apply Hd; lia].
  - apply (Hc (fun p => EvPing (str p))). intros p Hp. exact Hp.
  - apply (Hc (fun p => EvPong (str p))). intros p Hp. exact Hp.
  - apply (Hc (fun p => EvClose (close_code (str p)) (close_reason (str p)))). intros p Hp. now apply proper_close.
Qed.
Lemma tl_loop : forall fuel h, tl (fun _ => True) (plisten_loop react fuel h).
Proof.
  induction fuel as [|fuel IH]; intros h; cbn [plisten_loop tl]; [exact I|].
  eapply (tl_bind (fun _ => True)); [|apply tl_local; [apply ProofProcess3.quiet_header|auto]].
  intros h' _. eapply tl_bind; [|apply tl_handle]. intros u _. cbn [paccess pbind pret tl]. intros s.
  destruct (_ && _)%bool; [apply IH|exact I].
Qed.
Lemma tl_listen : tl (fun _ => True) (plisten react).
Proof. unfold plisten, pget, pret. cbn [pbind tl]. intros v. split; [apply properly_refl|]. apply tl_try, tl_loop. Qed.

Lemma tl_step : forall p v g p' v' g', tl (fun _ : unit => True) p -> pstep p v g = Some (p', v', g') ->
  properly (v_log v) (v_log v') /\ tl (fun _ => True) p'.
Proof.
  intros p v g p' v' g' Hp E.
  destruct p as [o|u k|k|x k|k|k|n k|d got k|e k]; cbn [pstep] in E; cbn [tl] in Hp;
    try (injection E as <- <- <-; split; [apply properly_refl|]; first [exact Hp|apply Hp]).
  - discriminate E.
  - injection E as <- <- <-. apply Hp.
  - destruct d as [|b d]; [injection E as <- <- <-; split; [apply properly_refl|apply Hp]|].
    destruct (g_wr g) as [|[m|[]|] q]; try discriminate E; injection E as <- <- <-; split; try apply properly_refl; first [exact Hp|apply Hp].
Qed.
Definition all_tl (s : system) : Prop := forall i, tl (fun _ => True) (fst (fst s i)).
Lemma all_tl_step i s : all_tl s -> properly (told s) (told (sstep i s)) /\ all_tl (sstep i s).
Proof.
  intros H. unfold sstep, told. destruct (pstep _ _ _) as [[[p v] g]|] eqn:E; [|split; [apply properly_refl|exact H]].
  destruct (tl_step _ _ _ _ _ _ (H i) E) as [H1 H2]. split.
  - cbn [fst snd]. destruct (Nat.eqb_spec 0 i) as [<-|]; [exact H1|apply properly_refl].
  - intros j. cbn [fst snd]. destruct (Nat.eqb_spec j i) as [->|]; [exact H2|apply H].
Qed.
Lemma all_tl_run : forall sch s, all_tl s -> properly (told s) (told (srun sch s)).
Proof.
  induction sch as [|i sch IH]; intros s H; cbn [srun]; [apply properly_refl|]. destruct (all_tl_step i s H) as [H1 H2].
  eapply properly_trans; [exact H1|apply IH, H2].
Qed.
End Proper.

(** C102, blocking socket: any bytes, connection failures, callbacks, other threads and their schedule. *)
Theorem C102_threads : forall react work w sch, properly (w_log w) (told (srun sch (system_init react work w))).
Proof.
  intros react work w sch. apply (all_tl_run sch (system_init react work w)). intros [|i]; [apply tl_listen|]. apply mute_tl, mute_cmds.
Qed.
Print Assumptions C102_threads.

(** ** Coroutines *)
Definition small (sh : bytes) : Prop := lenN sh <= 125.
Definition payload_ok (h : header) (sh : bytes) (us : bool) (pr : Z) (p : rp_pc) (next : hf_pc) : Prop :=
  if us then (h_len h <= 125)%Z /\ small sh /\ (Z.of_N (lenN sh) <= pr)%Z /\ (next = HfOnClose \/ next = HfOnPing \/ next = HfOnPong) /\
    match p with RpReadData n => (n <= h_len h - pr)%Z | RpOnData d => d = [] \/ (Z.of_N (lenN d) <= h_len h - pr)%Z | _ => True end
  else h_opcode h <= 2 /\ next = HfFinish.
Inductive tidy (h : header) (sh : bytes) : list cor -> Prop :=
| ti_nil : tidy h sh []
| ti_listen : tidy h sh [CoListen]
| ti_read p l : tidy h sh [CoReadFrame p; CoHandle l HfAct; CoListen]
| ti_act l : tidy h sh [CoHandle l HfAct; CoListen]
| ti_payload l us al pr p l' next : payload_ok h sh us pr p next -> tidy h sh [CoPayload l us al pr p; CoHandle l' next; CoListen]
| ti_handle l next : next <> HfAct -> (next = HfFinish \/ small sh) -> tidy h sh [CoHandle l next; CoListen]
| ti_talk c st : talker c -> tidy h sh st -> tidy h sh (c :: st).

Lemma tidy_unwind h sh : forall st st', tidy h sh st -> unwind st = Some st' -> tidy h sh st'.
Proof.
  intros st st' H. induction H as [| |p l|l|l us al pr p l' next H|l next H|c st Hc H IH]; intros E; cbn [unwind] in E; try discriminate E.
  destruct c; try destruct Hc; try (now apply IH). now injection E as <-.
Qed.
Lemma fail_tidy e h sh st w s c : unwind st = None -> fail e (Conf h sh st w) = (s, c) -> c_world c = w /\ tidy (c_hdr c) (c_short c) (c_stack c).
Proof. intros Eu E. unfold fail in E. cbn [c_stack c_hdr c_short c_world] in E. rewrite Eu in E. injection E as <- <-. split; [reflexivity|apply ti_nil]. Qed.

Section Async.
Variable react : react_t.
Definition ok_step (w : world) (c : conf) : Prop := properly (w_log w) (w_log (c_world c)) /\ tidy (c_hdr c) (c_short c) (c_stack c).

Lemma same_log w w' : w_log w' = w_log w -> properly (w_log w) (w_log w').
Proof. intros ->. apply properly_refl. Qed.

Lemma tidy_talk h sh co K w s c : talker co -> tidy h sh K -> step react (Conf h sh (co :: K) w) = (s, c) -> ok_step w c.
Proof.
  intros Ht HK E. destruct (talker_step_gen react (tidy h sh) h sh co K w s c) as (H1 & [H2 H3] & H4); auto using ti_talk, ti_nil.
  - intros st st'. apply tidy_unwind.
  - split; [now apply same_log|]. now rewrite H2, H3.
Qed.

Lemma tidy_read h sh p l w s c : step react (Conf h sh [CoReadFrame p; CoHandle l HfAct; CoListen] w) = (s, c) -> ok_step w c.
Proof.
  intros E. cbn [step] in E. set (K := [CoHandle l HfAct; CoListen]) in E.
  assert (Hr : forall st h' p' w', w_log w' = w_log w -> (st, Conf h' sh (CoReadFrame p' :: K) w') = (s, c) -> ok_step w c).
  { intros st h' p' w' Hw [= <- <-]. split; [now apply same_log|]. apply ti_read. }
  assert (Hd : forall st h' w', w_log w' = w_log w -> (st, Conf h' sh K w') = (s, c) -> ok_step w c).
  { intros st h' w' Hw [= <- <-]. split; [now apply same_log|]. apply ti_act. }
  assert (Hf : forall e h' w', w_log w' = w_log w -> fail e (Conf h' sh K w') = (s, c) -> ok_step w c).
  { intros e h' w' Hw Ef. destruct (fail_tidy _ _ _ _ _ _ _ (eq_refl : unwind K = None) Ef) as [Ew H]. split; [rewrite Ew; now apply same_log|exact H]. }
  destruct p as [got|bb|t got|t d|got]; cbn [step_readFrame] in E; cbv zeta in E.
  - pose proof (log_exact 2 got w) as Hl. destruct (readExactAsyncInline 2 got w) as [[d'|d'| |] w']; cbn [snd] in Hl; revert E; first [apply Hr; exact Hl|apply Hf; exact Hl].
  - destruct (unpackHeaderBits (be_dec bb) h) as [h' m1].
    destruct (m1 <? 126); [revert E; now apply Hr|]. destruct (m1 =? 126); [revert E; now apply Hr|]. destruct (m1 =? 127); revert E; [now apply Hr|now apply Hf].
  - pose proof (log_exact (if t =? 2 then 2 else 8) got w) as Hl. destruct (readExactAsyncInline (if t =? 2 then 2 else 8) got w) as [[d'|d'| |] w']; cbn [snd] in Hl;
      revert E; first [apply Hr; exact Hl|apply Hf; exact Hl].
  - destruct (h_hasMask _); revert E; [now apply Hr|now apply Hd].
  - pose proof (log_exact 4 got w) as Hl. destruct (readExactAsyncInline 4 got w) as [[d'|d'| |] w']; cbn [snd] in Hl;
      revert E; first [apply Hr; exact Hl|apply Hf; exact Hl|apply Hd; exact Hl].
Qed.

Lemma tidy_act h sh l w s c : step react (Conf h sh [CoHandle l HfAct; CoListen] w) = (s, c) -> ok_step w c.
Proof.
  intros E. cbn [step] in E.
  assert (Hf : forall e sh' w', w_log w' = w_log w -> fail e (Conf h sh' [CoListen] w') = (s, c) -> ok_step w c).
  { intros e sh' w' Hw Ef. destruct (fail_tidy _ _ _ _ _ _ _ (eq_refl : unwind [CoListen] = None) Ef) as [Ew H]. split; [rewrite Ew; now apply same_log|exact H]. }
  assert (Hp : forall us next sh' w', w_log w' = w_log w ->
     (if us : bool then sh' = [] /\ (next = HfOnClose \/ next = HfOnPing \/ next = HfOnPong) else h_opcode h <= 2 /\ next = HfFinish) ->
     match readPayloadAsync h us w' with
     | inl e => fail e (Conf h sh' [CoListen] w')
     | inr co => (ARun, Conf h sh' (co :: CoHandle l next :: [CoListen]) w')
     end = (s, c) -> ok_step w c).
  { intros us next sh' w' Hw Ha Ep. unfold readPayloadAsync in Ep.
    destruct (us && _)%bool eqn:E1; [revert Ep; now apply Hf|]. destruct (_ <? 0)%Z; [revert Ep; now apply Hf|].
    injection Ep as <- <-. split; [now apply same_log|]. cbn [c_hdr c_short c_stack]. apply ti_payload. unfold payload_ok. destruct us; [|exact Ha].
    destruct Ha as [-> Hn]. cbn [andb] in E1. apply Z.ltb_ge in E1. split; [exact E1|]. unfold small. rewrite lenN_nil. repeat split; [lia|lia|exact Hn]. }
  unfold step_handle in E. cbv zeta in E.
  assert (Hc : h_opcode h <= 2 -> (let (ok, w') := checkForContinuationA h w in
      if (ok : bool) then match readPayloadAsync h false w' with
                          | inl e => fail e (Conf h sh [CoListen] w')
                          | inr co => (ARun, Conf h sh (co :: CoHandle l HfFinish :: [CoListen]) w')
                          end else fail ExContinuationExpected (Conf h sh [CoListen] w')) = (s, c) -> ok_step w c).
  { intros Hop. pose proof (log_checkA h w) as Hl. destruct (checkForContinuationA h w) as [[] w']; cbn [snd] in Hl; [now apply Hp|now apply Hf]. }
  destruct (h_opcode h) as [|q] eqn:En.
  { destruct (_ <? 0)%Z; revert E; [now apply Hf|]. apply Hp; [reflexivity|]. split; [lia|reflexivity]. }
  destruct q as [[[p|[p|p|]|]|[[p|p|]|[p|p|]|]|]|[[[p|p|]|[p|p|]|]|[[p|p|]|[p|p|]|]|]|]; try (revert E; now apply Hf).
  - revert E. apply Hp; [reflexivity|]. auto.
  - revert E. apply Hp; [reflexivity|]. auto.
  - revert E. apply Hp; [reflexivity|]. auto.
  - apply Hc; [lia|exact E].
  - apply Hc; [lia|exact E].
Qed.

Lemma some_size n w d : fst (readSomeAsyncInline n w) = INext d -> d = [] \/ (d <> [] /\ (Z.of_N (lenN d) <= n)%Z).
Proof.
  unfold readSomeAsyncInline. destruct (Z.leb_spec n 0) as [Hn|Hn]; [intros [= <-]; now left|].
  assert (H : forall s k, match fst (fst (read_raw (Z.to_N n) s k)) with RGot d => d <> [] /\ (Z.of_N (lenN d) <= n)%Z | _ => True end).
  { induction s as [|[b bs|e|x] s IH]; intros k; cbn [read_raw fst]; try exact I; [|apply IH].
    assert (Hl : lenN (takeN (Z.to_N n) (b :: bs)) = N.min (Z.to_N n) (1 + lenN bs)) by (rewrite lenN_takeN, lenN_cons; reflexivity).
    split; [|rewrite Hl; clear -Hn; lia]. intros E. rewrite E, lenN_nil in Hl. clear -Hl Hn. lia. }
  specialize (H (w_in w) (w_sock w)). destruct (read_raw _ _ _) as [[[d0|[]|] s] k]; cbn [fst] in *; intros E; try discriminate E; injection E as <-; auto.
Qed.

Lemma tidy_payload h sh l us al pr p l' next w s c : payload_ok h sh us pr p next ->
  step react (Conf h sh [CoPayload l us al pr p; CoHandle l' next; CoListen] w) = (s, c) -> ok_step w c.
Proof.
  intros Ha E. cbn [step] in E. set (K := [CoHandle l' next; CoListen]) in E.
  assert (HK : tidy h sh K).
  { apply ti_handle; destruct us; cbn in Ha; destruct Ha as [H1 H2].
    - destruct H2 as (_ & _ & [H2|[H2|H2]] & _); rewrite H2; discriminate.
    - rewrite H2; discriminate.
    - right. apply H2.
    - now left. }
  assert (Hr : forall st sh' pr' p' w', w_log w' = w_log w -> payload_ok h sh' us pr' p' next ->
     (st, Conf h sh' (CoPayload l us al pr' p' :: K) w') = (s, c) -> ok_step w c).
  { intros st sh' pr' p' w' Hw Hpo [= <- <-]. split; [now apply same_log|]. now apply ti_payload. }
  assert (Hd : forall st w', w_log w' = w_log w -> (st, Conf h sh K w') = (s, c) -> ok_step w c).
  { intros st w' Hw [= <- <-]. split; [now apply same_log|exact HK]. }
  assert (Hf : forall e w', w_log w' = w_log w -> fail e (Conf h sh K w') = (s, c) -> ok_step w c).
  { intros e w' Hw Ef. destruct (fail_tidy _ _ _ _ _ _ _ (eq_refl : unwind K = None) Ef) as [Ew H]. split; [rewrite Ew; now apply same_log|exact H]. }
  assert (Ht : forall li ev fr pr' p', proper ev -> payload_ok h sh us pr' p' next ->
     (let (co, w') := call_listener react li ev fr w in (ARun, Conf h sh (co :: CoPayload l us al pr' p' :: K) w')) = (s, c) -> ok_step w c).
  { intros li ev fr pr' p' Hev Hpo [= <- <-]. split; [apply properly_one, Hev|]. apply ti_talk; [exact I|]. now apply ti_payload. }
  destruct p as [|n|d|]; cbn [step_payload] in E; cbv zeta in E.
  - destruct (Z.ltb_spec pr (h_len h)) as [Hlt|Hge].
    + revert E. apply Hr; [reflexivity|]. destruct us; [|exact Ha]. cbn [payload_ok] in *. destruct Ha as (H1 & H2 & H3 & H4 & _).
      repeat split; try assumption. destruct (Z.ltb_spec (h_len h - pr) (s_buf (w_sock w))); lia.
    + destruct us; cbn [negb andb] in E; [revert E; now apply Hd|]. destruct (h_fin h); [|revert E; now apply Hd].
      destruct l as [li|]; [|revert E; now apply Hd]. revert E. apply Ht; [exact (proj1 Ha)|exact Ha].
  - pose proof (log_some n w) as Hl. pose proof (some_size n w) as Hs. destruct (readSomeAsyncInline n w) as [[d'|d'| |] w']; cbn [fst snd] in *.
    + destruct (al <? _)%Z; [injection E as <- <-; split; [now apply same_log|apply ti_nil]|].
      revert E. apply Hr; [exact Hl|]. destruct us; [|exact Ha]. cbn [payload_ok] in *. destruct Ha as (H1 & H2 & H3 & H4 & H5).
      destruct (Hs d' eq_refl) as [->|[_ Hsz]].
      * repeat split; try assumption. now left.
      * repeat split; try assumption. right. clear -Hsz H5. lia.
    + revert E; now apply Hr.
    + revert E; now apply Hr.
    + revert E; now apply Hf.
  - destruct d as [|b d]; [revert E; now apply Hf|]. destruct us.
    + revert E. apply Hr; [reflexivity|]. cbn [payload_ok] in *. destruct Ha as (H1 & H2 & H3 & H4 & [H5|H5]); [discriminate H5|].
      unfold small. rewrite lenN_app, lenN_masked. repeat split; try assumption; clear -H1 H2 H3 H5; lia.
    + destruct l as [li|]; [|revert E; now apply Hr]. revert E. apply Ht; [|exact Ha]. split; [exact (proj1 Ha)|]. apply nonempty_masked. discriminate.
  - revert E; now apply Hd.
Qed.

Lemma tidy_handle h sh l next w s c : next <> HfAct -> (next = HfFinish \/ small sh) ->
  step react (Conf h sh [CoHandle l next; CoListen] w) = (s, c) -> ok_step w c.
Proof.
  intros Hn Hs E. cbn [step] in E. unfold step_handle in E. cbv zeta in E.
  assert (Hf : tidy h sh [CoHandle l HfFinish; CoListen]) by (apply ti_handle; [discriminate|now left]).
  destruct next; [now destruct Hn| | | |]; try (destruct Hs as [Hs|Hs]; [discriminate Hs|]; destruct l as [li|]; injection E as <- <-; split;
    [apply properly_one; first [now apply proper_close|exact Hs]|apply ti_talk; [exact Logic.I|exact Hf]|apply properly_refl|apply ti_listen]).
  injection E as <- <-. split; [apply properly_refl|apply ti_listen].
Qed.
Lemma tidy_step h sh st w s c : tidy h sh st -> step react (Conf h sh st w) = (s, c) -> ok_step w c.
Proof.
  intros H E. destruct H as [| |p l|l|l us al pr p l' next H|l next H H'|co K Ht HK].
  - cbn [step] in E. injection E as <- <-. split; [apply properly_refl|apply ti_nil].
  - cbn [step] in E. destruct (h_opcode h =? OPCODE_CLOSE); injection E as <- <-; (split; [apply properly_refl|]); [apply ti_nil|apply ti_read].
  - eapply tidy_read, E.
  - eapply tidy_act, E.
  - eapply tidy_payload; eassumption.
  - eapply tidy_handle; eassumption.
  - eapply tidy_talk; eassumption.
Qed.
Definition tidy_ok (l0 : list (nat * event)) (h : header) (sh : bytes) (st : list cor) (w : world) : Prop := properly l0 (w_log w) /\ tidy h sh st.
Lemma tidy_ok_step l0 h sh st w s c : tidy_ok l0 h sh st w -> step react (Conf h sh st w) = (s, c) ->
  tidy_ok l0 (c_hdr c) (c_short c) (c_stack c) (c_world c).
Proof. intros [H1 H2] E. destruct (tidy_step _ _ _ _ _ _ H2 E) as [H3 H4]. split; [eapply properly_trans; eassumption|exact H4]. Qed.

Definition crowd_tidy (l0 : list (nat * event)) (s : crowd_t) : Prop :=
  tidy_ok l0 (k_hdr (fst s 0%nat)) (k_short (fst s 0%nat)) (k_stack (fst s 0%nat)) (snd s) /\ forall i, i <> 0%nat -> Forall talker (k_stack (fst s i)).
Lemma crowd_tidy_step l0 e s : crowd_tidy l0 s -> crowd_tidy l0 (kstep react e s).
Proof.
  intros [H0 Hi]. destruct e as [i|rs]; cbn [kstep].
  - destruct (ktick react (fst s i) (snd s)) as [k w] eqn:E. destruct (ktick_cases _ _ _ _ _ E) as [[-> ->]|(st & c & Es & -> & ->)].
    + split; cbn [fst snd].
      * destruct (Nat.eqb_spec 0 i) as [<-|]; exact H0.
      * intros j Hj. destruct (Nat.eqb_spec j i) as [->|]; now apply Hi.
    + split; cbn [fst snd].
      * destruct (Nat.eqb_spec 0 i) as [<-|Hn]; cbn [k_hdr k_short k_stack].
        -- exact (tidy_ok_step _ _ _ _ _ _ _ H0 Es).
        -- destruct (talkers_step _ _ _ _ _ _ _ (Hi i (fun x => Hn (eq_sym x))) Es) as [Hl _].
           destruct H0 as [G1 G2]. split; [now rewrite Hl|exact G2].
      * intros j Hj. destruct (Nat.eqb_spec j i) as [->|]; [|now apply Hi]. cbn [k_stack].
        exact (proj2 (talkers_step _ _ _ _ _ _ _ (Hi i Hj) Es)).
  - split; [exact H0|exact Hi].
Qed.
Lemma crowd_tidy_run l0 : forall evs s, crowd_tidy l0 s -> crowd_tidy l0 (krun react evs s).
Proof.
  unfold krun. induction evs as [|e evs IH]; intros s H; cbn [fold_left]; [exact H|]. apply IH, crowd_tidy_step, H.
Qed.
End Async.

(** C102, asynchronous socket, with other coroutines: any bytes, connection failures, callbacks, coroutines and order of steps. *)
Theorem C102_coroutines : forall react work w evs, properly (w_log w) (notified (krun react evs (crowd_init work w))).
Proof.
  intros react work w evs. apply (crowd_tidy_run react (w_log w) evs (crowd_init work w)). split; cbn [crowd_init fst snd].
  - split; [apply properly_refl|apply ti_listen].
  - intros [|i] Hi; [now destruct Hi|]. apply Forall_cons; [exact I|apply Forall_nil].
Qed.
Print Assumptions C102_coroutines.

(** C102 for listenAsync() on its own. *)
Theorem C102_async : forall react w evs st c,
  run react evs (ARun, start_listen w) = (st, c) -> properly (w_log w) (w_log (c_world c)).
Proof.
  intros react w evs st c E.
  assert (H : tidy_ok (w_log w) (c_hdr c) (c_short c) (c_stack c) (c_world c)); [|exact (proj1 H)].
  assert (H0 : tidy_ok (w_log w) (c_hdr (start_listen w)) (c_short (start_listen w)) (c_stack (start_listen w)) (c_world (start_listen w))).
  { split; [apply properly_refl|apply ti_listen]. }
  revert E H0. generalize ARun as st0. generalize (start_listen w) as c0. induction evs as [|e evs IH]; intros c0 st0 E H0; cbn [run] in E.
  - injection E as <- <-. exact H0.
  - destruct e as [|rs].
    + destruct (tick react (st0, c0)) as [st1 c1] eqn:Et. apply (IH c1 st1 E).
      unfold tick in Et. destruct c0 as [h sh K w0]. destruct st0; try (injection Et as <- <-; exact H0); exact (tidy_ok_step _ _ _ _ _ _ _ _ H0 Et).
    + exact (IH _ _ E H0).
Qed.
Print Assumptions C102_async.

(** * A concrete case: a text frame, a ping with 2 bytes and a Close frame with a code and a reason arrive, then a ping; buffer of 1 byte;
    a callback changes it to 3. Another thread or coroutine installs another listener. *)
Definition proper_react : react_t := fun _ log => [CSetConfig true 3; CSend true (SoText (Some [x61]))].
Definition proper_work (i : nat) : list cmd := match i with 1%nat => [CSetListener (Some 2%nat); CSend true (SoPing None)] | _ => [] end.
Definition proper_world : world :=
  World [RData x81 [x02; x61; x62; x89; x02]; RIo IoRetry; RData x63 [x64; x88; x04]; RData x03 [xe8; x65; x66; x89; x00]] (repeat (WAccept 4) 20) []
    (fun n => Byte.x2a) 0 [] (Sock false 1 (Some 1%nat) (-1) false).
Example C102_nonvacuous :
  let t := srun (concat (repeat [0; 0; 0; 1]%nat 200)) (system_init proper_react proper_work proper_world) in
  let s := krun proper_react (concat (repeat [CTick 0; CTick 0; CTick 0; CTick 1] 60)) (crowd_init proper_work proper_world) in
  let c := run proper_react (repeat Tick 200) (ARun, start_listen proper_world) in
  map snd (told t) = [EvMsg 1 [x61]; EvMsg 1 [x62]; EvEnd 1; EvPing [x63; x64]; EvClose 1000 [x65; x66]] /\
  map snd (notified s) = [EvMsg 1 [x61]; EvMsg 1 [x62]; EvEnd 1; EvPing [x63; x64]; EvClose 1000 [x65; x66]] /\
  map snd (w_log (c_world (snd c))) = [EvMsg 1 [x61]; EvMsg 1 [x62]; EvEnd 1; EvPing [x63; x64]; EvClose 1000 [x65; x66]].
Proof. vm_compute. repeat split. Qed.
