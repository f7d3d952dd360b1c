(** C71 and C12 for several threads on one socket: after a stopListening by anybody, at any moment, at most the rest of one frame is
    told; after a Close frame nothing is. *)
From Verif Require Import Bytes Frame World WebSocket AsyncWebSocket SpecFrame SpecSend SpecListen SpecAsync SpecReply Threads SpecThreads Process SpecProcess SpecProcessStop
  ProofProcess3 PropProcess2.
Local Open Scope N_scope.
Local Open Scope p_scope.
Local Arguments takeN : simpl never.
Local Arguments dropN : simpl never.
Local Arguments lenN : simpl never.
Local Arguments be_enc : simpl never.
Local Arguments be_dec : simpl never.
Local Arguments packHeaderBits : simpl never.

(** Where the telling of a frame has got to. *)
Inductive fstate := Fresh | Data (op : N) | Done | Closed.
Definition next (st : fstate) (ev : event) (st' : fstate) : Prop :=
  match ev with
  | EvMsg op _ => (st = Fresh \/ st = Data op) /\ st' = Data op
  | EvEnd op => (st = Fresh \/ st = Data op) /\ st' = Done
  | EvClose _ _ => st = Fresh /\ st' = Closed
  | _ => st = Fresh /\ st' = Done
  end.
Inductive path : fstate -> list event -> fstate -> Prop :=
| path_nil st : path st [] st
| path_snoc st l st1 ev st2 : path st l st1 -> next st1 ev st2 -> path st (l ++ [ev]) st2.

Lemma path_shape st l st' : path st l st' ->
  (l = [] /\ st' = st) \/ (exists op d ds, l = map (EvMsg op) (d :: ds) /\ st' = Data op) \/
  ((st' = Done \/ st' = Closed) /\ ((exists op ds, l = map (EvMsg op) ds ++ [EvEnd op]) \/ (exists m, l = [EvPing m]) \/ (exists m, l = [EvPong m]) \/ (exists c m, l = [EvClose c m]))).
Proof.
  intros H. induction H as [st|st l st1 ev st2 _ IH Hn]; [now left|]. right.
  destruct IH as [[-> ->]|[(op & d & ds & -> & ->)|[Hd _]]].
  - destruct ev as [op d|op|m|m|c m]; cbn in Hn; destruct Hn as [Hn ->].
    + left. exists op, d, []. split; reflexivity.
    + right. split; [now left|]. left. exists op, []. reflexivity.
    + right. split; [now left|]. right. left. now exists m.
    + right. split; [now left|]. right. right. left. now exists m.
    + right. split; [now right|]. right. right. right. now exists c, m.
  - destruct ev as [op' d'|op'|m|m|c m]; cbn in Hn; destruct Hn as [Hn ->]; try discriminate Hn.
    + assert (op' = op) as -> by (destruct Hn as [Hn|Hn]; congruence). left. exists op, d, (ds ++ [d']). split; [|reflexivity].
      now rewrite app_comm_cons, map_app.
    + assert (op' = op) as -> by (destruct Hn as [Hn|Hn]; congruence). right. split; [now left|]. left. now exists op, (d :: ds).
  - exfalso. destruct Hd as [-> | ->]; destruct ev; cbn in Hn; destruct Hn as [Hn _]; first [discriminate Hn|destruct Hn; discriminate].
Qed.
Lemma path_one st l st' : path st l st' -> of_one_frame l.
Proof.
  intros H. destruct (path_shape _ _ _ H) as [[-> _]|[(op & d & ds & -> & _)|[_ [(op & ds & ->)|[(m & ->)|[(m & ->)|(c & m & ->)]]]]]]; unfold of_one_frame.
  - left. exists 0, []. now left.
  - left. exists op, (d :: ds). now left.
  - left. exists op, ds. now right.
  - right. left. now exists m.
  - right. right. left. now exists m.
  - right. right. right. now exists c, m.
Qed.

Definition emits (st : fstate) (l l' : list (nat * event)) (st' : fstate) : Prop :=
  (l' = l /\ st' = st) \/ exists i ev, l' = l ++ [(i, ev)] /\ next st ev st'.

(** A program that tells along the path, starting in [st]; a new frame is only begun after m_listening was read as true,
    and not after a Close. *)
Fixpoint fr {A} (Q : fstate -> A -> Prop) (st : fstate) (p : prog A) : Prop :=
  match p with
  | PDone (Ret a) => Q st a
  | PDone _ => True
  | PAtom u k => forall v, exists st', emits st (v_log v) (v_log (u v)) st' /\ fr Q st' (k v)
  | PAcc k => forall s, fr Q st (k s) \/ (k_listening s = true /\ st <> Closed /\ fr Q Fresh (k s))
  | PExt _ k => fr Q st k
  | PStop k => fr Q st k
  | PMark _ k => fr Q st k
  | PBegin _ => False
  | PRand n k => forall b, fr Q st (k b)
  | PWrite d got k => forall n, fr Q st (k n)
  end.

Lemma fr_bind {A B} (Q : fstate -> A -> Prop) (R : fstate -> B -> Prop) (f : A -> prog B) :
  (forall st a, Q st a -> fr R st (f a)) -> forall p st, fr Q st p -> fr R st (pbind p f).
Proof.
  intros Hf. induction p as [o|u k IH|k IH|x k IH|k IH|k IH|n k IH|d got k IH|e k IH]; intros st Hp; cbn [pbind fr] in *.
  - destruct o; try exact I. now apply Hf.
  - intros v. destruct (Hp v) as (st' & He & Hk). exists st'. split; [exact He|now apply IH].
  - intros s. destruct (Hp s) as [Hk|[Hl [Hc Hk]]]; [left|right; split; [exact Hl|split; [exact Hc|]]]; now apply IH.
  - now apply IH.
  - destruct Hp.
  - now apply IH.
  - intros b. now apply IH.
  - intros m. now apply IH.
  - now apply IH.
Qed.
Lemma fr_weaken {A} (Q R : fstate -> A -> Prop) : (forall st a, Q st a -> R st a) -> forall p st, fr Q st p -> fr R st p.
Proof.
  intros Hf. induction p as [o|u k IH|k IH|x k IH|k IH|k IH|n k IH|d got k IH|e k IH]; intros st Hp; cbn [fr] in *.
  - destruct o; try exact I. now apply Hf.
  - intros v. destruct (Hp v) as (st' & He & Hk). exists st'. split; [exact He|now apply IH].
  - intros s. destruct (Hp s) as [Hk|[Hl [Hc Hk]]]; [left|right; split; [exact Hl|split; [exact Hc|]]]; now apply IH.
  - now apply IH.
  - destruct Hp.
  - now apply IH.
  - intros b. now apply IH.
  - intros m. now apply IH.
  - now apply IH.
Qed.
Lemma fr_try : forall p st, fr (fun _ _ => True) st p -> fr (fun _ _ => True) st (ptry p).
Proof.
  induction p as [o|u k IH|k IH|x k IH|k IH|k IH|n k IH|d got k IH|e k IH]; intros st Hp; cbn [ptry fr] in *.
  - destruct o; exact I.
  - intros v. destruct (Hp v) as (st' & He & Hk). exists st'. split; [exact He|now apply IH].
  - intros s. destruct (Hp s) as [Hk|[Hl [Hc Hk]]]; [left|right; split; [exact Hl|split; [exact Hc|]]]; now apply IH.
  - now apply IH.
  - destruct Hp.
  - now apply IH.
  - intros b. now apply IH.
  - intros m. now apply IH.
  - now apply IH.
Qed.

(** Programs that tell nothing. *)
Fixpoint mute {A} (p : prog A) : Prop :=
  match p with
  | PDone _ => True
  | PAtom _ _ => False
  | PAcc k => forall s, mute (k s)
  | PExt _ k => mute k
  | PStop k => mute k
  | PMark _ k => mute k
  | PBegin _ => False
  | PRand n k => forall b, mute (k b)
  | PWrite d got k => forall n, mute (k n)
  end.
Lemma mute_fr {A} (p : prog A) : mute p -> forall st, fr (fun st' _ => st' = st) st p.
Proof.
  induction p as [o|u k IH|k IH|x k IH|k IH|k IH|n k IH|d got k IH|e k IH]; intros Hp st; cbn [mute fr] in *; auto.
  - destruct o; auto.
  - destruct Hp.
Qed.
Lemma mute_bind {A B} (f : A -> prog B) : (forall a, mute (f a)) -> forall p, mute p -> mute (pbind p f).
Proof.
  intros Hf. induction p as [o|u k IH|k IH|x k IH|k IH|k IH|n k IH|d got k IH|e k IH]; intros Hp; cbn [pbind mute] in *; auto.
  destruct o; cbn; auto.
Qed.
Lemma mute_try p : mute p -> mute (ptry p).
Proof.
  induction p as [o|u k IH|k IH|x k IH|k IH|k IH|n k IH|d got k IH|e k IH]; intros Hp; cbn [ptry mute] in *; auto.
  destruct o; cbn; auto.
Qed.
Ltac mute_tac := repeat first
  [ exact I
  | match goal with
    | |- mute (pbind _ _) => apply mute_bind; [intros ?|]
    | |- mute (if ?b then _ else _) => destruct b
    | |- mute (let (_, _) := ?p in _) => destruct p
    | |- mute (ptry _) => apply mute_try
    end
  | progress cbn [mute paccess pwrite pret pthrow]; intros
  | progress unfold paccess, pwrite, pret, pthrow ].
Lemma mute_wfh h : mute (pwriteFrameHeader h).
Proof. unfold pwriteFrameHeader. mute_tac. Qed.
Lemma mute_sfh h fin op n : mute (psendFrameHeader h fin op n).
Proof. unfold psendFrameHeader. cbn [paccess pbind mute pret]. intros s. apply mute_bind; [intros a; apply mute_bind; [intros; exact I|apply mute_wfh]|]. cbn [h_hasMask]. mute_tac. Qed.
Lemma mute_sof fin op m : mute (psendOneFrame fin op m).
Proof.
  unfold psendOneFrame. destruct m as [[|b bs]|].
  - apply mute_bind; [intros; exact I|apply mute_sfh].
  - cbv zeta. apply mute_bind; [intros h|apply mute_sfh]. mute_tac.
  - apply mute_bind; [intros; exact I|apply mute_sfh].
Qed.
Lemma mute_send op : mute (psend op).
Proof.
  destruct op; cbn [psend]; unfold psendChecked; (apply mute_bind; [|apply mute_sof]); intros a; try exact I; destruct a; cbn [mute pret pthrow]; exact I.
Qed.
Lemma mute_cmds cs : mute (pexec_cmds cs).
Proof.
  induction cs as [|c cs IH]; cbn [pexec_cmds]; [exact I|]. apply mute_bind; [intros _; exact IH|].
  destruct c as [|l|m b|[] op| | |fin op m]; cbn [pexec_cmd mute pret pthrow]; try exact I.
  - apply mute_try, mute_send.
  - apply mute_send.
  - intros; exact I.
  - intros; exact I.
  - apply mute_bind; [|apply mute_sof]. intros []; exact I.
Qed.

Section Stop.
Variable react : react_t.

Lemma fr_ret {A} (Q : fstate -> A -> Prop) st a : Q st a -> fr Q st (pret a).
Proof. intros H. exact H. Qed.
Lemma fr_local {A} (Q : fstate -> A -> Prop) st (m : M A) : (forall w, w_log (snd (m w)) = w_log w) -> (forall a, Q st a) -> fr Q st (plocal m).
Proof.
  intros Hm HQ. cbn [plocal fr]. intros v. exists st. split; [|destruct (fst _); auto]. left. split; [|reflexivity].
  cbn [priv_of v_log]. rewrite Hm. reflexivity.
Qed.
Lemma fr_notify ev st st' : next st ev st' -> fr (fun s _ => s = st \/ s = st') st (pnotify react ev).
Proof.
  intros Hn. unfold pnotify. cbn [paccess pbind fr pret]. intros s. left. destruct (k_listener s) as [l|]; [|now left].
  cbn [paccess pbind fr pret]. intros s2. left. destruct (k_listener s2) as [l2|]; [|exact I].
  cbn [fr]. intros v. exists st'. split.
  - right. exists l2, ev. split; [reflexivity|exact Hn].
  - cbn [v_log]. eapply fr_weaken; [|apply mute_fr, mute_cmds]. intros s3 a E. now right.
Qed.

Lemma fr_data h alloc : forall fuel progress st, (st = Fresh \/ st = Data (h_opcode h)) ->
  fr (fun s _ => s = Fresh \/ s = Data (h_opcode h)) st (preadPayload_loop react fuel h None alloc progress).
Proof.
  induction fuel as [|fuel IH]; intros progress st Hst; cbn [preadPayload_loop]; [exact I|].
  destruct (progress <? h_len h)%Z; [|exact Hst]. cbn [paccess pbind pret]. intros s. left. cbv zeta.
  eapply (fr_bind (fun s _ => s = st)).
  2:{ apply fr_local; [intros w; apply ProofProcess3.quiet_read|reflexivity]. }
  intros ? r ->. destruct r as [data|[]]; [|now apply IH|exact I|exact I].
  destruct (alloc <? _)%Z; [exact I|].
  eapply (fr_bind (fun s _ => s = st \/ s = Data (h_opcode h))).
  2:{ apply fr_notify. split; [exact Hst|reflexivity]. }
  intros s' _ [-> | ->]; apply IH; auto.
Qed.
Lemma fr_control h alloc : forall fuel sh progress,
  fr (fun s _ => s = Fresh) Fresh (preadPayload_loop react fuel h (Some sh) alloc progress).
Proof.
  induction fuel as [|fuel IH]; intros sh progress; cbn [preadPayload_loop]; [exact I|].
  destruct (progress <? h_len h)%Z; [|reflexivity]. cbn [paccess pbind pret]. intros s. left. cbv zeta.
  eapply (fr_bind (fun s _ => s = Fresh)).
  2:{ apply fr_local; [intros w; apply ProofProcess3.quiet_read|reflexivity]. }
  intros ? r ->. destruct r as [data|[]]; [|now apply IH|exact I|exact I].
  destruct (alloc <? _)%Z; [exact I|]. apply IH.
Qed.
Lemma fr_payload_data h : fr (fun st _ => st <> Closed) Fresh (preadPayload react h None).
Proof.
  unfold preadPayload. cbn [andb]. cbn [paccess pbind pret]. intros s. left. destruct (_ <? 0)%Z; [exact I|].
  cbn [pget pbind pret fr]. intros v. exists Fresh. split; [left; split; reflexivity|].
  eapply fr_bind; [|apply fr_data; now left]. intros st r Hst. cbn beta.
  assert (Hc : st <> Closed) by (destruct Hst as [-> | ->]; discriminate).
  eapply (fr_bind (fun s _ => s <> Closed)); [intros st2 [] H; exact H|].
  destruct (h_fin h); [|exact Hc]. eapply fr_weaken; [|apply (fr_notify _ st Done); split; [exact Hst|reflexivity]].
  intros s2 [] [-> | ->]; [exact Hc|discriminate].
Qed.
Lemma fr_payload_control h sh : fr (fun s _ => s = Fresh) Fresh (preadPayload react h (Some sh)).
Proof.
  unfold preadPayload. destruct (_ && _)%bool; [exact I|]. cbn [paccess pbind pret]. intros s. left. destruct (_ <? 0)%Z; [exact I|].
  cbn [pget pbind pret fr]. intros v. exists Fresh. split; [left; split; reflexivity|].
  eapply fr_bind; [|apply fr_control]. intros st r ->. reflexivity.
Qed.
Definition open_after_frame (h : header) (st : fstate) : Prop := h_opcode h = 8 \/ st <> Closed.
Lemma fr_handle h : fr (fun st _ => open_after_frame h st) Fresh (phandleFrame react h).
Proof.
  assert (Hd : fr (fun st _ => open_after_frame h st) Fresh (preadPayload react h None ;;; pret tt)).
  { eapply fr_bind; [|apply fr_payload_data]. intros st a Hst. right. exact Hst. }
  assert (Hc : forall (ev : option bytes -> event) st', (forall p, next Fresh (ev p) st') -> open_after_frame h st' ->
            fr (fun st _ => open_after_frame h st) Fresh (p <- preadPayload react h (Some []) ;; pnotify react (ev p))).
  { intros ev st' Hev Hok. eapply fr_bind; [|apply fr_payload_control]. intros st p ->. eapply fr_weaken; [|apply (fr_notify _ Fresh st'), Hev].
    intros s2 [] [-> | ->]; [right; discriminate|exact Hok]. }
  assert (Hk : fr (fun st _ => open_after_frame h st) Fresh (ok <- plocal (checkForContinuation h) ;; if (ok : bool) then preadPayload react h None ;;; pret tt else pthrow ExContinuationExpected)).
  { eapply (fr_bind (fun s _ => s = Fresh)); [|apply fr_local; [intros w; apply ProofProcess3.quiet_check|reflexivity]]. intros st [] ->; [exact Hd|exact I]. }
  unfold phandleFrame. destruct (h_opcode h) as [|q] eqn:En;
  [|destruct q as [[[p|[p|p|]|]|[[p|p|]|[p|p|]|]|]|[[[p|p|]|[p|p|]|]|[[p|p|]|[p|p|]|]|]|]]; try exact I; try exact Hk.
  - cbn [pget pbind pret fr]. intros v. exists Fresh. split; [left; split; reflexivity|]. destruct (_ <? 0)%Z; [exact I|exact Hd].
  - apply (Hc (fun p => EvPing (str p)) Done); [intros p; split; reflexivity|right; discriminate].
  - apply (Hc (fun p => EvPong (str p)) Done); [intros p; split; reflexivity|right; discriminate].
  - apply (Hc (fun p => EvClose (close_code (str p)) (close_reason (str p))) Closed); [intros p; split; reflexivity|now left].
Qed.
Lemma fr_loop : forall fuel h, fr (fun _ _ => True) Fresh (plisten_loop react fuel h).
Proof.
  induction fuel as [|fuel IH]; intros h; cbn [plisten_loop fr]; [exact I|].
  eapply (fr_bind (fun s _ => s = Fresh)); [|apply fr_local; [intros w; apply ProofProcess3.quiet_header|reflexivity]].
  intros st h' ->. eapply fr_bind; [|apply fr_handle]. intros st u Hst. cbn [paccess pbind pret fr]. intros s.
  destruct (N.eqb_spec (h_opcode h') OPCODE_CLOSE) as [Ec|Ec]; cbn [negb andb]; [left; exact I|].
  destruct (k_listening s) eqn:El; cbn [andb]; [right; split; [reflexivity|]|left; exact I].
  split; [destruct Hst as [Hst|Hst]; [now destruct (Ec Hst)|exact Hst]|]. apply IH.
Qed.

(** ** One step *)
Lemma fr_step : forall p st v g p' v' g', fr (fun _ (_ : unit) => True) st p -> pstep p v g = Some (p', v', g') ->
  k_listening (g_f g) = false ->
  k_listening (g_f g') = false /\ exists st', emits st (v_log v) (v_log v') st' /\ fr (fun _ _ => True) st' p'.
Proof.
  intros p st v g p' v' g' Hp E Hf.
  assert (Hsame : forall (q : prog unit) g2, fr (fun _ _ => True) st q -> k_listening (g_f g2) = false ->
            k_listening (g_f g2) = false /\ exists st', emits st (v_log v) (v_log v) st' /\ fr (fun _ _ => True) st' q).
  { intros q g2 H1 H2. split; [exact H2|]. exists st. split; [left; split; reflexivity|exact H1]. }
  destruct p as [o|u k|k|x k|k|k|n k|d got k|e k]; cbn [pstep] in E; cbn [fr] in Hp.
  - discriminate E.
  - injection E as <- <- <-. split; [exact Hf|]. apply Hp.
  - injection E as <- <- <-. destruct (Hp (g_f g)) as [H|[H _]]; [now apply Hsame|congruence].
  - injection E as <- <- <-. apply Hsame; [exact Hp|]. destruct x; cbn; auto.
  - destruct Hp.
  - injection E as <- <- <-. apply Hsame; [exact Hp|reflexivity].
  - injection E as <- <- <-. apply Hsame; [apply Hp|exact Hf].
  - destruct d as [|b d]; [injection E as <- <- <-; apply Hsame; auto|].
    destruct (g_wr g) as [|[m|[]|] q]; try discriminate E; injection E as <- <- <-; apply Hsame; auto.
  - injection E as <- <- <-. now apply Hsame.
Qed.
Lemma fr_step_any : forall p st v g p' v' g', fr (fun _ (_ : unit) => True) st p -> pstep p v g = Some (p', v', g') ->
  exists st', (emits st (v_log v) (v_log v') st' \/ (v_log v' = v_log v /\ st <> Closed /\ st' = Fresh)) /\ fr (fun _ _ => True) st' p'.
Proof.
  intros p st v g p' v' g' Hp E.
  assert (Hsame : forall q : prog unit, fr (fun _ _ => True) st q ->
            exists st', (emits st (v_log v) (v_log v) st' \/ (v_log v = v_log v /\ st <> Closed /\ st' = Fresh)) /\ fr (fun _ _ => True) st' q).
  { intros q H. exists st. split; [left; left; split; reflexivity|exact H]. }
  destruct p as [o|u k|k|x k|k|k|n k|d got k|e k]; cbn [pstep] in E; cbn [fr] in Hp.
  - discriminate E.
  - injection E as <- <- <-. destruct (Hp v) as (st' & He & H). exists st'. split; [now left|exact H].
  - injection E as <- <- <-. destruct (Hp (g_f g)) as [H|(_ & Hc & H)]; [now apply Hsame|]. exists Fresh. split; [right|exact H]. auto.
  - injection E as <- <- <-. now apply Hsame.
  - destruct Hp.
  - injection E as <- <- <-. now apply Hsame.
  - injection E as <- <- <-. apply Hsame, Hp.
  - destruct d as [|b d]; [injection E as <- <- <-; apply Hsame, Hp|].
    destruct (g_wr g) as [|[m|[]|] q]; try discriminate E; injection E as <- <- <-; apply Hsame; first [exact Hp|apply Hp].
  - injection E as <- <- <-. now apply Hsame.
Qed.
Lemma mute_step : forall (p : prog unit) v g p' v' g', mute p -> pstep p v g = Some (p', v', g') ->
  mute p' /\ (k_listening (g_f g) = false -> k_listening (g_f g') = false).
Proof.
  intros p v g p' v' g' Hp E.
  destruct p as [o|u k|k|x k|k|k|n k|d got k|e k]; cbn [pstep] in E; cbn [mute] in Hp.
  - discriminate E.
  - destruct Hp.
  - injection E as <- <- <-. auto.
  - injection E as <- <- <-. split; [exact Hp|]. destruct x; cbn; auto.
  - destruct Hp.
  - injection E as <- <- <-. auto.
  - injection E as <- <- <-. auto.
  - destruct d as [|b d]; [injection E as <- <- <-; auto|].
    destruct (g_wr g) as [|[m|[]|] q]; try discriminate E; injection E as <- <- <-; auto.
  - injection E as <- <- <-. auto.
Qed.

Definition others_mute (s : system) : Prop := forall i, i <> 0%nat -> mute (fst (fst s i)).
Definition on_path (st : fstate) (s : system) : Prop := fr (fun _ _ => True) st (fst (fst s 0%nat)).

Lemma others_step i s : others_mute s -> others_mute (sstep i s).
Proof.
  intros H j Hj. unfold sstep. destruct (pstep _ _ _) as [[[p v] g]|] eqn:E; [|now apply H].
  cbn [fst snd]. destruct (Nat.eqb_spec j i) as [->|]; [|now apply H].
  cbn [fst]. exact (proj1 (mute_step _ _ _ _ _ _ (H i Hj) E)).
Qed.
Lemma path_step i st s : others_mute s -> on_path st s -> k_listening (g_f (snd s)) = false ->
  k_listening (g_f (snd (sstep i s))) = false /\
  exists st', emits st (told s) (told (sstep i s)) st' /\ on_path st' (sstep i s).
Proof.
  intros Ho Hp Hf. unfold sstep, told, on_path. destruct (pstep _ _ _) as [[[p v] g]|] eqn:E.
  2:{ split; [exact Hf|]. exists st. split; [left; split; reflexivity|exact Hp]. }
  destruct i as [|i].
  - cbn [fst snd Nat.eqb]. exact (fr_step _ _ _ _ _ _ _ Hp E Hf).
  - cbn [fst snd Nat.eqb]. destruct (mute_step _ _ _ _ _ _ (Ho (Datatypes.S i) (Nat.neq_succ_0 i)) E) as [_ H]. split; [now apply H|].
    exists st. split; [left; split; reflexivity|exact Hp].
Qed.
Lemma path_run : forall sch st s, others_mute s -> on_path st s -> k_listening (g_f (snd s)) = false ->
  exists rest st', told (srun sch s) = told s ++ rest /\ path st (map snd rest) st'.
Proof.
  assert (Hcons : forall st st1 st2 ev l, next st ev st1 -> path st1 l st2 -> path st (ev :: l) st2).
  { intros st st1 st2 ev l Hn H. induction H as [st1|st1 l st2 ev2 st3 _ IH Hn2].
    - apply (path_snoc st [] st ev st1); [constructor|exact Hn].
    - rewrite app_comm_cons. eapply path_snoc; [apply IH, Hn|exact Hn2]. }
  induction sch as [|i sch IH]; intros st s Ho Hp Hf; cbn [srun].
  - exists [], st. split; [now rewrite app_nil_r|constructor].
  - destruct (path_step i st s Ho Hp Hf) as (Hf' & st1 & He & Hp1).
    destruct (IH st1 _ (others_step i s Ho) Hp1 Hf') as (rest & st2 & Er & Hr).
    destruct He as [[El ->]|(j & ev & El & Hn)].
    + exists rest, st2. split; [now rewrite Er, El|exact Hr].
    + exists ((j, ev) :: rest), st2. split; [now rewrite Er, El, <- app_assoc|]. cbn [map snd]. now apply (Hcons st st1).
Qed.

Lemma begun_path : forall sch s, others_mute s -> (exists st, on_path st s) -> others_mute (srun sch s) /\ exists st, on_path st (srun sch s).
Proof.
  induction sch as [|i sch IH]; intros s Ho Hp; cbn [srun]; [now split|].
  apply IH; [now apply others_step|]. destruct Hp as [st Hp]. unfold sstep, on_path in *.
  destruct (pstep _ _ _) as [[[p v] g]|] eqn:E; [|now exists st].
  cbn [fst snd]. destruct (Nat.eqb_spec 0 i) as [<-|Hi]; [|exists st; exact Hp].
  cbn [fst]. destruct (fr_step_any _ _ _ _ _ _ _ Hp E) as (st' & _ & H). now exists st'.
Qed.
Lemma start_path : forall sch s, others_mute s -> fst (fst s 0%nat) = plisten react -> In 0%nat sch ->
  others_mute (srun sch s) /\ exists st, on_path st (srun sch s).
Proof.
  induction sch as [|i sch IH]; intros s Ho Hp Hin; [destruct Hin|]. cbn [srun].
  destruct i as [|i].
  - apply begun_path; [now apply others_step|]. exists Fresh. unfold on_path, sstep. rewrite Hp. unfold plisten. cbn [pstep fst snd Nat.eqb fr pget pbind].
    intros v. exists Fresh. split; [left; split; reflexivity|]. apply fr_try, fr_loop.
  - destruct Hin as [Hin|Hin]; [discriminate Hin|]. apply IH; [now apply others_step| |exact Hin].
    unfold sstep. destruct (pstep _ _ _) as [[[p v] g]|]; [|exact Hp]. cbn [fst snd Nat.eqb]. exact Hp.
Qed.

(** ** Close frames *)
Definition no_close (l : list (nat * event)) : Prop := Forall (fun x => match snd x with EvClose _ _ => False | _ => True end) l.
Definition close_last (st : fstate) (l : list (nat * event)) : Prop :=
  match st with Closed => exists n1 x, l = n1 ++ [x] /\ no_close n1 | _ => no_close l end.
Lemma close_last_emits st l0 new l' st' : close_last st new -> emits st (l0 ++ new) l' st' ->
  exists new', l' = l0 ++ new' /\ close_last st' new'.
Proof.
  intros H [[-> ->]|(i & ev & -> & Hn)]; [now exists new|]. exists (new ++ [(i, ev)]). split; [now rewrite app_assoc|].
  assert (Hs : forall e, (match e with EvClose _ _ => False | _ => True end) -> no_close new -> no_close (new ++ [(i, e)])).
  { intros e He Hnew. apply Forall_app. split; [exact Hnew|]. apply Forall_cons; [exact He|apply Forall_nil]. }
  destruct ev as [op d|op|m|m|c m]; cbn [next] in Hn; destruct Hn as [Hn ->]; cbn [close_last].
  - apply Hs; [exact Logic.I|]. destruct Hn as [-> | ->]; exact H.
  - apply Hs; [exact Logic.I|]. destruct Hn as [-> | ->]; exact H.
  - subst st. now apply Hs.
  - subst st. now apply Hs.
  - subst st. exists new, (i, EvClose c m). split; [reflexivity|exact H].
Qed.
Lemma start_fr : fr (fun _ _ => True) Fresh (v <- pget ;; ptry (plisten_loop react (Datatypes.S (script_size (v_in v))) header_init)).
Proof. unfold pget, pret. cbn [pbind fr]. intros v. exists Fresh. split; [left; split; reflexivity|]. apply fr_try, fr_loop. Qed.
Definition close_inv (l0 : list (nat * event)) (s : system) : Prop :=
  exists new, told s = l0 ++ new /\
    ((fst (fst s 0%nat) = plisten react /\ new = []) \/ exists st, on_path st s /\ close_last st new).
Lemma close_step l0 i s : others_mute s -> close_inv l0 s -> close_inv l0 (sstep i s).
Proof.
  intros Ho (new & Et & H). unfold close_inv, told, on_path, sstep in *.
  destruct (pstep _ _ _) as [[[p v] g]|] eqn:E; [|now exists new].
  cbn [fst snd]. destruct (Nat.eqb_spec 0 i) as [<-|Hi].
  2:{ exists new. split; [exact Et|exact H]. }
  cbn [fst snd]. destruct H as [[Hp ->]|(st & Hp & Hc)].
  - rewrite Hp in E. unfold plisten in E. cbn [pstep pget pbind] in E. injection E as <- <- <-.
    exists []. split; [exact Et|]. right. exists Fresh. split; [|apply Forall_nil].
    exact start_fr.
  - destruct (fr_step_any _ _ _ _ _ _ _ Hp E) as (st' & [He|(El & Hc' & ->)] & Hp').
    + rewrite Et in He. destruct (close_last_emits _ _ _ _ _ Hc He) as (new' & -> & Hn). exists new'. split; [reflexivity|]. right. now exists st'.
    + exists new. split; [now rewrite El|]. right. exists Fresh. split; [exact Hp'|]. destruct st; try exact Hc. now destruct Hc'.
Qed.
Lemma close_run l0 : forall sch s, others_mute s -> close_inv l0 s -> close_inv l0 (srun sch s).
Proof.
  induction sch as [|i sch IH]; intros s Ho H; cbn [srun]; [exact H|]. apply IH; [now apply others_step|now apply close_step].
Qed.
End Stop.

(** C12. A Close frame is the last thing that is told, whatever the listeners and the other threads do, and even if writes fail. *)
Theorem C12_several_threads react work w sch :
  exists new, told (srun sch (system_init react work w)) = w_log w ++ new /\
    forall n1 l c m n2, new = n1 ++ (l, EvClose c m) :: n2 -> n2 = [].
Proof.
  destruct (close_run react (w_log w) sch (system_init react work w)) as (new & E & H).
  - intros [|i] Hi; [now destruct Hi|]. apply mute_cmds.
  - exists []. split; [symmetry; apply app_nil_r|]. left. split; reflexivity.
  - exists new. split; [exact E|]. intros n1 l c m n2 En.
    assert (Hno : forall n r, no_close n -> n <> n1 ++ (l, EvClose c m) :: r).
    { intros n r Hn ->. apply Forall_app in Hn. destruct Hn as [_ Hn]. inversion Hn as [|? ? Hx _]; subst. exact Hx. }
    destruct H as [[_ ->]|(st & _ & Hc)]; [destruct n1; discriminate En|].
    assert (Hcase : no_close new \/ exists n x, new = n ++ [x] /\ no_close n) by (destruct st; [now left|now left|now left|now right]).
    destruct Hcase as [Hc2|(n & x & -> & Hn)]; [exact (False_ind _ (Hno new n2 Hc2 En))|].
    destruct n2 as [|y n2] using List.rev_ind; [reflexivity|]. rewrite app_comm_cons, app_assoc in En. apply app_inj_tail in En. destruct En as [En _].
    exact (False_ind _ (Hno n n2 Hn En)).
Qed.


(** C71. Once m_listening is down, at whatever moment and whoever took it down, all that is still told is of one frame; whatever the
    listeners and the other threads do, and even if writes fail. *)
Theorem C71_several_threads react work w sch1 sch2 :
  In 0%nat sch1 ->
  let s1 := srun sch1 (system_init react work w) in
  k_listening (g_f (snd s1)) = false ->
  exists rest, told (srun sch2 s1) = told s1 ++ rest /\ of_one_frame (map snd rest).
Proof.
  intros Hin s1 Hf.
  destruct (start_path react sch1 (system_init react work w)) as [Ho [st Hp]]; [|reflexivity|exact Hin|].
  { intros [|i] Hi; [now destruct Hi|]. apply mute_cmds. }
  destruct (path_run sch2 st s1 Ho Hp Hf) as (rest & st' & E & H). exists rest. split; [exact E|exact (path_one _ _ _ H)].
Qed.

(** C71. So after the assignment of a stopListening, or of a send that has failed, in any thread. *)
Theorem C71_stopped_by_a_thread react work w sch1 i sch2 :
  In 0%nat sch1 ->
  let s1 := srun sch1 (system_init react work w) in
  about_to_stop i s1 ->
  exists rest, told (srun sch2 (sstep i s1)) = told s1 ++ rest /\ of_one_frame (map snd rest).
Proof.
  intros Hin s1 Hs.
  destruct (C71_several_threads react work w (sch1 ++ [i]) sch2) as (rest & E & H).
  - apply in_or_app. now left.
  - rewrite (srun_app sch1 [i]). cbn [srun]. fold s1. unfold sstep. destruct Hs as [[cs E]|[[k E]|[k E]]]; rewrite E; reflexivity.
  - rewrite (srun_app sch1 [i]) in E. cbn [srun] in E. fold s1 in E. exists rest. split; [|exact H].
    rewrite E. f_equal. unfold told, sstep. destruct Hs as [[cs Ek]|[[k Ek]|[k Ek]]]; rewrite Ek; cbn [pexec_cmds pexec_cmd pbind pstep fst snd]; destruct (Nat.eqb_spec 0 i) as [<-|]; reflexivity.
Qed.

(** * A concrete case: the server of [chatter_in], stopped by thread 1 while the ping is being answered: the last part of the text is
    still told, the Close frame that follows it is not. *)
Definition stop_work (i : nat) : list cmd := match i with 1%nat => [CStop] | _ => [] end.
Example C71_several_threads_nonvacuous :
  let s1 := srun (repeat 0%nat 30) (system_init chatter_react stop_work (chatter_world [])) in
  let s2 := sstep 1 s1 in
  about_to_stop 1 s1 /\ k_listening (g_f (snd s1)) = true /\ k_listening (g_f (snd s2)) = false /\
  told s2 = [(1%nat, EvMsg 1 [x61; x62]); (1%nat, EvPing [x7a])] /\
  told (srun (repeat 0%nat 100) s2) = told s2 ++ [(1%nat, EvMsg 0 [x63]); (1%nat, EvEnd 0)] /\
  finished (srun (repeat 0%nat 100) s2) 0 (Ret tt) /\
  map snd (told (srun (repeat 0%nat 100) s1)) =
    [EvMsg 1 [x61; x62]; EvPing [x7a]; EvMsg 0 [x63]; EvEnd 0; EvClose 0 []] /\
  ~ of_one_frame [EvMsg 0 [x63]; EvEnd 0; EvClose 0 []].
Proof.
  cbv zeta. split. { left. exists []. vm_compute. reflexivity. }
  vm_compute. repeat split.
  intros [(op & ds & [H|H])|[[m H]|[[m H]|(c & m & H)]]]; try discriminate H.
  - destruct ds as [|d [|d2 ds]]; discriminate H.
  - destruct ds as [|d [|d2 ds]]; discriminate H.
Qed.

(** A Close frame and then a ping, two threads that send on a connection that takes one byte and breaks; the second installs listener 2. *)
Definition late_world : world :=
  World [RData x89 [x00]; RData x88 [x00; x89; x00]] [WAccept 1; WIo IoBroken; WAccept 2; WIo IoZero] [] (fun n => Byte.x2a) 0 [] (Sock false 8 (Some 1%nat) (-1) false).
Example C12_several_threads_nonvacuous :
  let s := srun (repeat 0%nat 12 ++ round_robin) (system_init chatter_react chatter_work late_world) in
  told s = [(1%nat, EvPing []); (1%nat, EvClose 0 [])] /\ v_in (snd (fst s 0%nat)) = [RData x89 [x00]] /\
  finished s 0 (Ret tt) /\ wire_out s = [x81; x82; x01; xff].
Proof. vm_compute. repeat split. Qed.
