(** C15 with other threads: how each thread can end, whatever arrives, fails or is done by callbacks and other threads. *)
From Verif Require Import Bytes Frame World WebSocket SpecFrame SpecSend SpecListen SpecApi SpecThreads Process SpecProcess SpecEnds PropProcessStop.
From Verif Require ProofFrame ProofInv ProofStream.
Local Open Scope N_scope.
Local Open Scope p_scope.
Local Arguments takeN : simpl never.
Local Arguments dropN : simpl never.
Local Arguments lenN : simpl never.
Local Arguments be_enc : simpl never.
Local Arguments be_dec : simpl never.
Local Arguments packHeaderBits : simpl never.
Local Arguments unpackHeaderBits : simpl never.
Local Arguments N.leb : simpl never.
Local Arguments N.ltb : simpl never.
Local Arguments N.eqb : simpl never.
Local Arguments Z.ltb : simpl never.
Local Arguments Z.leb : simpl never.

Section Safe.
Variable react : react_t.
Variable work : nat -> list cmd.
Notation Bad := (cause react work).

(** What nobody does to the shared fields. *)
Definition calm (s s' : shf) : Prop := nobody_configures react work -> k_buf s' = k_buf s.
Definition kept (s s' : shf) : Prop := calm s s' /\ (nobody_unsets work -> k_listener s <> None -> k_listener s' <> None).
Lemma calm_refl s : calm s s. Proof. intros _. reflexivity. Qed.
Lemma calm_trans a b c : calm a b -> calm b c -> calm a c.
Proof. intros H1 H2 H. rewrite (H2 H). exact (H1 H). Qed.
Lemma kept_refl s : kept s s. Proof. split; [apply calm_refl|auto]. Qed.
Lemma kept_trans a b c : kept a b -> kept b c -> kept a c.
Proof. intros [H1 H2] [H3 H4]. split; [eapply calm_trans; eassumption|auto]. Qed.

(** [p] is safe; if not [T], it does not throw. [s]: the fields as last seen; [n]: what the peer can still make happen. *)
Fixpoint sf {A} (T : Prop) (s : shf) (n : nat) (Q : nat -> A -> Prop) (p : prog A) : Prop :=
  match p with
  | PDone (Ret a) => Q n a
  | PDone (Throw _) => T
  | PDone Wait => True
  | PDone (Ub u) => Bad u
  | PDone OutOfFuel => False
  | PAtom u k => forall v, (script_size (v_in v) <= n)%nat -> sf T s (script_size (v_in (u v))) Q (k v)
  | PAcc k => forall s', kept s s' -> sf T s' n Q (k s')
  | PExt x k => forall s', kept s s' -> calm s' (apply_shf x s') /\ sf T (apply_shf x s') n Q k
  | PStop k => sf T s n Q k
  | PMark _ k => sf T s n Q k
  | PBegin k => sf T s n Q k
  | PRand m k => forall b, sf T s n Q (k b)
  | PWrite d got k => forall m, sf T s n Q (k m)
  end.
Lemma sf_bind {A B} T (Q : nat -> A -> Prop) (R : nat -> B -> Prop) (f : A -> prog B) : forall p s n,
  (forall s' n' a, calm s s' -> Q n' a -> sf T s' n' R (f a)) -> sf T s n Q p -> sf T s n R (pbind p f).
Proof.
  induction p as [o|u k IH|k IH|x k IH|k IH|k IH|m k IH|d got k IH|e k IH]; intros s n Hf Hp; cbn [pbind sf] in *; auto.
  - destruct o; auto. apply Hf; [apply calm_refl|exact Hp].
  - intros s' Hs. apply IH; [|apply Hp, Hs]. intros s2 n2 a H2. apply Hf. eapply calm_trans; [apply Hs|exact H2].
  - intros s' Hs. destruct (Hp s' Hs) as [H1 H2]. split; [exact H1|]. apply IH; [|exact H2].
    intros s2 n2 a H3. apply Hf. eapply calm_trans; [apply Hs|]. eapply calm_trans; [exact H1|exact H3].
Qed.
Lemma sf_weaken {A} T (Q R : nat -> A -> Prop) (HQ : forall m a, Q m a -> R m a) : forall p s n, sf T s n Q p -> sf T s n R p.
Proof.
  induction p as [o|u k IH|k IH|x k IH|k IH|k IH|m k IH|d got k IH|e k IH]; intros s n Hp; cbn [sf] in *; auto.
  - destruct o; auto.
  - intros s' Hs. destruct (Hp s' Hs) as [H1 H2]. split; [exact H1|]. now apply IH.
Qed.
Lemma sf_try : forall p s n, sf True s n (fun _ _ => True) p -> sf False s n (fun _ _ => True) (ptry p).
Proof.
  induction p as [o|u k IH|k IH|x k IH|k IH|k IH|m k IH|d got k IH|e k IH]; intros s n Hp; cbn [ptry sf] in *; auto.
  - destruct o; auto; exact I.
  - intros s' Hs. destruct (Hp s' Hs) as [H1 H2]. split; [exact H1|]. now apply IH.
Qed.
Lemma sf_local {A} T s n (Q : nat -> A -> Prop) (m : M A) :
  (forall w, (script_size (w_in w) <= n)%nat ->
     match fst (m w) with Ret a => Q (script_size (w_in (snd (m w)))) a | Throw _ => T | Wait => True | Ub u => Bad u | OutOfFuel => False end) ->
  sf T s n Q (plocal m).
Proof.
  intros H. cbn [plocal sf]. intros v Hv. specialize (H (world_of v) Hv). cbn [priv_of v_in]. destruct (fst (m (world_of v))); exact H.
Qed.

(** Code that only sends and sets fields. *)
Fixpoint cm {A} (C : ext -> Prop) (p : prog A) : Prop :=
  match p with
  | PDone (Ub u) => Bad u
  | PDone OutOfFuel => False
  | PDone _ => True
  | PAtom _ _ => False
  | PAcc k => forall s, cm C (k s)
  | PExt x k => C x /\ cm C k
  | PStop k => cm C k
  | PMark _ k => cm C k
  | PBegin _ => False
  | PRand n k => forall b, cm C (k b)
  | PWrite d got k => forall n, cm C (k n)
  end.
Lemma cm_bind {A B} C (f : A -> prog B) : (forall a, cm C (f a)) -> forall p, cm C p -> cm C (pbind p f).
Proof.
  intros Hf. induction p as [o|u k IH|k IH|x k IH|k IH|k IH|m k IH|d got k IH|e k IH]; intros Hp; cbn [pbind cm] in *; auto; try destruct Hp; auto.
  destruct o; auto; exact I.
Qed.
Lemma cm_try C : forall p, cm C p -> cm C (ptry p).
Proof. induction p as [o|u k IH|k IH|x k IH|k IH|k IH|m k IH|d got k IH|e k IH]; intros Hp; cbn [ptry cm] in *; auto; try destruct Hp; auto. destruct o; auto; exact I. Qed.
Lemma cm_sf {A} (p : prog A) : cm (fun x => forall s, calm s (apply_shf x s)) p -> forall s n (Q : nat -> A -> Prop), (forall a, Q n a) -> sf True s n Q p.
Proof.
  induction p as [o|u k IH|k IH|x k IH|k IH|k IH|m k IH|d got k IH|e k IH]; intros Hp s n Q HQ; cbn [cm sf] in *; auto.
  - destruct o; auto; exact I.
  - destruct Hp.
  - intros s' _. destruct Hp as [H1 H2]. split; [apply H1|now apply IH].
  - destruct Hp.
Qed.

Definition fine_cmd (C : ext -> Prop) (c : cmd) : Prop :=
  C XStop /\ (forall l, c = CSetListener l -> C (XSetListener l)) /\ (forall m b, c = CSetConfig m b -> C (XSetConfig m b)) /\ (~ Bad UbSigned -> small_cmd c).
Ltac cm_tac :=
  repeat first [ exact I
  | match goal with
    | |- cm _ (pbind _ _) => apply cm_bind; [intros ?|]
    | |- cm _ (if ?b then _ else _) => destruct b
    | |- cm _ (let (_, _) := ?p in _) => destruct p
    | |- cm _ (ptry _) => apply cm_try
    end
  | progress cbn [cm paccess pwrite pret pthrow]; intros
  | progress unfold paccess, pwrite, pret, pthrow ].
Lemma cm_wfh C h : cm C (pwriteFrameHeader h).
Proof. unfold pwriteFrameHeader. cm_tac. Qed.
Lemma cm_sfh C h fin op n : cm C (psendFrameHeader h fin op n).
Proof. unfold psendFrameHeader. cbn [paccess pbind cm pret]. intros s. apply cm_bind; [intros a; apply cm_bind; [intros; exact I|apply cm_wfh]|]. cbn [h_hasMask]. cm_tac. Qed.
Lemma cm_sof C fin op m : (~ Bad UbSigned -> lenN (msg_of m) < 2 ^ 31) -> cm C (psendOneFrame fin op m).
Proof.
  intros Hm. unfold psendOneFrame. destruct m as [[|b bs]|].
  - apply cm_bind; [intros; exact I|apply cm_sfh].
  - cbv zeta. apply cm_bind; [intros h|apply cm_sfh]. apply cm_bind; [intros; exact I|].
    destruct (h_hasMask h); [|cm_tac]. destruct (N.leb_spec (2 ^ 31) (lenN (b :: bs))) as [Hl|Hl]; [|cm_tac].
    cbn [cm cause]. intros Hh. assert (Hq : lenN (msg_of (Some (b :: bs))) < 2 ^ 31) by (apply Hm; cbn [cause]; intros H; exact (H Hh)).
    cbn [msg_of] in Hq. clear -Hl Hq. lia.
  - apply cm_bind; [intros; exact I|apply cm_sfh].
Qed.
Lemma cm_send C op : (~ Bad UbSigned -> lenN (req_payload op) < 2 ^ 31) -> cm C (psend op).
Proof.
  intros Hs. destruct op; cbn [psend]; unfold psendChecked; (apply cm_bind; [|apply cm_sof; exact Hs || (intros _; rewrite lenN_nil; reflexivity)]); intros a; try exact I; destruct a; cbn [cm pret pthrow]; exact I.
Qed.
Lemma cm_cmds C cs : Forall (fine_cmd C) cs -> cm C (pexec_cmds cs).
Proof.
  induction 1 as [|c cs (H1 & H2 & H3 & H4) _ IH]; cbn [pexec_cmds]; [exact I|]. apply cm_bind; [intros; exact IH|].
  destruct c as [| | |[] op| | |]; cbn [pexec_cmd cm small_cmd] in *; auto; try (intros; exact I).
  - split; [auto|exact I].
  - split; [auto|exact I].
  - split; [auto|exact I].
  - apply cm_try, cm_send, H4.
  - apply cm_send, H4.
  - apply cm_bind; [|apply cm_sof, H4]. intros []; exact I.
Qed.

Lemma calm_stop s : calm s (apply_shf XStop s). Proof. intros _. reflexivity. Qed.
Lemma fine_small c : (nobody_huge react work -> small_cmd c) -> ~ Bad UbSigned -> small_cmd c.
Proof. cbn [cause]. intros H Hn. destruct c; cbn [small_cmd] in *; auto; apply N.nle_gt; intros Hc; apply Hn; intros Hh; specialize (H Hh); lia. Qed.
Lemma fine_react l log : Forall (fine_cmd (fun x => forall s, calm s (apply_shf x s))) (react l log).
Proof.
  apply Forall_forall. intros c Hc. split; [intros s; apply calm_stop|]. split; [intros l' _ s _; reflexivity|]. split.
  - intros m b -> s [Hr _]. specialize (Hr l log). rewrite Forall_forall in Hr. destruct (Hr _ Hc).
  - apply fine_small. intros [Hh _]. specialize (Hh l log). rewrite Forall_forall in Hh. exact (Hh _ Hc).
Qed.
Lemma fine_work i : Forall (fine_cmd (fun x => forall s, kept s (apply_shf x s))) (work i).
Proof.
  apply Forall_forall. intros c Hc. split; [intros s; split; [apply calm_stop|auto]|]. split; [|split].
  - intros l -> s. split; [intros _; reflexivity|]. intros Hn _. specialize (Hn i). rewrite Forall_forall in Hn. specialize (Hn _ Hc).
    cbn. destruct l; [discriminate|destruct Hn].
  - intros m b -> s. split; [|auto]. intros [_ Hr]. specialize (Hr i). rewrite Forall_forall in Hr. destruct (Hr _ Hc).
  - apply fine_small. intros [_ Hh]. specialize (Hh i). rewrite Forall_forall in Hh. exact (Hh _ Hc).
Qed.

(** ** Listening *)
Notation upto n := (fun m _ => (m <= n)%nat).
Lemma sf_notify s n ev : sf True s n (upto n) (pnotify react ev).
Proof.
  unfold pnotify. cbn [paccess pbind sf pret]. intros s1 _. destruct (k_listener s1) as [l|] eqn:E1; [|apply Nat.le_refl].
  cbn [paccess pbind sf pret]. intros s2 [_ H2]. destruct (k_listener s2) as [l2|] eqn:E2.
  - cbn [sf v_in]. intros v Hv. apply cm_sf; [apply cm_cmds, fine_react|]. intros _. exact Hv.
  - cbn [sf cause]. intros Hn. apply (H2 Hn); [congruence|reflexivity].
Qed.
Lemma readSimple_safe d w : match fst (readSimple d w) with
  | Ret (inl r) => (Z.of_N (lenN r) <= d)%Z /\ (script_size (w_in (snd (readSimple d w))) < script_size (w_in w))%nat
  | Ret (inr IoRetry) => (script_size (w_in (snd (readSimple d w))) < script_size (w_in w))%nat
  | Ret (inr _) => True
  | Wait => True
  | Ub u => u = UbNegativeCount /\ (d < 0)%Z
  | _ => False
  end.
Proof.
  unfold readSimple. destruct (Z.ltb_spec d 0) as [Hd|Hd]; [cbn; auto|]. destruct (Z.eqb_spec d 0) as [H0|H0]; [exact I|].
  destruct (read_raw (Z.to_N d) (w_in w) (w_sock w)) as [[r s1] k1] eqn:E1.
  assert (0 < Z.to_N d) as HdN by lia. pose proof (ProofStream.read_raw_bytes _ _ _ _ _ _ HdN E1) as Hrb.
  assert (Hl : match r with RGot x => (Z.of_N (lenN x) <= d)%Z | _ => True end).
  { clear Hrb. revert E1. generalize (w_sock w). induction (w_in w) as [|e s IH]; intros k E; cbn [read_raw] in E; [injection E as <- _ _; exact I|].
    destruct e as [b bs|e|x]; [injection E as <- _ _|injection E as <- _ _; exact I|eapply IH; exact E].
    rewrite lenN_takeN. lia. }
  destruct r as [x|e|]; cbn.
  - destruct Hrb as (_ & _ & _ & Hsz). split; [exact Hl|exact Hsz].
  - destruct Hrb as (_ & Hsz). destruct e; auto. 
  - exact I.
Qed.

Lemma sf_loop h alloc : forall fuel sh s n progress, (n < fuel)%nat -> (0 <= alloc)%Z -> (nobody_configures react work -> alloc = k_buf s) ->
  sf True s n (upto n) (preadPayload_loop react fuel h sh alloc progress).
Proof.
  induction fuel as [|fuel IH]; intros sh s n progress Hf Ha0 Ha; [lia|]. cbn [preadPayload_loop].
  destruct (Z.ltb_spec progress (h_len h)) as [Hp|Hp]; [|apply Nat.le_refl]. cbn [paccess pbind pret sf]. intros s1 [H1 _]. cbv zeta.
  set (d := if (h_len h - progress <? k_buf s1)%Z then (h_len h - progress)%Z else k_buf s1).
  assert (Hb : nobody_configures react work -> k_buf s1 = alloc) by (intros H; rewrite (H1 H); symmetry; exact (Ha H)).
  assert (Hd : nobody_configures react work -> (0 <= d <= alloc)%Z).
  { intros H. specialize (Hb H). unfold d. destruct (Z.ltb_spec (h_len h - progress) (k_buf s1)); lia. }
  eapply (sf_bind True (fun m r => match r with inl x => (Z.of_N (lenN x) <= d)%Z /\ (m < n)%nat | inr IoRetry => (m < n)%nat | _ => True end)).
  2:{ apply sf_local. intros w Hw.
      assert (G : forall (o : outcome (bytes + ioerr)) k,
        match o with
        | Ret (inl r) => (Z.of_N (lenN r) <= d)%Z /\ (k < script_size (w_in w))%nat
        | Ret (inr IoRetry) => (k < script_size (w_in w))%nat
        | Ret (inr _) => True
        | Wait => True
        | Ub u => u = UbNegativeCount /\ (d < 0)%Z
        | _ => False
        end ->
        match o with
        | Ret (inl x) => (Z.of_N (lenN x) <= d)%Z /\ (k < n)%nat
        | Ret (inr IoRetry) => (k < n)%nat
        | Ret (inr _) => True
        | Throw _ => True
        | Wait => True
        | Ub u => Bad u
        | OutOfFuel => False
        end).
      { intros [[x|[]]|e| |u|] k H; auto.
        - destruct H. split; [assumption|lia].
        - lia.
        - destruct H as [-> H]. cbn [cause]. intros Hc. specialize (Hd Hc). lia. }
      pose proof (G _ _ (readSimple_safe d w)) as H. exact H. }
  intros s2 m r Hs2 Hm.
  assert (Ha2 : nobody_configures react work -> alloc = k_buf s2) by (intros H; rewrite (Hs2 H); symmetry; exact (Hb H)).
  assert (Hgo : forall sh' s3 m' pr, (m' < n)%nat -> calm s2 s3 -> sf True s3 m' (upto n) (preadPayload_loop react fuel h sh' alloc pr)).
  { intros sh' s3 m' pr Hm' H3. eapply sf_weaken; [|apply IH; [lia|exact Ha0|intros H; rewrite (H3 H); exact (Ha2 H)]]. cbn beta. intros; lia. }
  destruct r as [x|[]]; [|apply Hgo; [exact Hm|apply calm_refl]|exact I|exact I]. cbn beta iota in Hm. destruct Hm as [Hx Hm].
  destruct (Z.ltb_spec alloc (Z.of_N (lenN x))) as [Hl|Hl].
  { cbn [sf cause]. intros Hc. specialize (Hd Hc). lia. }
  destruct sh as [sh|]; [apply Hgo; [exact Hm|apply calm_refl]|].
  eapply sf_bind; [|apply sf_notify]. intros s3 m' u H3 Hm'. cbn beta in Hm'. apply Hgo; [lia|exact H3].
Qed.
Lemma sf_payload h sh s n : sf True s n (upto n) (preadPayload react h sh).
Proof.
  unfold preadPayload. destruct (_ && _)%bool; [exact I|]. cbn [paccess pbind pret sf]. intros s1 H1.
  destruct (Z.ltb_spec (k_buf s1) 0) as [Hb|Hb]; [exact I|]. cbn [pget pbind pret sf]. intros v Hv.
  eapply sf_bind; [|apply sf_loop; [lia|exact Hb|reflexivity]]. intros s2 m r H2 Hm. cbn beta in Hm.
  eapply (sf_bind True (upto n)); [intros s3 m2 u H3 Hm2; exact Hm2|].
  assert (Hmn : (m <= n)%nat) by lia.
  destruct sh; [exact Hmn|]. destruct (h_fin h); [|exact Hmn]. eapply sf_weaken; [|apply sf_notify]. cbn beta. intros; lia.
Qed.
Lemma sf_handle h s n : sf True s n (upto n) (phandleFrame react h).
Proof.
  assert (Hd : forall s n, sf True s n (upto n) (preadPayload react h None ;;; pret tt)).
  { intros s0 n0. eapply sf_bind; [|apply sf_payload]. intros s1 m a _ Hm. exact Hm. }
  assert (Hc : forall ev : option bytes -> event, sf True s n (upto n) (p <- preadPayload react h (Some []) ;; pnotify react (ev p))).
  { intros ev. eapply sf_bind; [|apply sf_payload]. intros s1 m a _ Hm. cbn beta in Hm. eapply sf_weaken; [|apply sf_notify]. cbn beta. intros; lia. }
  assert (Hk : sf True s n (upto n) (ok <- plocal (checkForContinuation h) ;; if (ok : bool) then preadPayload react h None ;;; pret tt else pthrow ExContinuationExpected)).
  { eapply (sf_bind True (upto n)).
    - intros s1 m [] _ Hm; [|exact I]. cbn beta in Hm. eapply sf_weaken; [|apply Hd]. cbn beta. intros; lia.
    - apply sf_local. intros w Hw. unfold checkForContinuation, bind, get, modify_sock, ret. destruct (_ || _)%bool; exact Hw. }
  unfold phandleFrame. destruct (h_opcode h) as [|q] eqn:En;
  [|destruct q as [[[p|[p|p|]|]|[[p|p|]|[p|p|]|]|]|[[[p|p|]|[p|p|]|]|[[p|p|]|[p|p|]|]|]|]]; try exact I; try exact Hk.
  - cbn [pget pbind pret sf]. intros v Hv. destruct (_ <? 0)%Z; [exact I|]. eapply sf_weaken; [|apply Hd]. cbn beta. intros; lia.
  - apply (Hc (fun p => EvPing (str p))).
  - apply (Hc (fun p => EvPong (str p))).
  - apply (Hc (fun p => EvClose (close_code (str p)) (close_reason (str p)))).
Qed.
Lemma sf_listen_loop : forall fuel h s n, (n < fuel)%nat -> sf True s n (fun _ _ => True) (plisten_loop react fuel h).
Proof.
  induction fuel as [|fuel IH]; intros h s n Hf; [lia|]. cbn [plisten_loop sf].
  eapply (sf_bind True (fun m _ => (m < n)%nat)).
  - intros s1 m h' _ Hm. cbn beta in Hm. eapply sf_bind; [|apply sf_handle]. intros s2 m2 u _ Hm2. cbn beta in Hm2.
    cbn [paccess pbind pret sf]. intros s3 _. destruct (_ && _)%bool; [apply IH; lia|exact I].
  - apply sf_local. intros w Hw. pose proof (ProofInv.readFrameHeader_fin h w _ _ (surjective_pairing _)) as (H1 & H2 & H3).
    destruct (fst (readFrameHeader h w)) as [a|e| |u|]; try exact I; [specialize (H2 a eq_refl); lia|destruct (H3 u eq_refl)|now apply H1].
Qed.
Lemma sf_listen s n : sf False s n (fun _ _ => True) (plisten react).
Proof. unfold plisten, pget, pret. cbn [pbind sf]. intros v Hv. apply sf_try, sf_listen_loop. lia. Qed.

(** ** All threads *)
Definition sound (v : priv) (g : shared) (p : prog unit) : Prop :=
  exists s n, kept s (g_f g) /\ (script_size (v_in v) <= n)%nat /\ sf False s n (fun _ _ => True) p.
Notation others := (fun x => forall s, kept s (apply_shf x s)).
Lemma begin_kept s : kept s (Shf (k_mask s) (k_buf s) (k_listener s) true).
Proof. split; [intros _; reflexivity|auto]. Qed.
Lemma stop_kept s : kept s (apply_shf XStop s).
Proof. split; [intros _; reflexivity|auto]. Qed.
Lemma sound_step : forall p v g p' v' g', sound v g p -> pstep p v g = Some (p', v', g') -> sound v' g' p'.
Proof.
  intros p v g p' v' g' (s & n & Hs & Hn & Hp) E.
  destruct p as [o|u k|k|x k|k|k|m k|d got k|e k]; cbn [pstep] in E; cbn [sf] in Hp.
  - discriminate E.
  - injection E as <- <- <-. exists s, (script_size (v_in (u v))). auto.
  - injection E as <- <- <-. exists (g_f g), n. auto using kept_refl.
  - injection E as <- <- <-. destruct (Hp _ Hs) as [_ H]. exists (apply_shf x (g_f g)), n. split; [apply kept_refl|auto].
  - injection E as <- <- <-. exists s, n. split; [eapply kept_trans; [exact Hs|apply begin_kept]|auto].
  - injection E as <- <- <-. exists s, n. split; [eapply kept_trans; [exact Hs|apply stop_kept]|auto].
  - injection E as <- <- <-. exists s, n. auto.
  - exists s, n. destruct d as [|b d]; [injection E as <- <- <-; auto|].
    destruct (g_wr g) as [|[q|[]|] w]; try discriminate E; injection E as <- <- <-; auto.
  - injection E as <- <- <-. exists s, n. auto.
Qed.
Lemma cm_step : forall (p : prog unit) v g p' v' g', cm others p -> pstep p v g = Some (p', v', g') -> kept (g_f g) (g_f g') /\ cm others p'.
Proof.
  intros p v g p' v' g' Hp E.
  destruct p as [o|u k|k|x k|k|k|m k|d got k|e k]; cbn [pstep] in E; cbn [cm] in Hp; try (destruct Hp; fail).
  - discriminate E.
  - injection E as <- <- <-. auto using kept_refl.
  - injection E as <- <- <-. destruct Hp as [Hx Hk]. split; [apply Hx|exact Hk].
  - injection E as <- <- <-. split; [apply stop_kept|exact Hp].
  - injection E as <- <- <-. split; [apply kept_refl|apply Hp].
  - destruct d as [|b d]; [injection E as <- <- <-; split; [apply kept_refl|apply Hp]|].
    destruct (g_wr g) as [|[q|[]|] w]; try discriminate E; injection E as <- <- <-; (split; [apply kept_refl|]); first [exact Hp|apply Hp].
  - injection E as <- <- <-. split; [apply kept_refl|exact Hp].
Qed.
Definition all_safe (s : system) : Prop :=
  sound (snd (fst s 0%nat)) (snd s) (fst (fst s 0%nat)) /\ forall i, i <> 0%nat -> cm others (fst (fst s i)).
Lemma all_step i s : all_safe s -> all_safe (sstep i s).
Proof.
  intros [H0 Hi]. unfold sstep. destruct (pstep _ _ _) as [[[p v] g]|] eqn:E; [|split; assumption].
  destruct (Nat.eq_dec i 0) as [->|Hne]; unfold all_safe; cbn [fst snd].
  - rewrite Nat.eqb_refl. cbn [fst snd]. split; [exact (sound_step _ _ _ _ _ _ H0 E)|].
    intros j Hj. destruct (Nat.eqb_spec j 0); [contradiction|]. now apply Hi.
  - destruct (cm_step _ _ _ _ _ _ (Hi i Hne) E) as [Hk Hc]. split.
    + destruct (Nat.eqb_spec 0 i) as [He|_]; [congruence|]. destruct H0 as (s0 & n & H1 & H2 & H3). exists s0, n. split; [eapply kept_trans; eassumption|auto].
    + intros j Hj. destruct (Nat.eqb_spec j i) as [->|]; [exact Hc|now apply Hi].
Qed.
Lemma all_run : forall sch s, all_safe s -> all_safe (srun sch s).
Proof. induction sch as [|i sch IH]; intros s H; cbn [srun]; [exact H|]. now apply IH, all_step. Qed.
End Safe.

(** C15, several threads: whatever arrives, fails, is done by callbacks and by other threads in whatever order, listen() throws nothing and never
    loops without consuming input; nothing undefined happens unless somebody calls for it. *)
Theorem C15_threads : forall react work w sch i o, finished (srun sch (system_init react work w)) i o ->
  o <> OutOfFuel /\ (forall u, o = Ub u -> cause react work u) /\ (i = 0%nat -> forall e, o <> Throw e).
Proof.
  intros react work w sch i o Hf. unfold finished in Hf.
  destruct (all_run react work sch (system_init react work w)) as [H0 Hi].
  - split; cbn [system_init fst snd].
    + exists (shf_of (w_sock w)), (script_size (w_in w)). split; [apply kept_refl|]. split; [apply Nat.le_refl|]. apply sf_listen.
    + intros [|i'] Hn; [congruence|]. apply cm_cmds, fine_work.
  - destruct (Nat.eq_dec i 0) as [->|Hne].
    + destruct H0 as (s & n & _ & _ & H). rewrite Hf in H. cbn [sf] in H. split; [intros ->; exact H|]. split; [intros u ->; exact H|]. intros _ e ->. exact H.
    + specialize (Hi i Hne). rewrite Hf in Hi. cbn [cm] in Hi. split; [intros ->; exact Hi|]. split; [intros u ->; exact Hi|]. contradiction.
Qed.
Print Assumptions C15_threads.

Theorem C15_threads_safe : forall react work w sch i o,
  nobody_unsets work -> nobody_configures react work -> nobody_huge react work ->
  finished (srun sch (system_init react work w)) i o -> o = Ret tt \/ o = Wait \/ i <> 0%nat /\ exists e, o = Throw e.
Proof.
  intros react work w sch i o H1 H2 H3 Hf. destruct (C15_threads react work w sch i o Hf) as (G1 & G2 & G3).
  destruct o as [[]|e| |u|]; auto; [|exfalso; specialize (G2 u eq_refl); destruct u; cbn [cause] in G2; tauto|congruence].
  right. right. split; [intros Hi; exact (G3 Hi e eq_refl)|now exists e].
Qed.
Print Assumptions C15_threads_safe.

(** The causes do cause it, if the other thread's call falls between two steps of listen(); a quiet run ends with everything read. *)
Definition race_world : world := World [RData x82 [x02]; RData x01 [x02]] [] [] (fun _ => x00) 0 [] (Sock false 1 (Some 0%nat) (-1) false).
Definition race_work (c : cmd) (i : nat) : list cmd := match i with 1%nat => [c] | _ => [] end.
Definition silent : react_t := fun _ _ => [].
Definition race (n : nat) (c : cmd) : system := srun (repeat 0 n ++ [1; 1] ++ repeat 0 30)%nat (system_init silent (race_work c) race_world).
Example C15_threads_nonvacuous :
  finished (race 10 (CSetListener None)) 0 (Ub UbNull) /\ finished (race 9 (CSetListener None)) 0 Wait /\
  finished (race 7 (CSetConfig false 2)) 0 (Ub UbOverflow) /\ finished (race 8 (CSetConfig false 2)) 0 Wait /\
  finished (race 8 (CSetConfig false (-1))) 0 (Ub UbNegativeCount) /\ finished (race 5 (CSetConfig false (-1))) 0 (Ret tt) /\
  (nobody_unsets (race_work CStop) /\ nobody_configures silent (race_work CStop) /\ nobody_huge silent (race_work CStop)) /\
  finished (race 12 CStop) 0 (Ret tt) /\ told (race 12 CStop) = [(0%nat, EvMsg 2 [x01]); (0%nat, EvMsg 2 [x02]); (0%nat, EvEnd 2)].
Proof.
  split; [vm_compute; reflexivity|]. split; [vm_compute; reflexivity|]. split; [vm_compute; reflexivity|]. split; [vm_compute; reflexivity|].
  split; [vm_compute; reflexivity|]. split; [vm_compute; reflexivity|]. split.
  { split; [|split; split]; try (intros [|[|i]]; repeat constructor); intros l log; apply Forall_nil. }
  split; vm_compute; reflexivity.
Qed.
