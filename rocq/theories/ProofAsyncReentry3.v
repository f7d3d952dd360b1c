(** Lemmas for C101, third part: which listenAsync a Close frame ends. *)
From Verif Require Import Bytes Frame World WebSocket AsyncWebSocket Object AsyncObject AsyncReentry SpecAsync SpecSend SpecFrame SpecListen SpecObject SpecReentry
  ProofFrame ProofStream ProofSend ProofListen ProofReading ProofQuit ProofObject ProofAsyncObject ProofReentry2 ProofAsyncReentry ProofAsyncReentry2.
From Coq Require Import Lia PeanoNat.
Local Open Scope N_scope.
Local Arguments takeN : simpl never.
Local Arguments dropN : simpl never.
Local Arguments lenN : simpl never.
Local Arguments be_enc : simpl never.
Local Arguments be_dec : simpl never.
Local Arguments packHeaderBits : simpl never.
Local Arguments unpackHeaderBits : simpl never.
Local Arguments xor_from : simpl never.

(** A Close frame has been handled; the listening that took it is about to end. *)
Definition pend (h : header) (K : list cor) : bool :=
  match K with
  | [] | CoListen :: _ | CoHandle _ HfFinish :: _ | CoPayload _ _ _ _ RpFinish :: _ => h_opcode h =? 8
  | _ => false
  end.
Definition is_close (ev : event) : bool := match ev with EvClose _ _ => true | _ => false end.

Ltac crush := repeat match goal with
  | H : (_, _) = (_, _) |- _ => inversion H; clear H; subst
  | H : ARun = AWait |- _ => discriminate H
  | H : (match ?x with _ => _ end) = _ |- _ => destruct x eqn:?; try discriminate H
  | H : (let (_, _) := ?x in _) = _ |- _ => destruct x eqn:?; try discriminate H
  end.
Lemma pend_plain l nc all A T h sh K w st h' sh' K' w' : at_ l nc all A T h sh K (w_sock w) -> AsyncWebSocket.step (fun _ _ => []) (Conf h sh K w) = (st, Conf h' sh' K' w') ->
  (st = ARun \/ st = AWait \/ st = ADone) -> Forall hearer K' ->
  pend h' K' = pend h K /\ (K' = [] -> pend h K = true \/ K = []) /\ (st = AWait -> pend h K = false).
Proof.
  intros Hat Est Hst HK'.
  remember (w_sock w) as k eqn:Ek. destruct Hat.
  - destruct H; cbn [AsyncWebSocket.step AsyncWebSocket.step_handle step_payload] in Est.
    + inversion Est; subst. cbn. repeat split; auto; congruence.
    + change OPCODE_CLOSE with 8 in Est. destruct (h_opcode h =? 8) eqn:E8; inversion Est; subst; cbn [pend]; rewrite ?E8; repeat split; auto; congruence.
    + inversion Est; subst. cbn [pend]. repeat split; auto; congruence.
    + inversion Est; subst. cbn [pend]. repeat split; auto; congruence.
  - cbn [AsyncWebSocket.step AsyncWebSocket.step_readFrame] in Est. destruct (readExactAsyncInline 2 got w) as [[] ?]; cbn in Est; inversion Est; subst; cbn; repeat split; auto; try congruence; exfalso; clear -Hst; destruct Hst as [X|[X|X]]; discriminate X.
  - cbn [AsyncWebSocket.step AsyncWebSocket.step_readFrame] in Est. destruct (unpackHeaderBits (be_dec bb) h) as [h2 n]. destruct (n <? 126); [|destruct (n =? 126); [|destruct (n =? 127)]]; cbn in Est; inversion Est; subst; cbn; repeat split; auto; try congruence; exfalso; clear -Hst; destruct Hst as [X|[X|X]]; discriminate X.
  - cbn [AsyncWebSocket.step AsyncWebSocket.step_readFrame] in Est. destruct (readExactAsyncInline (if tnum lf =? 2 then 2 else 8) got w) as [[] ?]; cbn in Est; inversion Est; subst; cbn; repeat split; auto; try congruence; exfalso; clear -Hst; destruct Hst as [X|[X|X]]; discriminate X.
  - cbn [AsyncWebSocket.step AsyncWebSocket.step_readFrame] in Est. cbv zeta in Est. destruct (h_hasMask _); inversion Est; subst; cbn; repeat split; auto; congruence.
  - cbn [AsyncWebSocket.step AsyncWebSocket.step_readFrame] in Est. destruct (readExactAsyncInline 4 got w) as [[] ?]; cbn in Est; inversion Est; subst; cbn; repeat split; auto; try congruence; exfalso; clear -Hst; destruct Hst as [X|[X|X]]; discriminate X.
  - cbn [AsyncWebSocket.step] in Est. unfold step_handle in Est.
    assert (forall sh0 u nx w0, match readPayloadAsync h u w0 with inl e => fail e (Conf h sh0 [CoListen] w0) | inr co => (ARun, Conf h sh0 (co :: CoHandle (Some l) nx :: [CoListen]) w0) end = (st, Conf h' sh' K' w') ->
      pend h' K' = pend h [CoHandle (Some l) HfAct; CoListen] /\ (K' = [] -> pend h [CoHandle (Some l) HfAct; CoListen] = true \/ [CoHandle (Some l) HfAct; CoListen] = []) /\ (st = AWait -> pend h [CoHandle (Some l) HfAct; CoListen] = false)) as Hgo.
    { clear Est. intros sh0 u nx w0 E. unfold readPayloadAsync in E. destruct (_ && _)%bool; [|destruct (_ <? 0)%Z]; cbn in E; inversion E; subst; cbn; repeat split; auto; try congruence; exfalso; clear -Hst; destruct Hst as [X|[X|X]]; discriminate X. }
    assert (forall e sh0 w0, fail e (Conf h sh0 [CoListen] w0) = (st, Conf h' sh' K' w') -> False) as Hno.
    { intros e sh0 w0 E. cbn in E. inversion E; subst. exfalso; clear -Hst; destruct Hst as [X|[X|X]]; discriminate X. }
    cbv zeta in Est.
    repeat match type of Est with
    | (if ?b then _ else _) = _ => destruct b
    | (let (_, _) := ?p in _) = _ => destruct p
    | match ?x with _ => _ end = _ => (is_var x; destruct x) || (match x with h_opcode _ => destruct x end)
    end; solve [now apply Hgo in Est | exfalso; eapply Hno; exact Est].
  - cbn [AsyncWebSocket.step] in Est. unfold step_payload in Est. cbv zeta in Est. destruct (Z.of_N (lenN p1) <? h_len h)%Z; [inversion Est; subst; cbn; repeat split; auto; congruence|].
    destruct H1 as ((Hh1 & Hh2 & Hh3) & _).
    destruct (short_of (f_opcode f)) eqn:Es; cbn [negb andb] in Est.
    + inversion Est; subst. cbn [pend]. split; [|split; [discriminate|reflexivity]]. destruct H2 as [[E|[E|[E|[E|[E|[E|[]]]]]]] _]; rewrite <- E in *; try discriminate Es; reflexivity.
    + destruct (h_fin h).
      * cbn in Est. inversion Est; subst. inversion HK' as [|? ? Hx _]. destruct Hx.
      * inversion Est; subst. cbn [pend]. split; [|split; [discriminate|reflexivity]]. destruct H2 as [[E|[E|[E|[E|[E|[E|[]]]]]]] _]; rewrite <- E in *; try discriminate Es; cbn [next_of]; try reflexivity; rewrite Hh2; reflexivity.
  - cbn [AsyncWebSocket.step] in Est. unfold step_payload in Est. cbv zeta in Est. destruct (readSomeAsyncInline n w) as [[d| | |] ?]; [destruct (_ <? _)%Z| | |]; cbn in Est; inversion Est; subst; cbn; repeat split; auto; try congruence; exfalso; clear -Hst; destruct Hst as [X|[X|X]]; discriminate X.
  - cbn [AsyncWebSocket.step] in Est. unfold step_payload in Est. cbv zeta in Est. destruct (cooked (f_key f) (lenN p1) d); [cbn in Est; inversion Est; subst; exfalso; clear -Hst; destruct Hst as [X|[X|X]]; discriminate X|].
    destruct (short_of (f_opcode f)); cbn in Est; inversion Est; subst; [cbn; repeat split; auto; congruence|]. inversion HK' as [|? ? Hx _]. destruct Hx.
  - exfalso. destruct H1 as [[E|[E|[E|[E|[E|[E|[]]]]]]] _]; rewrite <- E in *; try discriminate H2; cbn in Est; inversion Est; subst; inversion HK' as [|? ? Hx _]; destruct Hx.
Qed.
Lemma log_last (log : list (nat * event)) l ev ev' : log ++ [(l, ev)] = log ++ [(l, ev')] -> ev = ev'.
Proof. intros H. apply app_inv_head in H. congruence. Qed.
Lemma pend_call l nc all A T h sh K w ev cs freed h' sh' K' w' : at_ l nc all A T h sh K (w_sock w) -> AsyncWebSocket.step (fun _ _ => []) (Conf h sh K w) = (ARun, Conf h' sh' (CoUser cs freed :: K') w') ->
  w_log w' = w_log w ++ [(l, ev)] -> pend h K = false /\ pend h' K' = is_close ev /\ K' <> [].
Proof.
  intros Hat Est Hlog.
  remember (w_sock w) as k eqn:Ek. destruct Hat.
  - exfalso. destruct H; cbn [AsyncWebSocket.step AsyncWebSocket.step_handle step_payload] in Est; try discriminate. change OPCODE_CLOSE with 8 in Est. destruct (h_opcode h =? 8); discriminate.
  - exfalso. cbn [AsyncWebSocket.step AsyncWebSocket.step_readFrame] in Est. destruct (readExactAsyncInline 2 got w) as [[] ?]; discriminate.
  - exfalso. cbn [AsyncWebSocket.step AsyncWebSocket.step_readFrame] in Est. destruct (unpackHeaderBits (be_dec bb) h) as [h2 n]. destruct (n <? 126); [|destruct (n =? 126); [|destruct (n =? 127)]]; discriminate.
  - exfalso. cbn [AsyncWebSocket.step AsyncWebSocket.step_readFrame] in Est. destruct (readExactAsyncInline (if tnum lf =? 2 then 2 else 8) got w) as [[] ?]; discriminate.
  - exfalso. cbn [AsyncWebSocket.step AsyncWebSocket.step_readFrame] in Est. cbv zeta in Est. destruct (h_hasMask _); discriminate.
  - exfalso. cbn [AsyncWebSocket.step AsyncWebSocket.step_readFrame] in Est. destruct (readExactAsyncInline 4 got w) as [[] ?]; discriminate.
  - exfalso. cbn [AsyncWebSocket.step] in Est. unfold step_handle in Est.
    assert (forall sh0 u nx w0, match readPayloadAsync h u w0 with inl e => fail e (Conf h sh0 [CoListen] w0) | inr co => (ARun, Conf h sh0 (co :: CoHandle (Some l) nx :: [CoListen]) w0) end <> (ARun, Conf h' sh' (CoUser cs freed :: K') w')) as Hgo.
    { clear Est. intros sh0 u nx w0 E. unfold readPayloadAsync in E. destruct (_ && _)%bool; [|destruct (_ <? 0)%Z]; cbn in E; discriminate. }
    cbv zeta in Est.
    repeat match type of Est with
    | (if ?b then _ else _) = _ => destruct b
    | (let (_, _) := ?p in _) = _ => destruct p
    | match ?x with _ => _ end = _ => (is_var x; destruct x) || (match x with h_opcode _ => destruct x end)
    end; solve [now apply Hgo in Est | discriminate Est].
  - cbn [AsyncWebSocket.step] in Est. unfold step_payload in Est. cbv zeta in Est. destruct (Z.of_N (lenN p1) <? h_len h)%Z; [discriminate|].
    destruct H1 as ((Hh1 & Hh2 & Hh3) & _).
    destruct (short_of (f_opcode f)) eqn:Es; cbn [negb andb] in Est; [discriminate|]. destruct (h_fin h); [|discriminate].
    cbn [call_listener] in Est. inversion Est; subst. cbn [w_log set_log] in Hlog. apply log_last in Hlog. subst ev. cbn [pend is_close]. split; [reflexivity|]. split; [|discriminate]. rewrite Hh2. unfold short_of in Es. apply N.eqb_neq. apply N.leb_gt in Es. lia.
  - exfalso. cbn [AsyncWebSocket.step] in Est. unfold step_payload in Est. cbv zeta in Est. destruct (readSomeAsyncInline n w) as [[d| | |] ?]; [destruct (_ <? _)%Z| | |]; discriminate.
  - cbn [AsyncWebSocket.step] in Est. unfold step_payload in Est. cbv zeta in Est. destruct (cooked (f_key f) (lenN p1) d); [discriminate|].
    destruct (short_of (f_opcode f)); [discriminate|]. cbn [call_listener] in Est. inversion Est; subst. cbn [w_log set_log] in Hlog. apply log_last in Hlog. subst ev. cbn. repeat split; discriminate.
  - destruct H0 as ((Hh1 & Hh2 & Hh3) & _). destruct H1 as [[E|[E|[E|[E|[E|[E|[]]]]]]] _]; rewrite <- E in *; try discriminate H2; cbn in Est; inversion Est; subst; cbn [w_log set_log] in Hlog; apply log_last in Hlog; subst ev; cbn [pend is_close next_of]; rewrite Hh2; repeat split; discriminate.
Qed.

(** * Counting the listenings by what has been reported *)
Fixpoint scan (d : nat) (os : list obs) : option nat :=
  match os with
  | [] => Some d
  | OPing _ :: r => scan (S d) r
  | OClose _ _ :: r => match d with O => None | S d' => scan d' r end
  | _ :: r => scan d r
  end.
Lemma scan_app a : forall d b, scan d (a ++ b) = match scan d a with Some e => scan e b | None => None end.
Proof. induction a as [|[] a IH]; intros d b'; cbn [app scan]; auto. destruct d; auto. Qed.
Lemma scan_bytes op bs : forall d, scan d (map (OByte op) bs) = Some d.
Proof. induction bs; cbn; auto. Qed.
Definition counts (os : list obs) (p : bool) (D n : nat) : Prop :=
  if p then n = O /\ exists os' c m, os = os' ++ [OClose c m] /\ scan 0 os' = Some D else scan 0 os = Some (n + D)%nat.

Section Count.
Context {S : Type}.
Variables (l : nat) (obj : object S).
Hypothesis Hobj : listens_on_ping obj.
Variables (log0 : list (nat * event)) (all : list (lform * frame)).
Definition want (n : nat) (c : code S) : Prop := match n with O => every false only_sends c | Datatypes.S O => listens_once c | _ => False end.
Definition wanted (n : nat) (d : option (doing S)) : Prop :=
  match d with None => n = O | Some (Running c) => want n c | Some (Asked k) => forall r, want n (k r) end.
Fixpoint under (K : list cor) : list cor := match K with CoUser _ _ :: K' => K' | _ :: K' => under K' | [] => [] end.
Definition base (y : oconf S) : list cor := match o_now y with None => c_stack (o_conf y) | Some _ => under (c_stack (o_conf y)) end.
Definition lev (v : level S) : Prop := pend (v_hdr v) (under (v_stack v)) = false /\ under (v_stack v) <> [] /\ forall r, every false only_sends (v_code v r).
Definition cnt (x : rconf S) : Prop := exists new n, w_log (r_world x) = log0 ++ new /\ wanted n (o_now (r_now x)) /\
  counts (transcript new) (pend (c_hdr (o_conf (r_now x))) (base (r_now x))) (length (r_outer x)) n /\ Forall lev (r_outer x) /\
  (base (r_now x) = [] -> o_now (r_now x) = None /\ h_opcode (c_hdr (o_conf (r_now x))) = 8).

Lemma sends_are a : only_sends a -> sends_or_listens a.
Proof. destruct a; try exact (fun H => H). intros _; exact I. Qed.
Lemma once_boundaries : async_boundaries false obj.
Proof.
  assert (forall c : code S, listens_once c -> every false sends_or_listens c) as H1.
  { induction c as [| |k IH|s k IH|a k IH]; cbn [listens_once every]; intros H; auto; try (now destruct H).
    destruct a; try (now destruct H as [[] _]).
    - destruct H as [H1 H2]. split; [exact H1|auto].
    - split; [exact I|]. intros r. apply (every_mono only_sends); [apply sends_are|apply H]. }
  intros l0 ev. specialize (Hobj l0 ev). destruct ev; auto; (apply (every_mono only_sends); [apply sends_are|exact Hobj]).
Qed.
Lemma want_settle n c : forall s s' t, want n c -> settle c s = (s', t) ->
  match t with TFinish => n = O | TThrow => False | TDo (ASend _) k => forall r, want n (k r) | TDo AListen k => n = 1%nat /\ forall r, want 0 (k r) | TDo _ _ => False end.
Proof.
  destruct n as [|[|n]]; [| |intros s s' t []].
  - induction c as [| |k IH|s1 k IH|a k IH]; intros s s' t H E; cbn [want every settle] in *.
    + injection E as <- <-. reflexivity.
    + discriminate.
    + eapply IH; eauto.
    + eapply IH; eauto.
    + injection E as <- <-. destruct H as [H1 H2]. destruct a; first [exact H2 | now destruct H1].
  - induction c as [| |k IH|s1 k IH|a k IH]; intros s s' t H E; cbn [want listens_once settle] in *.
    + destruct H.
    + destruct H.
    + eapply IH; eauto.
    + eapply IH; eauto.
    + injection E as <- <-. destruct a; first [exact (proj2 H) | split; [reflexivity|exact H] | now destruct H as [[] _]].
Qed.
Lemma under_tiny P freed K : Forall tiny P -> under (P ++ CoCatch :: CoUser [] freed :: K) = K.
Proof. induction 1 as [|co P H _ IH]; [reflexivity|]. destruct co; try (now destruct H); exact IH. Qed.
Lemma wanted_told n d : wanted n (Some d) -> want n (told_now (Some d)).
Proof. destruct d; cbn; auto. Qed.

Definition counted (w0 : world) (sx : status * rconf S) : Prop := cnt (snd sx) /\
  match fst sx with
  | ARun => True
  | AWait => healthy (w_wr w0) -> forall new, w_log (r_world (snd sx)) = log0 ++ new -> exists D, scan 0 (transcript new) = Some D
  | ADone => exists new os c m, w_log (r_world (snd sx)) = log0 ++ new /\ transcript new = os ++ [OClose c m] /\ scan 0 os = Some O
  | _ => False
  end.
Lemma cnt_step fut x : inv l false false log0 all fut x -> cnt x -> counted (r_world x) (reentry_step obj x).
Proof.
  destruct x as [outer y]. intros (A & T & new & Hw & Hl & Hn & Ht & Hc & Ho) (new2 & n & Hl2 & Hwa & Hcn & Hlev & H8). cbn [r_now r_outer] in *.
  assert (new2 = new) as -> by (rewrite Hl in Hl2; now apply app_inv_head in Hl2). clear Hl2.
  destruct Hc as [s h sh K w Hat|s d freed h sh K w Hat Hok|s k P freed h sh K w Hat HP Hok]; cbn [o_conf c_world o_now c_hdr c_stack base] in *.
  - (* the listening coroutines *)
    cbn [wanted] in Hwa. subst n. unfold base in Hcn, H8. cbn [o_now o_conf c_stack] in Hcn, H8.
    pose proof (at_hearers _ _ _ _ _ _ _ _ _ Hat) as HK.
    assert (reentry_step obj (RConf outer (OConf s None (Conf h sh K w))) = back outer (object_step obj (OConf s None (Conf h sh K w)))) as ->.
    { unfold reentry_step. cbn [r_now o_conf c_stack r_outer]. destruct K as [|[] K]; try reflexivity. }
    destruct (at_step l false all fut A T h sh K w Hat Hw) as [(st & h' & sh' & K' & w' & A' & Est & Hw' & Hat' & Elog & Ewr & Hst)|(ev & freed & h' & sh' & K' & w' & A' & T' & Est & Hw' & Hat' & Elog & Ewr & ET & Hless & Hev)].
    + pose proof (at_hearers _ _ _ _ _ _ _ _ _ Hat') as HK'.
      assert (object_step obj (OConf s None (Conf h sh K w)) = (st, OConf s None (Conf h' sh' K' w'))) as ->.
      { unfold object_step. cbn [o_conf c_stack o_mem o_now]. rewrite Est. cbn [c_stack c_world].
        destruct K' as [|[] K']; try (destruct K as [|[] K]; try reflexivity; inversion HK as [|? ? Hx _]; destruct Hx). inversion HK' as [|? ? Hx _]. destruct Hx. }
      destruct (pend_plain _ _ _ _ _ _ _ _ _ _ _ _ _ _ Hat (Est _)) as (P1 & P2 & P3); [destruct Hst as [[-> _]|[(-> & _)|(-> & _)]]; auto|exact HK'|].
      assert (cnt (RConf outer (OConf s None (Conf h' sh' K' w')))) as Hc'.
      { exists new, O. unfold base. cbn [r_now o_conf c_world o_now c_hdr c_stack r_outer wanted]. split; [congruence|]. split; [reflexivity|]. split; [now rewrite P1|]. split; [exact Hlev|].
        intros EK. split; [reflexivity|]. subst K'. cbn [pend] in P1. destruct (P2 eq_refl) as [E| ->]; [rewrite E in P1; now apply N.eqb_eq|]. cbn [pend] in P1. rewrite (proj2 (H8 eq_refl)) in P1. now apply N.eqb_eq. }
      destruct Hst as [[-> _]|[(-> & Hi1 & Hi2 & HT)|(-> & -> & ->)]].
      * rewrite back_run by now left. split; [exact Hc'|exact I].
      * rewrite back_run by now right. split; [exact Hc'|]. cbn [fst snd r_now o_conf c_world]. intros _ new' E. assert (new' = new) as -> by (rewrite Elog, Hl in E; now apply app_inv_head in E).
        rewrite (P3 eq_refl) in Hcn. cbn [counts] in Hcn. eauto.
      * (* this listening ends *) assert (pend h [] = true) as Hp by (cbn; rewrite (proj2 (H8 eq_refl)); reflexivity). rewrite Hp in Hcn. destruct Hcn as (_ & os & c & m & Eos & Esc).
        destruct outer as [|[h0 sh0 K0 k0] outer].
        -- cbn [back fst snd]. split; [exact Hc'|]. cbn [fst snd]. exists new, os, c, m. cbn [r_now o_conf c_world]. split; [congruence|auto].
        -- cbn [back fst snd]. split; [|exact I]. inversion Hlev as [|? ? (L1 & L3 & L2) Hlev']; subst. exists new, O. cbn [snd r_now o_conf c_world o_mem c_hdr c_stack r_outer o_now v_hdr v_stack v_code wanted want] in *.
           unfold base. cbn [o_now o_conf c_stack]. split; [congruence|]. split; [apply L2|]. split; [|split; [exact Hlev'|intros E; now apply L3 in E]]. rewrite L1. cbn [counts]. rewrite Eos, scan_app, Esc. reflexivity.
    + assert (object_step obj (OConf s None (Conf h sh K w)) = (ARun, OConf s (Some (Running (obj l ev))) (Conf h' sh' (CoUser [] freed :: K') w'))) as ->.
      { unfold object_step. cbn [o_conf c_stack o_mem o_now]. rewrite Est. cbn [c_stack c_world].
        assert (Nat.ltb (length (w_log w)) (length (w_log w')) = true) as Hlt by (apply Nat.ltb_lt; rewrite Elog, app_length; cbn; lia).
        destruct K as [|co K]; [specialize (Est (fun _ _ => [])); cbn in Est; discriminate Est|].
        destruct co; try (inversion HK as [|? ? Hx _]; destruct Hx); rewrite Hlt, Elog, rev_app_distr; reflexivity. }
      rewrite back_run by now left. split; [|exact I].
      destruct (pend_call _ _ _ _ _ _ _ _ _ ev _ _ _ _ _ _ Hat (Est _) Elog) as (P1 & P2 & P3). rewrite P1 in Hcn. cbn [counts] in Hcn.
      exists (new ++ [(l, ev)]), (match ev with EvPing _ => 1%nat | _ => O end). unfold base. cbn [snd r_now o_conf c_world o_mem c_hdr c_stack r_outer o_now under wanted]. split; [now rewrite Elog, Hl, app_assoc|].
      split; [specialize (Hobj l ev); destruct ev; exact Hobj|]. split; [|split; [exact Hlev|intros E; now apply P3 in E]]. rewrite P2, transcript_app. unfold transcript at 2. cbn [flat_map snd]. rewrite app_nil_r.
      destruct ev; cbn [is_close observe counts]; try (rewrite scan_app, Hcn; try reflexivity; apply scan_bytes). split; [reflexivity|]. eauto.
  - (* a callback's coroutine *)
    pose proof (at_hearers _ _ _ _ _ _ _ _ _ Hat) as HK. unfold base in Hcn, H8. cbn [o_now o_conf c_stack under] in Hcn, H8.
    assert (K <> []) as Hne by (intros E; destruct (H8 E) as [E1 _]; discriminate E1).
    unfold reentry_step. cbn [r_now o_conf c_stack r_outer o_now o_mem]. destruct (settle (told_now (Some d)) s) as [s' t] eqn:Es.
    pose proof (want_settle n _ _ _ _ (wanted_told _ _ Hwa) Es) as Hs.
    destruct t as [| |a k].
    + subst n. unfold object_step, object_user. cbn [o_conf c_stack o_mem o_now c_hdr c_short c_world]. rewrite Es. rewrite back_run by now left. split; [|exact I].
      exists new, O. unfold base. cbn [snd r_now o_conf c_world o_now c_hdr c_stack r_outer wanted]. split; [exact Hl|]. split; [reflexivity|]. split; [exact Hcn|]. split; [exact Hlev|].
      intros E. now apply Hne in E.
    + destruct Hs.
    + destruct a; try (now destruct Hs).
      * unfold object_step, object_user. cbn [o_conf c_stack o_mem o_now c_hdr c_short c_world]. rewrite Es. rewrite back_run by now left. split; [|exact I].
        exists new, n. unfold base. cbn [snd r_now o_conf c_world o_now c_hdr c_stack r_outer wanted]. split; [exact Hl|]. split; [exact Hs|].
        assert (under (start_send op :: CoCatch :: CoUser [] freed :: K) = K) as -> by (unfold start_send; destruct op as [? ? [|]|? ?| |[|]|[|]|[|]|[|]]; reflexivity). split; [exact Hcn|]. split; [exact Hlev|intros E; now apply Hne in E].
      * (* listenAsync *) destruct Hs as [-> Hk]. cbn [c_hdr c_short c_world]. split; [|exact I].
        assert (pend h K = false) as Hp by (destruct (pend h K); [destruct Hcn as [Hcn _]; discriminate Hcn|reflexivity]). rewrite Hp in Hcn. cbn [counts] in Hcn.
        exists new, O. unfold base. cbn [snd r_now o_conf c_world o_now c_hdr c_stack r_outer start_listen wanted pend]. split; [exact Hl|]. split; [reflexivity|]. split; [exact Hcn|]. split; [|discriminate].
        constructor; [|exact Hlev]. split; [exact Hp|split; [exact Hne|exact Hk]].
  - (* a sending coroutine *)
    unfold base in Hcn, H8. cbn [o_now o_conf c_stack] in Hcn, H8. rewrite under_tiny in Hcn, H8 by assumption. cbn [wanted] in Hwa.
    assert (K <> []) as Hne by (intros E; destruct (H8 E) as [E1 _]; discriminate E1).
    destruct P as [|co P].
    + unfold reentry_step. cbn [app r_now o_conf c_stack r_outer]. unfold object_step. cbn [o_conf c_stack o_mem o_now c_hdr c_short c_world]. rewrite back_run by now left. split; [|exact I].
      exists new, n. unfold base. cbn [snd r_now o_conf c_world o_now c_hdr c_stack r_outer wanted under]. split; [exact Hl|]. split; [apply Hwa|]. split; [exact Hcn|]. split; [exact Hlev|intros E; now apply Hne in E].
    + inversion HP as [|? ? Hco HP']; subst. cbn [app].
      assert (reentry_step obj (RConf outer (OConf s (Some (Asked k)) (Conf h sh (co :: P ++ CoCatch :: CoUser [] freed :: K) w))) =
        back outer (object_step obj (OConf s (Some (Asked k)) (Conf h sh (co :: P ++ CoCatch :: CoUser [] freed :: K) w)))) as ->.
      { unfold reentry_step. cbn [r_now o_conf c_stack r_outer]. destruct co; try (now destruct Hco); reflexivity. }
      destruct (step_tiny co h sh w Hco) as (w' & G1 & G2 & G3 & G4 & [(st & Q & HQ & Hst & Hst2)|(e & Hst & Hun)]).
      * assert (object_step obj (OConf s (Some (Asked k)) (Conf h sh (co :: P ++ CoCatch :: CoUser [] freed :: K) w)) =
          (st, OConf s (Some (Asked k)) (Conf h sh ((Q ++ P) ++ CoCatch :: CoUser [] freed :: K) w'))) as ->.
        { unfold object_step. cbn [o_conf c_stack o_mem o_now]. destruct co; try (now destruct Hco); rewrite Hst, app_assoc; cbn [c_stack c_world o_conf]; rewrite G3, Nat.ltb_irrefl;
            (destruct ((Q ++ P) ++ CoCatch :: CoUser [] freed :: K) as [|[] ?]; try reflexivity; destruct (List.rev (w_log w)) as [|[] ?]; reflexivity). }
        rewrite back_run by (destruct Hst2 as [[-> _]|[-> _]]; auto). split.
        -- exists new, n. unfold base. cbn [snd r_now o_conf c_world o_now c_hdr c_stack r_outer wanted]. rewrite under_tiny by now apply Forall_app. split; [now rewrite G3|]. split; [exact Hwa|]. split; [exact Hcn|]. split; [exact Hlev|intros E; now apply Hne in E].
        -- cbn [fst]. destruct Hst2 as [[-> _]|[-> Hun]]; [exact I|]. intros Hh. contradiction.
      * assert (object_step obj (OConf s (Some (Asked k)) (Conf h sh (co :: P ++ CoCatch :: CoUser [] freed :: K) w)) =
          (ARun, OConf s (Some (Asked k)) (Conf h sh (CoUser [] freed :: K) w'))) as ->.
        { assert (fail e (Conf h sh (P ++ CoCatch :: CoUser [] freed :: K) w') = (ARun, Conf h sh (CoUser [] freed :: K) w')) as Hf.
          { unfold fail. cbn [c_stack c_hdr c_short c_world]. rewrite unwind_tiny by assumption. reflexivity. }
          unfold object_step. cbn [o_conf c_stack o_mem o_now]. destruct co; try (now destruct Hco); rewrite Hst, Hf; cbn [c_stack c_world o_conf]; rewrite G3, Nat.ltb_irrefl;
            destruct (List.rev (w_log w)) as [|[] ?]; reflexivity. }
        rewrite back_run by now left. split; [|exact I].
        exists new, n. unfold base. cbn [snd r_now o_conf c_world o_now c_hdr c_stack r_outer wanted under]. split; [now rewrite G3|]. split; [exact Hwa|]. split; [exact Hcn|]. split; [exact Hlev|intros E; now apply Hne in E].
Qed.

Definition over (st : status) (x : rconf S) : Prop :=
  match st with
  | ARun | AWait => True
  | ADone => exists new os c m, w_log (r_world x) = log0 ++ new /\ transcript new = os ++ [OClose c m] /\ scan 0 os = Some O
  | _ => False
  end.
Lemma cnt_arrive a x : cnt x -> cnt (reentry_arrive a x).
Proof. intros H. exact H. Qed.
Lemma cnt_run evs : forall fut st x, clean (arrivals evs) -> inv l false false log0 all (bytes_of (arrivals evs) ++ fut) x -> cnt x -> over st x ->
  cnt (snd (reentry_run obj evs (st, x))) /\ over (fst (reentry_run obj evs (st, x))) (snd (reentry_run obj evs (st, x))).
Proof.
  assert (false = true -> false = false) as Hnl by reflexivity.
  induction evs as [|[|a] r IH]; intros fut st x Hc Hi Hx Hf.
  - auto.
  - cbn [reentry_run arrivals] in *. destruct st; cbn [reentry_tick]; try (now apply (IH fut));
      destruct (inv_step l false false Hnl obj once_boundaries log0 all _ x Hi) as (H1 & _); destruct (cnt_step _ x Hi Hx) as (H2 & H3); destruct (reentry_step obj x) as [st' x']; cbn [fst snd] in *;
      apply (IH fut); auto; destruct st'; auto.
  - cbn [reentry_run arrivals fst snd] in *. apply Forall_app in Hc as [Hc1 Hc2]. rewrite bytes_more, <- app_assoc in Hi.
    apply (IH fut); [exact Hc2|now apply inv_arrive|now apply cnt_arrive|destruct st; exact Hf].
Qed.
Lemma cnt_start s w : log0 = w_log w -> cnt (reentry_start s w).
Proof.
  intros ->. exists [], O. unfold base. cbn [reentry_start r_now r_outer object_start o_conf start_listen c_world o_now c_hdr c_stack wanted pend]. split; [now rewrite app_nil_r|]. repeat split; auto; try constructor; discriminate.
Qed.
End Count.

(** * Frames *)
Lemma scan_frame f d : scan d (frame_shown f) = if f_opcode f =? 9 then Some (S d) else if f_opcode f =? 8 then match d with O => None | S d' => Some d' end else Some d.
Proof.
  unfold frame_shown. destruct (N.eqb_spec (f_opcode f) 9) as [E|E9]; [rewrite E; reflexivity|]. destruct (N.eqb_spec (f_opcode f) 8) as [E|E8].
  - rewrite E. unfold shown, close_obs. destruct (f_payload f) as [|? [|? ?]]; reflexivity.
  - assert (forall os, (os = [OPong (f_payload f)] \/ os = map (OByte (f_opcode f)) (f_payload f) ++ (if true && f_fin f then [OEnd (f_opcode f)] else [])) -> scan d os = Some d) as H.
    { intros os [-> | ->]; [reflexivity|]. rewrite scan_app, scan_bytes. destruct (f_fin f); reflexivity. }
    apply H. unfold shown. destruct (f_opcode f) as [|q]; [auto|]. do 4 (try destruct q as [q|q|]); try congruence; auto.
Qed.
Lemma outermost_none fs : forall d, outermost d fs = None -> exists D, scan d (frames_shown fs) = Some D.
Proof.
  induction fs as [|[lf f] r IH]; intros d H; [eexists; reflexivity|]. cbn [outermost snd] in H. unfold frames_shown. cbn [flat_map snd]. rewrite scan_app, scan_frame.
  destruct (f_opcode f =? 9); [|destruct (f_opcode f =? 8)]; [|destruct d|]; try (cbn in H; discriminate H); apply IH; (match type of H with option_map _ ?x = _ => destruct x; [discriminate H|reflexivity] end).
Qed.
Lemma outermost_some fs : forall d read, outermost d fs = Some read -> (exists r, fs = read ++ r) /\ exists os c m, frames_shown read = os ++ [OClose c m] /\ scan d os = Some O.
Proof.
  induction fs as [|[lf f] r IH]; intros d read H; [discriminate|]. cbn [outermost snd] in H.
  assert (forall d' read', outermost d' r = Some read' -> scan d (frame_shown f) = Some d' ->
    (exists r0, (lf, f) :: r = ((lf, f) :: read') ++ r0) /\ exists os c m, frames_shown ((lf, f) :: read') = os ++ [OClose c m] /\ scan d os = Some O) as Hgo.
  { intros d' read' E Es. destruct (IH d' read' E) as ((r0 & Er) & os & c & m & Eo & Ec). split; [exists r0; cbn; now rewrite <- Er|].
    exists (frame_shown f ++ os), c, m. unfold frames_shown in *. cbn [flat_map snd]. rewrite Eo, app_assoc. split; [reflexivity|]. rewrite scan_app, Es. exact Ec. }
  pose proof (scan_frame f d) as Es.
  destruct (f_opcode f =? 9) eqn:E9; [|destruct (f_opcode f =? 8) eqn:E8]; [|destruct d as [|d]|];
    try (match type of H with option_map _ (outermost ?d' r) = _ => destruct (outermost d' r) as [read'|] eqn:E; [|discriminate H]; injection H as <-; now apply (Hgo d' read' E) end).
  injection H as <-. split; [now exists r|]. apply N.eqb_eq in E8. exists []. unfold frames_shown, frame_shown. cbn [flat_map snd]. rewrite E8. cbn [shown]. unfold close_obs.
  destruct (f_payload f) as [|? [|? ?]]; do 2 eexists; split; reflexivity.
Qed.
Lemma same_end (a b ra rb : list obs) c m c' m' : scan 0 a = Some O -> scan 0 b = Some O -> (a ++ [OClose c m]) ++ ra = (b ++ [OClose c' m']) ++ rb -> a ++ [OClose c m] = b ++ [OClose c' m'].
Proof.
  intros Ha Hb E. rewrite <- !app_assoc in E. apply app_eq_app in E as [t [[E1 E2]|[E1 E2]]]; subst; destruct t as [|o t].
  - rewrite !app_nil_r. cbn [app] in E2. congruence.
  - cbn [app] in E2. injection E2 as <- _. rewrite scan_app, Hb in Ha. discriminate Ha.
  - rewrite !app_nil_r. cbn [app] in E2. congruence.
  - cbn [app] in E2. injection E2 as <- _. rewrite scan_app, Ha in Hb. discriminate Hb.
Qed.
