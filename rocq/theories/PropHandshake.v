(** C34-C41: the opening handshake. *)
From Coq Require Import ZifyBool ZifyNat ZifyN String Permutation.
From Verif Require Import Bytes Sha1 SpecSha1 PropSha1 Base64 SpecBase64 ProofBase64 Handshake SpecHandshake.
Local Open Scope N_scope.
Local Arguments lenN : simpl never.
Local Arguments base64 : simpl never.
Local Arguments rfc_base64 : simpl never.

(* ------------------------------------------------------------------------------------- *)
(** * Lemmas *)

Lemma bytes_eqb_spec a b : bytes_eqb a b = true <-> a = b.
Proof.
  revert b; induction a as [|x a IH]; intros [|y b]; cbn [bytes_eqb]; split; intros H; try congruence; auto.
  - apply andb_true_iff in H as [H1 H2]. apply Byte.byte_dec_bl in H1. apply IH in H2. congruence.
  - injection H as -> ->. apply andb_true_iff. split; [now apply Byte.byte_dec_lb|now apply IH].
Qed.

Lemma ci_eqb_spec a b : ci_eqb a b = true <-> ci a b.
Proof.
  assert (forall x y, lower x = lower y <-> upper x = upper y) as L.
  { assert (forall x, lower (upper x) = lower x) as E1 by (intros x; destruct x; vm_compute; reflexivity).
    assert (forall x, upper (lower x) = upper x) as E2 by (intros x; destruct x; vm_compute; reflexivity).
    intros x y. split; intros H.
    - rewrite <- (E2 x), <- (E2 y). now rewrite H.
    - rewrite <- (E1 x), <- (E1 y). now rewrite H. }
  unfold ci_eqb, ci. rewrite bytes_eqb_spec. revert b. induction a as [|x a IH]; intros [|y b]; cbn [map]; split; intros H; try discriminate; auto.
  - injection H as H1 H2. apply L in H1. apply IH in H2. congruence.
  - injection H as H1 H2. apply L in H1. apply IH in H2. congruence.
Qed.

Lemma ci_refl a : ci a a. Proof. reflexivity. Qed.
Lemma ci_sym a b : ci a b -> ci b a. Proof. intros H. symmetry. exact H. Qed.
Lemma ci_trans a b c : ci a b -> ci b c -> ci a c. Proof. unfold ci. congruence. Qed.

Lemma values_of_In name h v : In v (values_of name h) <-> has h name v.
Proof.
  unfold values_of, has. rewrite in_map_iff. split.
  - intros ((n & v') & <- & H). apply filter_In in H as [H1 H2]. exists n. cbn [fst] in H2.
    apply ci_eqb_spec in H2. auto.
  - intros (n & H1 & H2). exists (n, v). split; [reflexivity|]. apply filter_In. split; [assumption|].
    now apply ci_eqb_spec.
Qed.

Lemma values_of_app name h1 h2 : values_of name (h1 ++ h2) = values_of name h1 ++ values_of name h2.
Proof. unfold values_of. rewrite filter_app, map_app. reflexivity. Qed.

Lemma absent_values name h : absent h name <-> values_of name h = [].
Proof.
  split.
  - intros H. destruct (values_of name h) as [|v l] eqn:E; [reflexivity|].
    destruct (H v). apply values_of_In. rewrite E. now left.
  - intros H v Hv. apply values_of_In in Hv. rewrite H in Hv. destruct Hv.
Qed.

Lemma sole_values name h v : sole h name v <-> values_of name h = [v].
Proof.
  split.
  - intros (l1 & n & l2 & -> & Hn & H1 & H2).
    apply absent_values in H1, H2. rewrite values_of_app, H1.
    unfold values_of in *. cbn [filter fst app]. apply ci_eqb_spec in Hn. rewrite Hn. cbn [map snd]. now rewrite H2.
  - revert v. induction h as [|[n v'] h IH]; intros v H; [discriminate|].
    unfold values_of in H. cbn [filter fst] in H.
    destruct (ci_eqb name n) eqn:E.
    + cbn [map snd] in H. injection H as <- H.
      exists [], n, h. repeat split; auto.
      * now apply ci_eqb_spec.
      * apply absent_values. reflexivity.
      * apply absent_values. exact H.
    + destruct (IH v H) as (l1 & m & l2 & -> & Hm & H1 & H2).
      exists ((n, v') :: l1), m, l2. repeat split; auto.
      apply absent_values. unfold values_of. cbn [filter fst]. rewrite E. apply absent_values. assumption.
Qed.

Lemma get_some c h name v : pick_ok c -> get c h name = Some v -> has h name v.
Proof.
  intros Hp H. unfold get in H. apply values_of_In.
  destruct (values_of name h) as [|v0 l]; [discriminate|].
  injection H as <-. apply Hp.
Qed.

Lemma get_none c h name : get c h name = None <-> absent h name.
Proof.
  rewrite absent_values. unfold get. destruct (values_of name h); split; congruence.
Qed.

Lemma get_sole c h name v : pick_ok c -> sole h name v -> get c h name = Some v.
Proof.
  intros Hp H. apply sole_values in H. unfold get. rewrite H.
  destruct (Hp v []) as [<-|[]]. reflexivity.
Qed.

Lemma sole_has h name v : sole h name v -> has h name v.
Proof. intros H. apply sole_values in H. apply values_of_In. rewrite H. now left. Qed.

Lemma sole_unique h name v v' : sole h name v -> has h name v' -> v' = v.
Proof. intros H H'. apply sole_values in H. apply values_of_In in H'. rewrite H in H'. destruct H' as [<-|[]]; reflexivity. Qed.

Lemma get_single c h name v : pick_ok c -> single h name -> (get c h name = Some v <-> has h name v).
Proof.
  intros Hp Hs. split; [now apply get_some|].
  intros H. destruct Hs as [Ha|[v' Hs]]; [now destruct (Ha v)|].
  rewrite (sole_unique _ _ _ _ Hs H). now apply get_sole.
Qed.

Lemma permutation_values name h h' : Permutation h h' -> Permutation (values_of name h) (values_of name h').
Proof.
  intros H. unfold values_of. apply Permutation_map.
  induction H; cbn [filter].
  - constructor.
  - destruct (ci_eqb name (fst x)); [now constructor|assumption].
  - destruct (ci_eqb name (fst x)), (ci_eqb name (fst y)); try apply Permutation_refl. apply perm_swap.
  - eapply Permutation_trans; eassumption.
Qed.

Lemma sole_perm h h' name v : Permutation h h' -> sole h name v -> sole h' name v.
Proof.
  intros Hp H. apply sole_values. apply sole_values in H.
  apply (permutation_values name) in Hp. rewrite H in Hp. now apply Permutation_length_1_inv.
Qed.

Lemma absent_perm h h' name : Permutation h h' -> absent h name -> absent h' name.
Proof.
  intros Hp H. apply absent_values. apply absent_values in H.
  apply (permutation_values name) in Hp. rewrite H in Hp. now apply Permutation_nil.
Qed.

(** Length of a key that fits in memory. *)
Definition small_key (key : bytes) : Prop := lenN key < 2 ^ 60.

Lemma accept_value_ok junk key : small_key key -> accept_value junk key = Some (rfc_accept key).
Proof.
  intros Hk. unfold accept_value.
  assert (lenN (key ++ GUID) < 2 ^ 61) as Hl.
  { rewrite lenN_app. change (lenN GUID) with 36. unfold small_key in Hk. lia. }
  pose proof (C32_from_file junk (key ++ GUID) Hl) as H. unfold sha_from_content in H.
  change MAGIC_UUID with GUID.
  destruct (sha_update (key ++ GUID) (sha_new junk)) as [s|]; [|discriminate].
  destruct (sha_final s) as [[d s']|]; [|discriminate]. injection H as ->. unfold rfc_accept. now rewrite rfc_base64_is.
Qed.

(** Every Sec-WebSocket-Key of the header set fits in memory. *)
Definition small_keys (h : headers) : Prop := forall k, has h (str "Sec-WebSocket-Key") k -> small_key k.

(* ------------------------------------------------------------------------------------- *)
(** * C34 Server handshake *)

(** The 101 response for a key and an upgrade handler. *)
Definition switching_protocols {H} (key : bytes) (handler : H) (r : response H) : Prop :=
  r_status r = 101 /\
  sole (r_headers r) (str "Upgrade") (str "websocket") /\
  sole (r_headers r) (str "Connection") (str "Upgrade") /\
  sole (r_headers r) (str "Sec-WebSocket-Accept") (rfc_accept key) /\
  (forall n v, In (n, v) (r_headers r) -> In n [str "Upgrade"; str "Connection"; str "Sec-WebSocket-Accept"]) /\
  r_upgrade r = Some handler.

Lemma the_answer {H} key (handler : H) :
  switching_protocols key handler
    (Response 101 (put (put (put [] UPGRADE (str "websocket")) CONNECTION CONNECTION_UPGRADE)
                       (str "Sec-WebSocket-Accept") (rfc_accept key)) (Some handler)).
Proof.
  unfold switching_protocols, put. cbn [r_status r_headers r_upgrade app].
  split; [reflexivity|]. split; [|split; [|split; [|split]]].
  - apply sole_values. vm_compute. reflexivity.
  - apply sole_values. vm_compute. reflexivity.
  - apply sole_values. generalize (rfc_accept key). intros a. vm_compute. reflexivity.
  - intros n v [E|[E|[E|[]]]]; injection E as <- _; cbn [In]; auto.
  - reflexivity.
Qed.

(** Soundness, for every header set, also with repeated fields: an answer is given only if the required
    fields are there, and it is the right one; any other outcome is an HTTP 400 error. *)
Theorem C34_sound : forall H (c : core) junk (h : headers) (handler : H),
  pick_ok c -> small_keys h ->
  (exists key u v r,
     serversideHandshake c junk h handler = Answer r /\
     has h (str "Upgrade") u /\ ci u (str "websocket") /\
     has h (str "Connection") v /\ (exists t, In t (c_tokens c v) /\ ci (str "upgrade") t) /\
     has h (str "Sec-WebSocket-Version") (str "13") /\
     has h (str "Sec-WebSocket-Key") key /\ key <> [] /\
     switching_protocols key handler r)
  \/ serversideHandshake c junk h handler = HttpError 400.
Proof.
  intros H c junk h handler Hp Hk. unfold serversideHandshake.
  destruct (get c h UPGRADE) as [u|] eqn:Eu; [|now right].
  destruct (get c h CONNECTION) as [v|] eqn:Ev; [|now right].
  destruct (get c h (str "Sec-WebSocket-Version")) as [ver|] eqn:Ever; [|now right].
  destruct (get c h (str "Sec-WebSocket-Key")) as [key|] eqn:Ek; [|now right].
  destruct ((0 <? lenN key) && ci_eqb u (str "websocket")) eqn:E1; [|now right].
  destruct (existsb _ (c_tokens c v)) eqn:E2; [|now right].
  destruct (bytes_eqb ver (str "13")) eqn:E3; [|now right].
  apply get_some in Eu, Ev, Ever, Ek; try assumption.
  apply andb_true_iff in E1 as [E0 E1].
  apply bytes_eqb_spec in E3 as ->. apply ci_eqb_spec in E1.
  rewrite accept_value_ok by auto.
  left. exists key, u, v, (Response 101 (put (put (put [] UPGRADE (str "websocket")) CONNECTION CONNECTION_UPGRADE)
                       (str "Sec-WebSocket-Accept") (rfc_accept key)) (Some handler)).
  split; [reflexivity|]. split; [exact Eu|]. split; [exact E1|]. split; [exact Ev|].
  split.
  { apply existsb_exists in E2 as (t & Ht & Hc). exists t. split; [assumption|].
    apply ci_eqb_spec in Hc. exact Hc. }
  split; [exact Ever|]. split; [exact Ek|].
  split; [intros ->; discriminate E0|]. apply the_answer.
Qed.

(** The decision, for header sets in which none of the four fields is repeated: 101 iff the conditions
    hold, in terms of the token set computed by the core. *)
Theorem C34_decision : forall H (c : core) junk (h : headers) (handler : H),
  pick_ok c -> small_keys h ->
  single h (str "Upgrade") -> single h (str "Connection") ->
  single h (str "Sec-WebSocket-Version") -> single h (str "Sec-WebSocket-Key") ->
  let accepts :=
    (exists u, has h (str "Upgrade") u /\ ci u (str "websocket")) /\
    (exists v t, has h (str "Connection") v /\ In t (c_tokens c v) /\ ci (str "upgrade") t) /\
    has h (str "Sec-WebSocket-Version") (str "13") /\
    (exists key, has h (str "Sec-WebSocket-Key") key /\ key <> []) in
  (accepts <-> exists r, serversideHandshake c junk h handler = Answer r /\ r_status r = 101) /\
  (~ accepts <-> serversideHandshake c junk h handler = HttpError 400).
Proof.
  intros H c junk h handler Hp Hk Su Sc Sv Sk accepts.
  assert (accepts -> exists r, serversideHandshake c junk h handler = Answer r /\ r_status r = 101) as Hfwd.
  { intros ((u & Hu & Hu') & (v & t & Hv & Ht & Hc) & Hver & key & Hkey & Hne).
    unfold serversideHandshake.
    apply (get_single c h _ _ Hp Su) in Hu. apply (get_single c h _ _ Hp Sc) in Hv.
    apply (get_single c h _ _ Hp Sv) in Hver.
    pose proof (Hk _ Hkey) as Hks. apply (get_single c h _ _ Hp Sk) in Hkey.
    change UPGRADE with (str "Upgrade"). change CONNECTION with (str "Connection").
    rewrite Hu, Hv, Hver, Hkey.
    assert ((0 <? lenN key) = true) as -> by (destruct key; [congruence|]; apply N.ltb_lt; rewrite lenN_cons; lia).
    apply ci_eqb_spec in Hu'. rewrite Hu'. cbn [andb].
    assert (existsb (fun t => ci_eqb CONNECTION_UPGRADE t) (c_tokens c v) = true) as ->.
    { apply existsb_exists. exists t. split; [assumption|]. apply ci_eqb_spec. exact Hc. }
    assert (bytes_eqb (str "13") (str "13") = true) as -> by reflexivity.
    rewrite accept_value_ok by assumption. eexists. split; reflexivity. }
  assert ((exists r, serversideHandshake c junk h handler = Answer r) -> accepts) as Hbwd.
  { intros (r & Hr). destruct (C34_sound H c junk h handler Hp Hk) as [(key & u & v & r' & _ & Hu & Hu' & Hv & (t & Ht & Hc) & Hver & Hkey & Hne & _)|E].
    - unfold accepts. eauto 12.
    - congruence. }
  split; split; auto.
  - intros (r & Hr & _). eauto.
  - intros Hn. destruct (C34_sound H c junk h handler Hp Hk) as [(key & u & v & r & Hr & _)|E]; [|assumption].
    destruct Hn. apply Hbwd. eauto.
  - intros E Ha. destruct (Hfwd Ha) as (r & Hr & _). congruence.
Qed.

(** The same in terms of RFC 7230, for a well-formed Connection list. *)
Theorem C34_decision_rfc : forall H (c : core) junk (h : headers) (handler : H),
  pick_ok c -> tokens_ok c -> small_keys h ->
  single h (str "Upgrade") -> single h (str "Connection") ->
  single h (str "Sec-WebSocket-Version") -> single h (str "Sec-WebSocket-Key") ->
  (forall v, has h (str "Connection") v -> token_list v) ->
  let accepts :=
    (exists u, has h (str "Upgrade") u /\ ci u (str "websocket")) /\
    (exists v, has h (str "Connection") v /\ lists_token v (str "upgrade")) /\
    has h (str "Sec-WebSocket-Version") (str "13") /\
    (exists key, has h (str "Sec-WebSocket-Key") key /\ key <> []) in
  (accepts <-> exists r, serversideHandshake c junk h handler = Answer r /\ r_status r = 101) /\
  (~ accepts <-> serversideHandshake c junk h handler = HttpError 400).
Proof.
  intros H c junk h handler Hp Ht Hk Su Sc Sv Sk Hwf accepts.
  pose proof (C34_decision H c junk h handler Hp Hk Su Sc Sv Sk) as D. cbn zeta in D.
  assert ((exists v t, has h (str "Connection") v /\ In t (c_tokens c v) /\ ci (str "upgrade") t) <->
          (exists v, has h (str "Connection") v /\ lists_token v (str "upgrade"))) as E.
  { split.
    - intros (v & t & Hv & Hin & Hc). exists v. split; [assumption|].
      apply (Ht v (str "upgrade") (Hwf v Hv)); [discriminate|eauto].
    - intros (v & Hv & Hl). apply (Ht v (str "upgrade") (Hwf v Hv)) in Hl; [|discriminate].
      destruct Hl as (t & Hin & Hc). eauto. }
  rewrite E in D. exact D.
Qed.

(** Header sets in which fields are repeated but all lines are acceptable get 101 as well. *)
Theorem C34_complete_repeated : forall H (c : core) junk (h : headers) (handler : H),
  pick_ok c -> small_keys h ->
  (exists u, has h (str "Upgrade") u) -> (forall u, has h (str "Upgrade") u -> ci u (str "websocket")) ->
  (exists v, has h (str "Connection") v) ->
  (forall v, has h (str "Connection") v -> exists t, In t (c_tokens c v) /\ ci (str "upgrade") t) ->
  (exists v, has h (str "Sec-WebSocket-Version") v) ->
  (forall v, has h (str "Sec-WebSocket-Version") v -> v = str "13") ->
  (exists k, has h (str "Sec-WebSocket-Key") k) -> (forall k, has h (str "Sec-WebSocket-Key") k -> k <> []) ->
  exists key r, serversideHandshake c junk h handler = Answer r /\
                has h (str "Sec-WebSocket-Key") key /\ switching_protocols key handler r.
Proof.
  intros H c junk h handler Hp Hk (u & Hu) HU (v & Hv) HC (ver & Hver) HV (k & Hkey) HK.
  assert (forall name x, has h name x -> exists y, get c h name = Some y /\ has h name y) as G.
  { intros name x Hx. destruct (get c h name) as [y|] eqn:E.
    - exists y. split; [reflexivity|]. now apply get_some in E.
    - apply get_none in E. now destruct (E x). }
  destruct (G _ _ Hu) as (u' & Eu & Hu'). destruct (G _ _ Hv) as (v' & Ev & Hv').
  destruct (G _ _ Hver) as (ver' & Ever & Hver'). destruct (G _ _ Hkey) as (k' & Ek & Hk').
  unfold serversideHandshake.
  change UPGRADE with (str "Upgrade") at 1. change CONNECTION with (str "Connection") at 1.
  rewrite Eu, Ev, Ever, Ek.
  assert ((0 <? lenN k') = true) as ->.
  { specialize (HK _ Hk'). destruct k'; [congruence|]. apply N.ltb_lt. rewrite lenN_cons. lia. }
  pose proof (HU _ Hu') as HU'. apply ci_eqb_spec in HU'. rewrite HU'. cbn [andb].
  assert (existsb (fun t => ci_eqb CONNECTION_UPGRADE t) (c_tokens c v') = true) as ->.
  { destruct (HC _ Hv') as (t & Ht & Hc). apply existsb_exists. exists t. split; [assumption|].
    apply ci_eqb_spec. exact Hc. }
  rewrite (HV _ Hver'). assert (bytes_eqb (str "13") (str "13") = true) as -> by reflexivity.
  rewrite accept_value_ok by auto. eexists k', _. split; [reflexivity|]. split; [assumption|]. apply the_answer.
Qed.

(* ------------------------------------------------------------------------------------- *)
(** * C35 Client verification *)

(** The decision table for unrepeated fields. *)
Theorem C35_decision : forall (cq cr : core) junk (q : headers) (status : N) (h : headers) (key : bytes),
  pick_ok cq -> pick_ok cr ->
  sole q (str "Sec-WebSocket-Key") key -> small_key key ->
  single h (str "Upgrade") -> single h (str "Connection") -> single h (str "Sec-WebSocket-Accept") ->
  let result := clientsideConfirmHandshake cq cr junk q status h in
  let protocol_ok := absent h (str "Sec-WebSocket-Version") /\
                     (exists u, has h (str "Upgrade") u /\ ci u (str "websocket")) /\
                     (exists v, has h (str "Connection") v /\ ci v (str "upgrade")) /\
                     (exists a, has h (str "Sec-WebSocket-Accept") a) in
  (result = Some STATUS_SERVER_ERROR <-> status <> 101) /\
  (result = Some STATUS_OK <-> status = 101 /\ protocol_ok /\ has h (str "Sec-WebSocket-Accept") (rfc_accept key)) /\
  (result = Some STATUS_SERVER_WRONG_KEY <->
     status = 101 /\ protocol_ok /\ ~ has h (str "Sec-WebSocket-Accept") (rfc_accept key)) /\
  (result = Some STATUS_UNKNOWN_PROTOCOL_SUGGESTED <-> status = 101 /\ ~ protocol_ok) /\
  result <> None.
Proof.
  intros cq cr junk q status h key Hq Hr Hkey Hsk Su Sc Sa result protocol_ok.
  subst result. unfold clientsideConfirmHandshake.
  rewrite (get_sole cq q _ _ Hq Hkey). rewrite accept_value_ok by assumption.
  change UPGRADE with (str "Upgrade"). change CONNECTION with (str "Connection").
  destruct (N.eqb_spec status 101) as [->|Hs].
  2:{ repeat split; try congruence; intros; try tauto; try congruence; destruct H; congruence. }
  assert (forall P : Prop, (101 = 101 /\ P) <-> P) as T by tauto.
  destruct (get cr h (str "Sec-WebSocket-Version")) as [ver|] eqn:Ev.
  { assert (~ protocol_ok) as Hn.
    { intros (Ha & _). apply (Ha ver). now apply get_some in Ev. }
    repeat split; try congruence; try tauto; intros; try discriminate; tauto. }
  apply get_none in Ev.
  destruct (get cr h (str "Upgrade")) as [u|] eqn:Eu.
  2:{ apply get_none in Eu. assert (~ protocol_ok) as Hn by (intros (_ & (u & Hu & _) & _); now apply (Eu u)).
      repeat split; try congruence; try tauto; intros; try discriminate; tauto. }
  apply (get_single cr h _ _ Hr Su) in Eu.
  destruct (get cr h (str "Connection")) as [v|] eqn:Ec.
  2:{ apply get_none in Ec. assert (~ protocol_ok) as Hn by (intros (_ & _ & (v & Hv & _) & _); now apply (Ec v)).
      repeat split; try congruence; try tauto; intros; try discriminate; tauto. }
  apply (get_single cr h _ _ Hr Sc) in Ec.
  destruct (get cr h (str "Sec-WebSocket-Accept")) as [a|] eqn:Ea.
  2:{ apply get_none in Ea. assert (~ protocol_ok) as Hn by (intros (_ & _ & _ & (a & Ha)); now apply (Ea a)).
      repeat split; try congruence; try tauto; intros; try discriminate; tauto. }
  apply (get_single cr h _ _ Hr Sa) in Ea.
  assert (forall n x y, single h n -> has h n x -> has h n y -> x = y) as Uniq.
  { intros n x y [Ha|(z & Hz)] Hx Hy; [now destruct (Ha x)|].
    rewrite (sole_unique _ _ _ _ Hz Hx), (sole_unique _ _ _ _ Hz Hy). reflexivity. }
  destruct (ci_eqb u (str "websocket") && ci_eqb v (str "upgrade")) eqn:E.
  - apply andb_true_iff in E as [E1 E2]. apply ci_eqb_spec in E1, E2.
    assert protocol_ok as Hok by (unfold protocol_ok; eauto 10).
    destruct (bytes_eqb (rfc_accept key) a) eqn:E3.
    + apply bytes_eqb_spec in E3 as E3'. subst a.
      clearbody protocol_ok. repeat split; try congruence; try tauto; intros; try discriminate; tauto.
    + assert (~ has h (str "Sec-WebSocket-Accept") (rfc_accept key)) as Hna.
      { intros Hh. rewrite (Uniq _ _ _ Sa Ea Hh) in E3.
        assert (bytes_eqb (rfc_accept key) (rfc_accept key) = true) by now apply bytes_eqb_spec. congruence. }
      clearbody protocol_ok. repeat split; try congruence; try tauto; intros; try discriminate; tauto.
  - assert (~ protocol_ok) as Hn.
    { intros (_ & (u' & Hu & Hu') & (v' & Hv & Hv') & _).
      rewrite (Uniq _ _ _ Su Hu Eu) in Hu'. rewrite (Uniq _ _ _ Sc Hv Ec) in Hv'.
      apply ci_eqb_spec in Hu', Hv'. rewrite Hu', Hv' in E. discriminate. }
    repeat split; try congruence; try tauto; intros; try discriminate; tauto.
Qed.

(** For every header set, with any repetitions: OK means that every required line is there. *)
Theorem C35_sound : forall (cq cr : core) junk (q : headers) (status : N) (h : headers),
  pick_ok cq -> pick_ok cr -> small_keys q ->
  clientsideConfirmHandshake cq cr junk q status h = Some STATUS_OK ->
  status = 101 /\ absent h (str "Sec-WebSocket-Version") /\
  (exists u, has h (str "Upgrade") u /\ ci u (str "websocket")) /\
  (exists v, has h (str "Connection") v /\ ci v (str "upgrade")) /\
  (exists key, has q (str "Sec-WebSocket-Key") key /\ has h (str "Sec-WebSocket-Accept") (rfc_accept key)).
Proof.
  intros cq cr junk q status h Hq Hr Hk R. unfold clientsideConfirmHandshake in R.
  destruct (N.eqb_spec status 101) as [->|]; [|discriminate].
  destruct (get cr h (str "Sec-WebSocket-Version")) eqn:Ev; [discriminate|].
  destruct (get cr h UPGRADE) as [u|] eqn:Eu; [|discriminate].
  destruct (get cr h CONNECTION) as [v|] eqn:Ec; [|discriminate].
  destruct (get cr h (str "Sec-WebSocket-Accept")) as [a|] eqn:Ea; [|discriminate].
  destruct (get cq q (str "Sec-WebSocket-Key")) as [key|] eqn:Ek; [|discriminate].
  apply get_none in Ev. apply get_some in Eu, Ec, Ea, Ek; try assumption.
  rewrite accept_value_ok in R by auto.
  destruct (ci_eqb u (str "websocket") && ci_eqb v (str "upgrade")) eqn:E; [|discriminate].
  apply andb_true_iff in E as [E1 E2]. apply ci_eqb_spec in E1, E2.
  destruct (bytes_eqb (rfc_accept key) a) eqn:E3; [|discriminate].
  apply bytes_eqb_spec in E3. subst a.
  repeat split; auto; eauto.
Qed.

(** It never fails in any other way: for every input one of the four statuses is returned. *)
Theorem C35_total : forall (cq cr : core) junk (q : headers) (status : N) (h : headers),
  pick_ok cq -> small_keys q ->
  exists s, clientsideConfirmHandshake cq cr junk q status h = Some s /\
            (s = STATUS_SERVER_ERROR <-> status <> 101).
Proof.
  intros cq cr junk q status h Hq Hk. unfold clientsideConfirmHandshake.
  destruct (N.eqb_spec status 101) as [->|].
  2:{ eexists. split; [reflexivity|]. tauto. }
  destruct (get cr h (str "Sec-WebSocket-Version")); [eexists; split; [reflexivity|]; split; congruence|].
  destruct (get cr h UPGRADE) as [u|]; [|eexists; split; [reflexivity|]; split; congruence].
  destruct (get cr h CONNECTION) as [v|]; [|eexists; split; [reflexivity|]; split; congruence].
  destruct (get cr h (str "Sec-WebSocket-Accept")) as [a|]; [|eexists; split; [reflexivity|]; split; congruence].
  destruct (get cq q (str "Sec-WebSocket-Key")) as [key|] eqn:Ek; [|eexists; split; [reflexivity|]; split; congruence].
  apply get_some in Ek; [|assumption]. rewrite accept_value_ok by auto.
  destruct (ci_eqb u (str "websocket") && ci_eqb v (str "upgrade")); [|eexists; split; [reflexivity|]; split; congruence].
  destruct (bytes_eqb (rfc_accept key) a); eexists; (split; [reflexivity|]; split; congruence).
Qed.
