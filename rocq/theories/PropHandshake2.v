(** C36-C41: handshake of both sides together, keys, and the connector. *)
From Coq Require Import ZifyBool ZifyNat ZifyN String Permutation.
From Verif Require Import Bytes Sha1 SpecSha1 PropSha1 Base64 SpecBase64 ProofBase64 Handshake SpecHandshake PropHandshake.
Local Open Scope N_scope.
Local Arguments lenN : simpl never.
Local Arguments base64 : simpl never.
Local Arguments rfc_base64 : simpl never.

(* ------------------------------------------------------------------------------------- *)
(** * C38 Keys *)

(** 24 Base64 characters (RFC 4648) that stand for the next 16 bytes of the random source and nothing else. *)
Theorem C38_well_formed : forall (rnd : nat -> byte) (pos : nat),
  let key := fst (generateKey rnd pos) in
  let nonce := map rnd (seq pos 16) in
  lenN key = 24 /\ lenN nonce = 16 /\ key = rfc_base64 nonce /\
  (forall data, rfc_base64 data = key -> data = nonce) /\
  snd (generateKey rnd pos) = (pos + 16)%nat.
Proof.
  intros rnd pos key nonce. unfold key, generateKey. cbn [fst snd]. fold nonce.
  assert (lenN nonce = 16) as Hn by (unfold lenN, nonce; rewrite map_length, seq_length; reflexivity).
  split; [|split; [|split; [|split]]].
  - rewrite base64_length, Hn. reflexivity.
  - assumption.
  - symmetry. apply rfc_base64_is.
  - intros data. rewrite <- rfc_base64_is. apply rfc_base64_inj.
  - reflexivity.
Qed.

(** Different random bytes give different keys. *)
Theorem C38_injective : forall rnd pos rnd' pos',
  fst (generateKey rnd pos) = fst (generateKey rnd' pos') ->
  forall i, (i < 16)%nat -> rnd (pos + i)%nat = rnd' (pos' + i)%nat.
Proof.
  intros rnd pos rnd' pos' H i Hi. cbn [generateKey fst] in H. apply base64_inj in H.
  assert (forall (r : nat -> byte) p, nth i (map r (seq p 16)) (r 0%nat) = r (p + i)%nat) as E.
  { intros r p. rewrite map_nth, seq_nth by assumption. reflexivity. }
  assert (forall (r : nat -> byte) p d, nth i (map r (seq p 16)) d = r (p + i)%nat) as E'.
  { intros r p d. rewrite <- E. apply nth_indep. rewrite map_length, seq_length. assumption. }
  rewrite <- (E' rnd pos x00), <- (E' rnd' pos' x00), H. reflexivity.
Qed.

Example C38_nonvacuous : fst (generateKey (fun i => n2b (N.of_nat i + 1)) 0) = str "AQIDBAUGBwgJCgsMDQ4PEA==".
Proof. vm_compute. reflexivity. Qed.

(* ------------------------------------------------------------------------------------- *)
(** * The request the client prepares *)

Definition handshake_lines (key : bytes) : headers :=
  [(str "Upgrade", str "websocket"); (str "Connection", str "Upgrade");
   (str "Sec-WebSocket-Version", str "13"); (str "Sec-WebSocket-Key", key)].

Lemma prepared rnd pos h :
  fst (clientsideHandshake rnd pos h) = h ++ handshake_lines (base64 (map rnd (seq pos 16))).
Proof. unfold clientsideHandshake, generateKey, put. cbn [fst]. rewrite <- !app_assoc. reflexivity. Qed.

Lemma copy_headers_id h : copy_headers h = h.
Proof.
  unfold copy_headers.
  assert (forall h a, fold_left (fun a e => put a (fst e) (snd e)) h a = a ++ h) as E.
  { clear. induction h as [|[n v] h IH]; intros a; cbn [fold_left]; [now rewrite app_nil_r|].
    rewrite IH. unfold put. cbn [fst snd]. rewrite <- app_assoc. reflexivity. }
  apply E.
Qed.

Definition free_of_request_fields (h : headers) : Prop :=
  absent h (str "Upgrade") /\ absent h (str "Connection") /\
  absent h (str "Sec-WebSocket-Version") /\ absent h (str "Sec-WebSocket-Key").

Definition free_of_response_fields (h : headers) : Prop :=
  absent h (str "Upgrade") /\ absent h (str "Connection") /\
  absent h (str "Sec-WebSocket-Version") /\ absent h (str "Sec-WebSocket-Accept").

Lemma sole_mid h1 h2 h3 name v :
  absent h1 name -> sole h2 name v -> absent h3 name -> sole (h1 ++ h2 ++ h3) name v.
Proof.
  rewrite !absent_values, !sole_values. intros H1 H2 H3. rewrite !values_of_app, H1, H2, H3. reflexivity.
Qed.

Lemma absent_mid h1 h2 h3 name :
  absent h1 name -> absent h2 name -> absent h3 name -> absent (h1 ++ h2 ++ h3) name.
Proof.
  rewrite !absent_values. intros H1 H2 H3. rewrite !values_of_app, H1, H2, H3. reflexivity.
Qed.

Lemma lines_sole key :
  sole (handshake_lines key) (str "Upgrade") (str "websocket") /\
  sole (handshake_lines key) (str "Connection") (str "Upgrade") /\
  sole (handshake_lines key) (str "Sec-WebSocket-Version") (str "13") /\
  sole (handshake_lines key) (str "Sec-WebSocket-Key") key.
Proof. rewrite !sole_values. unfold handshake_lines. repeat split; vm_compute; reflexivity. Qed.

Lemma sole_single h name v : sole h name v -> single h name.
Proof. intros H. right. eauto. Qed.

Lemma lenN_nonce (rnd : nat -> byte) pos : lenN (map rnd (seq pos 16)) = 16.
Proof. unfold lenN. rewrite map_length, seq_length. reflexivity. Qed.

Lemma small_generated (rnd : nat -> byte) pos : small_key (base64 (map rnd (seq pos 16))).
Proof. unfold small_key. rewrite base64_length, lenN_nonce. reflexivity. Qed.

Lemma list_elements_Upgrade : list_elements (str "Upgrade") = [str "Upgrade"].
Proof. vm_compute. reflexivity. Qed.
Lemma list_elements_upgrade : list_elements (str "upgrade") = [str "upgrade"].
Proof. vm_compute. reflexivity. Qed.

Lemma token_list_Upgrade : token_list (str "Upgrade").
Proof. intros t. rewrite list_elements_Upgrade. intros [<-|[]]. vm_compute. reflexivity. Qed.
Lemma lists_Upgrade : lists_token (str "Upgrade") (str "upgrade").
Proof. exists (str "Upgrade"). rewrite list_elements_Upgrade. split; [now left|]. vm_compute. reflexivity. Qed.

(* ------------------------------------------------------------------------------------- *)
(** * C36 Both sides of this library *)

(** The client prepares a request from application headers [app]; the HTTP layers may reorder the lines and
    add lines other than handshake fields on the way ([added]); the server answers; the answer reaches the
    client with reordered and added lines ([added']); the client accepts. *)
Theorem C36_handshake_completes :
  forall H (cs cq cr : core) junk junk' rnd pos (app added added' received received' : headers) (handler : H),
  pick_ok cs -> tokens_ok cs -> pick_ok cq -> pick_ok cr ->
  free_of_request_fields app -> free_of_request_fields added -> free_of_response_fields added' ->
  let request := fst (clientsideHandshake rnd pos app) in
  Permutation received (request ++ added) ->
  exists r, serversideHandshake cs junk received handler = Answer r /\
    (Permutation received' (r_headers r ++ added') ->
     clientsideConfirmHandshake cq cr junk' request (r_status r) received' = Some STATUS_OK).
Proof.
  intros H cs cq cr junk junk' rnd pos app added added' received received' handler
    Hps Hts Hpq Hpr (A1 & A2 & A3 & A4) (B1 & B2 & B3 & B4) (D1 & D2 & D3 & D4) request Hperm.
  unfold request in *. rewrite prepared in *. clear request.
  set (key := base64 (map rnd (seq pos 16))) in *.
  rewrite <- app_assoc in Hperm. apply Permutation_sym in Hperm.
  destruct (lines_sole key) as (L1 & L2 & L3 & L4).
  assert (sole received (str "Upgrade") (str "websocket")) as S1 by (eapply sole_perm; [exact Hperm|]; apply sole_mid; auto).
  assert (sole received (str "Connection") (str "Upgrade")) as S2 by (eapply sole_perm; [exact Hperm|]; apply sole_mid; auto).
  assert (sole received (str "Sec-WebSocket-Version") (str "13")) as S3 by (eapply sole_perm; [exact Hperm|]; apply sole_mid; auto).
  assert (sole received (str "Sec-WebSocket-Key") key) as S4 by (eapply sole_perm; [exact Hperm|]; apply sole_mid; auto).
  assert (small_key key) as Hsk by (apply small_generated).
  assert (small_keys received) as Hsks.
  { intros k Hk. rewrite (sole_unique _ _ _ _ S4 Hk). assumption. }
  assert (key <> []) as Hne.
  { intros E. assert (lenN key = 24) as El by (unfold key; rewrite base64_length, lenN_nonce; reflexivity).
    rewrite E in El. discriminate. }
  destruct (C34_complete_repeated H cs junk received handler Hps Hsks) as (key' & r & Hr & Hk' & Hsp); eauto using sole_has.
  - intros u Hu. rewrite (sole_unique _ _ _ _ S1 Hu). reflexivity.
  - intros v Hv. rewrite (sole_unique _ _ _ _ S2 Hv).
    apply (Hts (str "Upgrade") (str "upgrade") token_list_Upgrade); [discriminate|apply lists_Upgrade].
  - intros v Hv. exact (sole_unique _ _ _ _ S3 Hv).
  - intros k Hk. rewrite (sole_unique _ _ _ _ S4 Hk). assumption.
  - exists r. split; [assumption|]. intros Hperm'.
    rewrite (sole_unique _ _ _ _ S4 Hk') in Hsp. destruct Hsp as (Hst & R1 & R2 & R3 & R4 & _).
    rewrite Hst. apply Permutation_sym in Hperm'.
    assert (forall n v, sole (r_headers r) n v -> absent added' n -> sole received' n v) as X.
    { intros n v Hs Ha. eapply sole_perm; [exact Hperm'|].
      apply (sole_mid [] (r_headers r) added'); auto. apply absent_values. reflexivity. }
    pose proof (X _ _ R1 D1) as T1. pose proof (X _ _ R2 D2) as T2. pose proof (X _ _ R3 D4) as T3.
    assert (absent received' (str "Sec-WebSocket-Version")) as T4.
    { eapply absent_perm; [exact Hperm'|]. apply (absent_mid [] (r_headers r) added'); auto.
      - apply absent_values. reflexivity.
      - intros v (n & Hin & Hc). apply R4 in Hin.
        destruct Hin as [<-|[<-|[<-|[]]]]; vm_compute in Hc; discriminate. }
    assert (sole (app ++ handshake_lines key) (str "Sec-WebSocket-Key") key) as Sk.
    { rewrite <- (app_nil_r (handshake_lines key)). apply sole_mid; auto. apply absent_values. reflexivity. }
    apply (C35_decision cq cr junk' (app ++ handshake_lines key) 101 received' key Hpq Hpr Sk Hsk
             (sole_single _ _ _ T1) (sole_single _ _ _ T2) (sole_single _ _ _ T3)).
    split; [reflexivity|]. split; [|now apply sole_has].
    split; [assumption|]. split; [|split].
    + exists (str "websocket"). split; [now apply sole_has|reflexivity].
    + exists (str "Upgrade"). split; [now apply sole_has|reflexivity].
    + exists (rfc_accept key). now apply sole_has.
Qed.

Definition app0 : headers := [(str "Host", str "localhost"); (str "Cookie", str "a=b")].
Example C36_nonvacuous :
  free_of_request_fields app0 /\ free_of_response_fields [(str "Server", str "oatpp")] /\
  match serversideHandshake simple_core junk0 (fst (clientsideHandshake (fun _ => x07) 0 app0)) tt with
  | Answer r => clientsideConfirmHandshake simple_core simple_core junk0
                  (fst (clientsideHandshake (fun _ => x07) 0 app0)) (r_status r) ((str "Server", str "oatpp") :: r_headers r)
                = Some STATUS_OK
  | _ => False
  end.
Proof.
  split; [|split].
  - unfold free_of_request_fields. rewrite !absent_values. vm_compute. auto.
  - unfold free_of_response_fields. rewrite !absent_values. vm_compute. auto.
  - vm_compute. reflexivity.
Qed.

(** RFC 6455 1.3: the key and accept value given there. *)
Example rfc_sample : rfc_accept (str "dGhlIHNhbXBsZSBub25jZQ==") = str "s3pPLMBiTxaQ9kYGzzhZRbK+xOo=".
Proof. vm_compute. reflexivity. Qed.

Example C34_nonvacuous :
  let h := fst (clientsideHandshake (fun _ => x07) 0 app0) in
  small_keys h /\ single h (str "Upgrade") /\ single h (str "Connection") /\
  single h (str "Sec-WebSocket-Version") /\ single h (str "Sec-WebSocket-Key") /\
  (forall v, has h (str "Connection") v -> token_list v) /\ pick_ok simple_core /\ tokens_ok simple_core.
Proof.
  intros h. assert (values_of (str "Sec-WebSocket-Key") h = [base64 (repeat x07 16)]) as Ek by (vm_compute; reflexivity).
  assert (values_of (str "Connection") h = [str "Upgrade"]) as Ec by (vm_compute; reflexivity).
  apply sole_values in Ek, Ec.
  split.
  { intros k Hk. rewrite (sole_unique _ _ _ _ Ek Hk). vm_compute. reflexivity. }
  split; [right; exists (str "websocket"); apply sole_values; vm_compute; reflexivity|].
  split; [right; eauto|].
  split; [right; exists (str "13"); apply sole_values; vm_compute; reflexivity|].
  split; [right; eauto|].
  split; [intros v Hv; rewrite (sole_unique _ _ _ _ Ec Hv); apply token_list_Upgrade|].
  split; [apply simple_core_pick|apply simple_core_tokens].
Qed.

(** A rejected request: the version is not 13. *)
Example C34_rejects :
  serversideHandshake simple_core junk0
    [(str "Upgrade", str "WebSocket"); (str "connection", str "keep-alive, Upgrade");
     (str "Sec-WebSocket-Version", str "8"); (str "sec-websocket-key", str "abc")] tt = HttpError 400 /\
  exists r, serversideHandshake simple_core junk0
    [(str "Upgrade", str "WebSocket"); (str "connection", str "keep-alive, Upgrade");
     (str "Sec-WebSocket-Version", str "13"); (str "sec-websocket-key", str "abc")] tt = Answer r.
Proof. split; [vm_compute; reflexivity|]. eexists. vm_compute. reflexivity. Qed.

(* ------------------------------------------------------------------------------------- *)
(** * C37 The response is bound to the request *)

Theorem C37_binding : forall (cq cr : core) junk (q h : headers) (status : N) (key key' : bytes),
  pick_ok cq -> pick_ok cr ->
  sole q (str "Sec-WebSocket-Key") key -> small_key key ->
  sole h (str "Sec-WebSocket-Accept") (rfc_accept key') ->
  clientsideConfirmHandshake cq cr junk q status h = Some STATUS_OK ->
  key = key' \/ (key ++ GUID <> key' ++ GUID /\ SHA1 (key ++ GUID) = SHA1 (key' ++ GUID)).
Proof.
  intros cq cr junk q h status key key' Hq Hr Hk Hsk Ha R.
  destruct (C35_sound cq cr junk q status h Hq Hr) as (_ & _ & _ & _ & k & Hk1 & Hk2); auto.
  { intros k Hk1. rewrite (sole_unique _ _ _ _ Hk Hk1). assumption. }
  rewrite (sole_unique _ _ _ _ Hk Hk1) in Hk2.
  pose proof (sole_unique _ _ _ _ Ha Hk2) as E. apply rfc_base64_inj in E.
  destruct (list_eq_dec Byte.byte_eq_dec key key') as [->|Hne]; [now left|].
  right. split; [|assumption]. intros E2. apply app_inv_tail in E2. contradiction.
Qed.

Example C37_nonvacuous :
  clientsideConfirmHandshake simple_core simple_core junk0 [(str "Sec-WebSocket-Key", str "k")] 101
    [(str "Upgrade", str "websocket"); (str "Connection", str "Upgrade");
     (str "Sec-WebSocket-Accept", rfc_accept (str "k"))] = Some STATUS_OK /\
  clientsideConfirmHandshake simple_core simple_core junk0 [(str "Sec-WebSocket-Key", str "k")] 101
    [(str "Upgrade", str "websocket"); (str "Connection", str "Upgrade");
     (str "Sec-WebSocket-Accept", rfc_accept (str "j"))] = Some STATUS_SERVER_WRONG_KEY.
Proof. split; vm_compute; reflexivity. Qed.

(* ------------------------------------------------------------------------------------- *)
(** * C39 Token lists in the response *)

(** A valid response whose Connection field is not the single token "upgrade" is always rejected. *)
Theorem C39_token_list_rejected_refuted :
  forall (cq cr : core) junk (q h : headers) (key v : bytes),
  pick_ok cq -> pick_ok cr -> sole q (str "Sec-WebSocket-Key") key -> small_key key ->
  valid_response key 101 h -> sole h (str "Connection") v -> ~ ci v (str "upgrade") ->
  clientsideConfirmHandshake cq cr junk q 101 h = Some STATUS_UNKNOWN_PROTOCOL_SUGGESTED.
Proof.
  intros cq cr junk q h key v Hq Hr Hk Hsk (_ & (u & Hu & _) & _ & Ha) Hv Hnc.
  apply (C35_decision cq cr junk q 101 h key Hq Hr Hk Hsk
           (sole_single _ _ _ Hu) (sole_single _ _ _ Hv) (sole_single _ _ _ Ha)).
  split; [reflexivity|]. intros (_ & _ & (v' & Hv' & Hc) & _).
  rewrite (sole_unique _ _ _ _ Hv Hv') in Hc. contradiction.
Qed.

(** Valid responses with the single token, and without a Sec-WebSocket-Version field, are accepted. *)
Theorem C39_single_token_partial :
  forall (cq cr : core) junk (q h : headers) (key v : bytes),
  pick_ok cq -> pick_ok cr -> sole q (str "Sec-WebSocket-Key") key -> small_key key ->
  valid_response key 101 h -> sole h (str "Connection") v -> ci v (str "upgrade") ->
  absent h (str "Sec-WebSocket-Version") ->
  clientsideConfirmHandshake cq cr junk q 101 h = Some STATUS_OK.
Proof.
  intros cq cr junk q h key v Hq Hr Hk Hsk (_ & (u & Hu & Hu') & _ & Ha) Hv Hc Hver.
  apply (C35_decision cq cr junk q 101 h key Hq Hr Hk Hsk
           (sole_single _ _ _ Hu) (sole_single _ _ _ Hv) (sole_single _ _ _ Ha)).
  split; [reflexivity|]. split; [|now apply sole_has].
  split; [assumption|]. split; [|split]; eauto using sole_has.
Qed.

Definition listed_response (key : bytes) : headers :=
  [(str "Upgrade", str "websocket"); (str "Connection", str "keep-alive, Upgrade");
   (str "Sec-WebSocket-Accept", rfc_accept key)].
Example C39_nonvacuous : forall key,
  valid_response key 101 (listed_response key) /\ sole (listed_response key) (str "Connection") (str "keep-alive, Upgrade") /\
  ~ ci (str "keep-alive, Upgrade") (str "upgrade").
Proof.
  intros key. unfold valid_response, listed_response.
  assert (forall a, values_of (str "Connection")
     [(str "Upgrade", str "websocket"); (str "Connection", str "keep-alive, Upgrade"); (str "Sec-WebSocket-Accept", a)]
     = [str "keep-alive, Upgrade"]) as Ec by (intros; vm_compute; reflexivity).
  specialize (Ec (rfc_accept key)). apply sole_values in Ec.
  assert (list_elements (str "keep-alive, Upgrade") = [str "keep-alive"; str "Upgrade"]) as El by (vm_compute; reflexivity).
  split; [split; [reflexivity|split; [|split]]|split].
  - exists (str "websocket"). split; [|reflexivity]. apply sole_values. generalize (rfc_accept key). intros a. vm_compute. reflexivity.
  - exists (str "keep-alive, Upgrade"). split; [assumption|]. split.
    + intros t. rewrite El. intros [<-|[<-|[]]]; vm_compute; reflexivity.
    + exists (str "Upgrade"). rewrite El. split; [right; now left|]. vm_compute. reflexivity.
  - apply sole_values. generalize (rfc_accept key). intros a. vm_compute. reflexivity.
  - assumption.
  - intros Hc. vm_compute in Hc. discriminate.
Qed.

(* ------------------------------------------------------------------------------------- *)
(** * C40 The connector *)

(** The request that connect sends: the caller's headers and the four handshake lines with a fresh key. *)
Definition request_of (e : env) (h : headers) : headers :=
  h ++ handshake_lines (rfc_base64 (map (e_rnd e) (seq (e_pos e) 16))).

Definition env_ok (e : env) : Prop := pick_ok (e_cq e) /\ pick_ok (e_cr e).

Lemma connect_request X e (p : peer X) path h :
  connect e p path h =
  match p_get p with
  | Got conn =>
      match p_exec p path (request_of e h) conn with
      | None => Threw
      | Some (status, rh) =>
          by_status (clientsideConfirmHandshake (e_cq e) (e_cr e) (e_junk e) (request_of e h) status rh) conn
      end
  | _ => Threw
  end.
Proof.
  unfold connect, request_of. rewrite copy_headers_id, rfc_base64_is, <- prepared.
  destruct (clientsideHandshake (e_rnd e) (e_pos e) h). destruct (p_get p); reflexivity.
Qed.

Lemma small_request e h : small_keys h -> small_keys (request_of e h).
Proof.
  intros H k (n & Hin & Hc). unfold request_of in Hin. apply in_app_iff in Hin as [Hin|Hin].
  - apply H. exists n. auto.
  - destruct Hin as [E|[E|[E|[E|[]]]]]; injection E as <- <-; try (vm_compute in Hc; discriminate).
    rewrite rfc_base64_is. apply small_generated.
Qed.

(** connect returns a connection only if it is the provider's, the peer answered the request that was
    sent with status 101 and the required fields, bound to the key sent; otherwise it throws. *)
Theorem C40_connect_sound : forall X (e : env) (p : peer X) (path : bytes) (h : headers),
  env_ok e -> small_keys h ->
  (exists conn rh key,
     connect e p path h = Connected conn /\
     p_get p = Got conn /\
     p_exec p path (request_of e h) conn = Some (101, rh) /\
     absent rh (str "Sec-WebSocket-Version") /\
     (exists u, has rh (str "Upgrade") u /\ ci u (str "websocket")) /\
     (exists v, has rh (str "Connection") v /\ ci v (str "upgrade")) /\
     has (request_of e h) (str "Sec-WebSocket-Key") key /\
     has rh (str "Sec-WebSocket-Accept") (rfc_accept key))
  \/ connect e p path h = Threw.
Proof.
  intros X e p path h [Hq Hr] Hs. rewrite connect_request.
  destruct (p_get p) as [conn| |] eqn:Eg; [|now right|now right].
  destruct (p_exec p path (request_of e h) conn) as [[status rh]|] eqn:Ex; [|now right].
  pose proof (small_request e h Hs) as Hsk.
  destruct (C35_total (e_cq e) (e_cr e) (e_junk e) (request_of e h) status rh Hq Hsk) as (s & Es & _).
  rewrite Es. destruct s; try (right; reflexivity).
  apply (C35_sound _ _ _ _ _ _ Hq Hr Hsk) in Es as (-> & Hv & Hu & Hc & key & Hk & Ha).
  left. exists conn, rh, key. repeat split; auto.
Qed.

(** The exact condition, when the caller supplies no key and the response repeats no field. *)
Theorem C40_connect_iff : forall X (e : env) (p : peer X) (path : bytes) (h : headers) (conn : X),
  env_ok e -> absent h (str "Sec-WebSocket-Key") ->
  (forall status rh, p_exec p path (request_of e h) conn = Some (status, rh) ->
     single rh (str "Upgrade") /\ single rh (str "Connection") /\ single rh (str "Sec-WebSocket-Accept")) ->
  let key := rfc_base64 (map (e_rnd e) (seq (e_pos e) 16)) in
  connect e p path h = Connected conn <->
  p_get p = Got conn /\
  exists rh, p_exec p path (request_of e h) conn = Some (101, rh) /\
     absent rh (str "Sec-WebSocket-Version") /\
     (exists u, has rh (str "Upgrade") u /\ ci u (str "websocket")) /\
     (exists v, has rh (str "Connection") v /\ ci v (str "upgrade")) /\
     has rh (str "Sec-WebSocket-Accept") (rfc_accept key).
Proof.
  intros X e p path h conn [Hq Hr] Hk Hsing key. rewrite connect_request.
  assert (sole (request_of e h) (str "Sec-WebSocket-Key") key) as Sk.
  { unfold request_of. rewrite <- (app_nil_r (handshake_lines _)). apply sole_mid; auto.
    - apply lines_sole.
    - apply absent_values. reflexivity. }
  assert (small_key key) as Hsk by (unfold key; rewrite rfc_base64_is; apply small_generated).
  split.
  - destruct (p_get p) as [c| |] eqn:Eg; try discriminate.
    destruct (p_exec p path (request_of e h) c) as [[status rh]|] eqn:Ex; try discriminate.
    destruct (clientsideConfirmHandshake _ _ _ _ _ _) as [s|] eqn:Es; [|discriminate].
    destruct s; try discriminate. cbn [by_status]. intros E. injection E as ->.
    destruct (Hsing _ _ Ex) as (S1 & S2 & S3).
    apply (C35_decision _ _ _ _ _ _ _ Hq Hr Sk Hsk S1 S2 S3) in Es as (-> & (P1 & P2 & P3 & P4) & Ha).
    split; [reflexivity|]. exists rh. auto.
  - intros (Hg & rh & Hx & Hv & Hu & Hc & Ha). rewrite Hg, Hx.
    destruct (Hsing _ _ Hx) as (S1 & S2 & S3).
    assert (clientsideConfirmHandshake (e_cq e) (e_cr e) (e_junk e) (request_of e h) 101 rh = Some STATUS_OK) as ->.
    { apply (C35_decision _ _ _ _ _ _ _ Hq Hr Sk Hsk S1 S2 S3). repeat split; eauto. }
    reflexivity.
Qed.

(** connectAsync, once its awaited coroutines have finished, has the result of connect on the same
    behaviour of provider and peer, and never another one before. *)
Theorem C40_async_same : forall X (e : env) (p : peer X) (path : bytes) (h : headers) (n : nat),
  p_get p <> GotNull ->
  (forall r, csteps n e p path (connectAsync h) = CDone r -> r = connect e p path h) /\
  ((3 <= n)%nat -> csteps n e p path (connectAsync h) = CDone (connect e p path h)).
Proof.
  intros X e p path h n Hg.
  assert (forall r m, csteps m e p path (CDone r) = CDone r) as D.
  { intros r m. induction m as [|m IH]; [reflexivity|exact IH]. }
  assert (forall m, csteps (3 + m) e p path (connectAsync h) = CDone (connect e p path h)) as E3.
  { intros m. unfold connectAsync. cbn [csteps Nat.add cstep]. unfold connect.
    destruct (p_get p) as [conn| |] eqn:Eg; [|congruence|].
    - cbn [cstep]. destruct (clientsideHandshake (e_rnd e) (e_pos e) (copy_headers h)) as [ah pos'].
      cbn [fst]. destruct (p_exec p path ah conn) as [[st rh]|]; apply D.
    - cbn [cstep]. apply D. }
  split.
  - intros r. destruct n as [|[|[|m]]].
    + discriminate.
    + discriminate.
    + unfold connectAsync. cbn [csteps cstep]. unfold connect. destruct (p_get p); congruence.
    + change (S (S (S m))) with (3 + m)%nat. rewrite E3. congruence.
  - intros Hn. replace n with (3 + (n - 3))%nat by lia. apply E3.
Qed.

(** Not so for a provider that delivers a null handle: connect throws, the coroutine uses the handle. *)
Theorem C40_async_null_handle_refuted : forall X (e : env) (p : peer X) (path : bytes) (h : headers),
  p_get p = GotNull ->
  connect e p path h = Threw /\ csteps 2 e p path (connectAsync h) = CDone ConnectUndefined.
Proof.
  intros X e p path h Hg. unfold connect, connectAsync. cbn [csteps cstep]. rewrite Hg. auto.
Qed.

Definition env0 : env := Env simple_core simple_core junk0 (fun i => n2b (N.of_nat i)) 0.
(** A peer running serversideHandshake. *)
Definition own_server : peer nat :=
  Peer (Got 5%nat) (fun _ q _ => match serversideHandshake simple_core junk0 q tt with
                                 | Answer r => Some (r_status r, r_headers r)
                                 | HttpError s => Some (s, [])
                                 | Undefined => None
                                 end).
Example C40_nonvacuous :
  env_ok env0 /\ connect env0 own_server (str "/ws") app0 = Connected 5%nat /\
  csteps 3 env0 own_server (str "/ws") (connectAsync app0) = CDone (Connected 5%nat) /\
  connect env0 (Peer (Got 5%nat) (fun _ _ _ => Some (404, []))) (str "/ws") app0 = Threw.
Proof.
  split; [split; apply simple_core_pick|]. split; [|split]; vm_compute; reflexivity.
Qed.

(* ------------------------------------------------------------------------------------- *)
(** * C41 Caller supplied headers *)

(** The request on the wire is a valid RFC 6455 opening handshake iff the caller supplied neither a
    Sec-WebSocket-Key nor a Sec-WebSocket-Version field. *)
Theorem C41_valid_iff_partial : forall (rnd : nat -> byte) (pos : nat) (h : headers),
  valid_request (fst (clientsideHandshake rnd pos h)) <->
  absent h (str "Sec-WebSocket-Key") /\ absent h (str "Sec-WebSocket-Version").
Proof.
  intros rnd pos h. rewrite prepared. set (key := base64 (map rnd (seq pos 16))).
  destruct (lines_sole key) as (L1 & L2 & L3 & L4).
  assert (forall name v w, sole (handshake_lines key) name v -> sole (h ++ handshake_lines key) name w -> absent h name) as X.
  { intros name v w H1 H2. apply sole_values in H1, H2. rewrite values_of_app, H1 in H2.
    apply absent_values. destruct (values_of name h) as [|y [|z l]]; [reflexivity|discriminate|discriminate]. }
  split.
  - intros ((nonce & _ & Hk) & Hv & _). split; eapply X; eassumption.
  - intros [Hk Hv]. unfold valid_request. split; [|split; [|split]].
    + exists (map rnd (seq pos 16)). split; [apply lenN_nonce|]. rewrite rfc_base64_is. fold key.
      rewrite <- (app_nil_r (handshake_lines key)). apply sole_mid; auto. apply absent_values. reflexivity.
    + rewrite <- (app_nil_r (handshake_lines key)). apply sole_mid; auto. apply absent_values. reflexivity.
    + exists (str "websocket"). split; [|reflexivity]. exists (str "Upgrade"). split; [|reflexivity].
      apply in_app_iff. right. now left.
    + exists (str "Upgrade"). split; [|apply lists_Upgrade]. exists (str "Connection"). split; [|reflexivity].
      apply in_app_iff. right. right. now left.
Qed.

(** So a caller-supplied key always makes the request invalid. *)
Theorem C41_caller_key_refuted : forall (rnd : nat -> byte) (pos : nat) (h : headers) (v : bytes),
  has h (str "Sec-WebSocket-Key") v -> ~ valid_request (fst (clientsideHandshake rnd pos h)).
Proof. intros rnd pos h v Hv Hval. apply C41_valid_iff_partial in Hval as [Ha _]. exact (Ha v Hv). Qed.

(** Against this library's own server: it answers, whatever the choices the C++ standard leaves to the
    header map and whatever the random source gives, iff every handshake field the caller supplied is one
    the server would accept on its own. *)
Definition picking (name_value : bytes) : core :=
  Core (fun v l => if existsb (bytes_eqb name_value) (v :: l) then name_value else v) list_elements.

Lemma picking_ok v : pick_ok (picking v) /\ tokens_ok (picking v).
Proof.
  split.
  - intros w l. unfold picking. cbn [c_pick].
    destruct (existsb (bytes_eqb v) (w :: l)) eqn:E; [|now left].
    apply existsb_exists in E as (x & Hx & Hv). apply bytes_eqb_spec in Hv. now subst.
  - intros w t _ _. reflexivity.
Qed.

Lemma picking_get v h name : has h name v -> get (picking v) h name = Some v.
Proof.
  intros H. apply values_of_In in H. unfold get. destruct (values_of name h) as [|w l]; [contradiction|].
  cbn [picking c_pick]. assert (existsb (bytes_eqb v) (w :: l) = true) as ->; [|reflexivity].
  apply existsb_exists. exists v. split; [exact H|]. now apply bytes_eqb_spec.
Qed.

Lemma has_app h h' name v : has (h ++ h') name v <-> has h name v \/ has h' name v.
Proof.
  unfold has. split.
  - intros (n & Hin & Hc). apply in_app_iff in Hin as [Hin|Hin]; [left|right]; exists n; auto.
  - intros [(n & Hin & Hc)|(n & Hin & Hc)]; exists n; rewrite in_app_iff; auto.
Qed.

Theorem C41_own_server_partial : forall (h : headers),
  small_keys h -> (forall v, has h (str "Connection") v -> token_list v) ->
  (forall c rnd pos junk, pick_ok c -> tokens_ok c ->
     exists r, serversideHandshake c junk (fst (clientsideHandshake rnd pos h)) tt = Answer r) <->
  (forall v, has h (str "Connection") v -> lists_token v (str "upgrade")) /\
  (forall u, has h (str "Upgrade") u -> ci u (str "websocket")) /\
  (forall v, has h (str "Sec-WebSocket-Version") v -> v = str "13") /\
  (forall k, has h (str "Sec-WebSocket-Key") k -> k <> []).
Proof.
  intros h Hsk Hwf.
  assert (forall key, let q := h ++ handshake_lines key in
     (forall v, has q (str "Connection") v <-> has h (str "Connection") v \/ v = str "Upgrade") /\
     (forall v, has q (str "Upgrade") v <-> has h (str "Upgrade") v \/ v = str "websocket") /\
     (forall v, has q (str "Sec-WebSocket-Version") v <-> has h (str "Sec-WebSocket-Version") v \/ v = str "13") /\
     (forall v, has q (str "Sec-WebSocket-Key") v <-> has h (str "Sec-WebSocket-Key") v \/ v = key)) as Q.
  { intros key q. destruct (lines_sole key) as (L1 & L2 & L3 & L4).
    assert (forall name w, sole (handshake_lines key) name w -> forall v, has q name v <-> has h name v \/ v = w) as X.
    { intros name w Hs v. unfold q. rewrite has_app. split; (intros [Hh|Hl]; [now left|right]).
      - eapply sole_unique; eassumption.
      - subst. now apply sole_has. }
    repeat split; try (apply X; assumption); auto. all: intros HH; apply (X _ _ ltac:(eassumption)) in HH || apply (X _ _ ltac:(eassumption)); assumption. }
  split.
  - intros Hall.
    assert (forall name v, has h name v -> exists r, 
       serversideHandshake (picking v) (Sha [] [] 0) (fst (clientsideHandshake (fun _ => x00) 0 h)) tt = Answer r /\
       get (picking v) (fst (clientsideHandshake (fun _ => x00) 0 h)) name = Some v) as P.
    { intros name v Hv. destruct (picking_ok v) as [P1 P2].
      destruct (Hall (picking v) (fun _ => x00) 0%nat (Sha [] [] 0) P1 P2) as [r Hr]. exists r. split; [exact Hr|].
      apply picking_get. rewrite prepared, has_app. now left. }
    repeat split; intros v Hv; destruct (P _ _ Hv) as (r & Hr & Hg); unfold serversideHandshake in Hr;
      change UPGRADE with (str "Upgrade") in Hr at 1; change CONNECTION with (str "Connection") in Hr at 1;
      rewrite Hg in Hr.
    all: repeat match type of Hr with context [match get ?a ?b ?c with _ => _ end] => destruct (get a b c) eqn:?; [|discriminate Hr] end.
    all: destruct (_ && _)%bool eqn:EA; [|discriminate]; apply andb_true_iff in EA as [EA1 EA2].
    all: destruct (existsb _ _) eqn:EB; [|discriminate].
    all: destruct (bytes_eqb _ (str "13")) eqn:EC; [|discriminate].
    + apply existsb_exists in EB as (t & Ht & Hc). exists t. split; [exact Ht|]. apply ci_eqb_spec in Hc. exact Hc.
    + now apply ci_eqb_spec.
    + now apply bytes_eqb_spec.
    + intros ->. discriminate EA1.
  - intros (H1 & H2 & H3 & H4) c rnd pos junk Hp Ht. rewrite prepared.
    set (key := base64 (map rnd (seq pos 16))). destruct (Q key) as (Q1 & Q2 & Q3 & Q4).
    assert (key <> []) as Hne.
    { intros E. assert (lenN key = 24) as Hl by (unfold key; rewrite base64_length, lenN_nonce; reflexivity). rewrite E in Hl. discriminate Hl. }
    destruct (C34_complete_repeated unit c junk (h ++ handshake_lines key) tt Hp) as (k & r & Hr & _).
    + intros k Hk. apply Q4 in Hk as [Hk| ->]; [now apply Hsk|]. apply small_generated.
    + exists (str "websocket"). apply Q2. now right.
    + intros u Hu. apply Q2 in Hu as [Hu| ->]; [now apply H2|reflexivity].
    + exists (str "Upgrade"). apply Q1. now right.
    + intros v Hv. assert (token_list v /\ lists_token v (str "upgrade")) as [W1 W2].
      { apply Q1 in Hv as [Hv| ->]; [now split; [apply Hwf|apply H1]|]. split; [|apply lists_Upgrade].
        intros t Hin. vm_compute in Hin. destruct Hin as [<-|[]]. vm_compute. reflexivity. }
      apply (Ht v (str "upgrade") W1) in W2; [exact W2|discriminate].
    + exists (str "13"). apply Q3. now right.
    + intros v Hv. apply Q3 in Hv as [Hv| ->]; [now apply H3|reflexivity].
    + exists key. apply Q4. now right.
    + intros k Hk. apply Q4 in Hk as [Hk| ->]; [now apply H4|exact Hne].
    + now exists r.
Qed.

(** So a harmless-looking Connection: keep-alive (or any other list without "upgrade") makes this
    library's own server refuse with HTTP 400, for one of the choices left to the header map; and for that
    choice it does so whatever the random source gives. *)
Theorem C41_own_server_refuted : forall (h : headers) (v : bytes),
  has h (str "Connection") v -> ~ lists_token v (str "upgrade") ->
  exists c, pick_ok c /\ tokens_ok c /\
    forall rnd pos junk, serversideHandshake c junk (fst (clientsideHandshake rnd pos h)) tt = HttpError 400.
Proof.
  intros h v Hv Hn. destruct (picking_ok v) as [P1 P2]. exists (picking v). split; [exact P1|]. split; [exact P2|].
  intros rnd pos junk. rewrite prepared.
  unfold serversideHandshake. change CONNECTION with (str "Connection") at 1.
  rewrite (picking_get v _ (str "Connection")) by (apply has_app; left; exact Hv).
  destruct (get _ _ UPGRADE); [|reflexivity]. destruct (get _ _ (str "Sec-WebSocket-Version")); [|reflexivity].
  destruct (get _ _ (str "Sec-WebSocket-Key")); [|reflexivity]. destruct (_ && _)%bool; [|reflexivity].
  destruct (existsb _ _) eqn:E; [|reflexivity]. exfalso. apply Hn.
  apply existsb_exists in E as (t & Ht & Hc). exists t. split; [exact Ht|]. apply ci_eqb_spec in Hc. exact Hc.
Qed.

Example C41_own_nonvacuous :
  let h := [(str "Connection", str "keep-alive")] in
  has h (str "Connection") (str "keep-alive") /\ ~ lists_token (str "keep-alive") (str "upgrade") /\ small_keys h /\
  (forall v, has h (str "Connection") v -> token_list v) /\
  forall rnd pos junk, serversideHandshake simple_core junk (fst (clientsideHandshake rnd pos h)) tt = HttpError 400.
Proof.
  intros h. split; [exists (str "Connection"); split; [now left|reflexivity]|]. split.
  { intros (t & Hin & Hc). vm_compute in Hin. destruct Hin as [<-|[]]. vm_compute in Hc. discriminate. }
  split. { intros k (n & [E|[]] & Hc). injection E as <- <-. vm_compute in Hc. discriminate. }
  split.
  { intros v (n & [E|[]] & Hc). injection E as <- <-. intros t Hin. vm_compute in Hin. destruct Hin as [<-|[]]. vm_compute. reflexivity. }
  intros rnd pos junk. rewrite prepared. unfold h.
  set (key := base64 _). assert (lenN key = 24) as Hl by (unfold key; rewrite base64_length, lenN_nonce; reflexivity).
  unfold serversideHandshake, get.
  assert (forall k, values_of (str "Sec-WebSocket-Key") ([(str "Connection", str "keep-alive")] ++ handshake_lines k) = [k]) as -> by (intros; vm_compute; reflexivity).
  assert (forall k, values_of (str "Sec-WebSocket-Version") ([(str "Connection", str "keep-alive")] ++ handshake_lines k) = [str "13"]) as -> by (intros; vm_compute; reflexivity).
  assert (forall k, values_of UPGRADE ([(str "Connection", str "keep-alive")] ++ handshake_lines k) = [str "websocket"]) as -> by (intros; vm_compute; reflexivity).
  assert (forall k, values_of CONNECTION ([(str "Connection", str "keep-alive")] ++ handshake_lines k) = [str "keep-alive"; str "Upgrade"]) as -> by (intros; vm_compute; reflexivity).
  cbn [c_pick c_tokens simple_core]. rewrite Hl. vm_compute. reflexivity.
Qed.

Example C41_nonvacuous : absent app0 (str "Sec-WebSocket-Key") /\ absent app0 (str "Sec-WebSocket-Version") /\
  has [(str "sec-websocket-key", str "x")] (str "Sec-WebSocket-Key") (str "x").
Proof.
  rewrite !absent_values. split; [|split]; try (vm_compute; reflexivity).
  exists (str "sec-websocket-key"). split; [now left|]. vm_compute. reflexivity.
Qed.
