(** C63: connecting to a server that uses this library. *)
From Coq Require Import String Permutation.
From Verif Require Import Bytes Sha1 Base64 Handshake SpecSha1 PropSha1 SpecBase64 ProofBase64 SpecHandshake PropHandshake PropHandshake2.
From Coq Require Import Lia.
Local Open Scope N_scope.

(** The peer behind connection [conn] runs this library's serversideHandshake with a [handler] for upgraded connections, for
    requests to [path]; the HTTP layers on both sides may reorder header lines and add lines other than handshake fields. *)
Definition runs_library_server {X H} (cs : core) (junk : sha) (handler : H) (p : peer X) (path : bytes) (conn : X) : Prop :=
  forall request, exists added received, free_of_request_fields added /\ Permutation received (request ++ added) /\
  match serversideHandshake cs junk received handler with
  | Answer r => exists added' received', free_of_response_fields added' /\ Permutation received' (r_headers r ++ added') /\
                  p_exec p path request conn = Some (r_status r, received')
  | HttpError s => exists body_headers, p_exec p path request conn = Some (s, body_headers)
  | Undefined => True
  end.

(** connect and connectAsync return the provider's connection, whatever the random source gives, whatever the application's
    own headers are (as long as they are not handshake fields); and the server's answer hands the connection to its handler. *)
Theorem C63_connects : forall X H (e : env) (cs : core) (junk : sha) (handler : H) (p : peer X) (path : bytes) (h : headers) (conn : X),
  env_ok e -> pick_ok cs -> tokens_ok cs -> free_of_request_fields h ->
  p_get p = Got conn -> runs_library_server cs junk handler p path conn ->
  connect e p path h = Connected conn /\
  (forall n, (3 <= n)%nat -> csteps n e p path (connectAsync h) = CDone (Connected conn)) /\
  exists added received r, Permutation received (request_of e h ++ added) /\ serversideHandshake cs junk received handler = Answer r /\
    r_status r = 101 /\ r_upgrade r = Some handler.
Proof.
  intros X H e cs junk handler p path h conn [Hq Hr] Hps Hts Hf Hg Hp.
  destruct (Hp (request_of e h)) as (added & received & A1 & A2 & A3).
  assert (request_of e h = fst (clientsideHandshake (e_rnd e) (e_pos e) h)) as Hreq by (unfold request_of; now rewrite ProofBase64.rfc_base64_is, prepared).
  pose proof (C36_handshake_completes H cs (e_cq e) (e_cr e) junk (e_junk e) (e_rnd e) (e_pos e) h added) as HC.
  assert (exists r, serversideHandshake cs junk received handler = Answer r) as [r Er].
  { destruct (HC [] received [] handler Hps Hts Hq Hr Hf A1) as (r & E & _).
    - repeat split; apply absent_values; reflexivity.
    - rewrite <- Hreq. exact A2.
    - eauto. }
  rewrite Er in A3. destruct A3 as (added' & received' & B1 & B2 & B3).
  assert (connect e p path h = Connected conn) as HX.
  { rewrite connect_request, Hg, B3. destruct (HC added' received received' handler Hps Hts Hq Hr Hf A1 B1) as (r' & E' & HS).
    - rewrite <- Hreq. exact A2.
    - rewrite Er in E'. injection E' as <-. rewrite Hreq. rewrite (HS B2). reflexivity. }
  split; [exact HX|]. split.
  - intros n Hn. rewrite <- HX. apply C40_async_same; [rewrite Hg; discriminate|exact Hn].
  - exists added, received, r. split; [exact A2|]. split; [exact Er|].
    unfold serversideHandshake in Er.
    destruct (get cs received UPGRADE), (get cs received CONNECTION), (get cs received (str "Sec-WebSocket-Version")), (get cs received (str "Sec-WebSocket-Key")); try discriminate.
    destruct (_ && _)%bool; [|discriminate]. destruct (existsb _ _); [|discriminate]. destruct (bytes_eqb _ _); [|discriminate].
    destruct (accept_value _ _); [|discriminate]. injection Er as <-. split; reflexivity.
Qed.
Print Assumptions C63_connects.

Example C63_nonvacuous :
  env_ok env0 /\ free_of_request_fields app0 /\
  runs_library_server simple_core junk0 tt own_server (str "/ws") 5%nat /\
  connect env0 own_server (str "/ws") app0 = Connected 5%nat.
Proof.
  split; [split; apply simple_core_pick|]. split; [|split].
  - repeat split; apply absent_values; vm_compute; reflexivity.
  - intros q. exists [], q. split; [repeat split; apply absent_values; reflexivity|]. rewrite app_nil_r. split; [apply Permutation_refl|].
    cbn [own_server p_exec]. destruct (serversideHandshake simple_core junk0 q tt) as [r|s|].
    + exists [], (r_headers r). split; [repeat split; apply absent_values; reflexivity|]. rewrite app_nil_r. split; [apply Permutation_refl|reflexivity].
    + exists []. reflexivity.
    + exact I.
  - apply C40_nonvacuous.
Qed.
