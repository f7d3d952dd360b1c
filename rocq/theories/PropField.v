(** Property theorems: C94, what the handshake puts on the wire on behalf of the peer or the application. *)
From Coq Require Import String ZifyBool ZifyNat ZifyN.
From Verif Require Import Bytes Sha1 Base64 Handshake SpecSha1 SpecBase64 SpecHandshake SpecField ProofBase64.
Local Open Scope N_scope.

Lemma b64char_ok v : v < 64 -> base64_char (b64char v).
Proof.
  intros Hv.
  assert (forallb (fun i => existsb (Byte.eqb (b64char (N.of_nat i))) (str "ABCDEFGHIJKLMNOPQRSTUVWXYZabcdefghijklmnopqrstuvwxyz0123456789+/=")) (seq 0 64) = true) as H
    by (vm_compute; reflexivity).
  rewrite forallb_forall in H. specialize (H (N.to_nat v)). rewrite N2Nat.id in H.
  apply existsb_exists in H as (x & Hx & E); [|apply in_seq; lia]. apply Byte.byte_dec_bl in E. rewrite E. exact Hx.
Qed.
Lemma pad_ok : base64_char pad_char.
Proof. unfold base64_char. apply in_or_app with (l := alphabet) (m := [x3d]). right. now left. Qed.
Lemma base64_chars l : Forall base64_char (base64 l).
Proof.
  pose proof (fun b => b2n_lt b) as Hb.
  induction l as [|a|a b|a b c r IH] using three_ind; cbn [base64]; cbv zeta.
  - constructor.
  - pose proof (Hb a). repeat (apply Forall_cons || apply Forall_nil); try apply pad_ok; apply b64char_ok; try (apply N.mod_lt; lia). apply N.div_lt_upper_bound; lia.
  - pose proof (Hb a). pose proof (Hb b). repeat (apply Forall_cons || apply Forall_nil); try apply pad_ok; apply b64char_ok; try (apply N.mod_lt; lia). apply N.div_lt_upper_bound; lia.
  - pose proof (Hb a). pose proof (Hb b). pose proof (Hb c). apply Forall_app. split; [|exact IH].
    repeat (apply Forall_cons || apply Forall_nil); apply b64char_ok; try (apply N.mod_lt; lia). apply N.div_lt_upper_bound; lia.
Qed.

Lemma transform_five block st : length (s_digest (transform block st)) = 5%nat.
Proof. unfold transform, transform_digest. cbn [s_digest length]. reflexivity. Qed.
Lemma words_length l : lenN (flat_map (be_enc 4) l) = 4 * lenN l.
Proof. induction l as [|x l IH]; [reflexivity|]. cbn [flat_map]. rewrite lenN_app, lenN_be_enc, IH, lenN_cons. lia. Qed.
Lemma final_length st d st' : sha_final st = Some (d, st') -> lenN d = 20.
Proof.
  unfold sha_final. destruct (buffer_to_block _) as [block|]; [|discriminate]. destruct (if 56 <? _ then _ else _) as [st2 block2].
  cbv zeta. generalize (bset (bset block2 15 (((s_transforms st * 64 + lenN (s_buffer st)) * 8) mod 2 ^ 64 mod M32)) 14 (N.shiftr (((s_transforms st * 64 + lenN (s_buffer st)) * 8) mod 2 ^ 64) 32 mod M32)).
  intros block3 H. pose proof (transform_five block3 st2) as T. revert H T. generalize (transform block3 st2). intros st3 H T.
  apply (f_equal (option_map fst)) in H. cbn [option_map fst] in H. assert (d = flat_map (be_enc 4) (s_digest st3)) as -> by congruence.
  rewrite words_length. unfold lenN. rewrite T. reflexivity.
Qed.
Lemma accept_shape junk key accept : accept_value junk key = Some accept -> lenN accept = 28 /\ Forall base64_char accept.
Proof.
  unfold accept_value. destruct (sha_update _ _) as [s|]; [|discriminate]. destruct (sha_final s) as [[d s']|] eqn:E; [|discriminate].
  intros H. injection H as <-. split; [|apply base64_chars]. rewrite base64_length. apply final_length in E. rewrite E. reflexivity.
Qed.

(** * C94 *)
(** Whatever the request says, the response has these three header fields; the only value that depends on the request is 28 characters of the Base64 alphabet. *)
Theorem C94_response : forall H (c : core) junk (request : headers) (handler : H) r,
  serversideHandshake c junk request handler = Answer r ->
  exists accept, r_headers r = [(str "Upgrade", str "websocket"); (str "Connection", str "Upgrade"); (str "Sec-WebSocket-Accept", accept)] /\
    lenN accept = 28 /\ Forall base64_char accept.
Proof.
  intros H c junk q handler r. unfold serversideHandshake.
  destruct (get c q UPGRADE); [|discriminate]. destruct (get c q CONNECTION); [|discriminate]. destruct (get c q (str "Sec-WebSocket-Version")); [|discriminate].
  destruct (get c q (str "Sec-WebSocket-Key")) as [key|]; [|discriminate]. destruct (_ && _)%bool; [|discriminate]. destruct (existsb _ _); [|discriminate].
  destruct (bytes_eqb _ _); [|discriminate]. destruct (accept_value junk key) as [accept|] eqn:E; [|discriminate]. intros X. injection X as <-.
  exists accept. split; [reflexivity|]. now apply accept_shape in E.
Qed.
Print Assumptions C94_response.

(** What the client adds to the headers of the application: the key is 24 such characters. *)
Theorem C94_request : forall rnd pos (given : headers) sent pos',
  clientsideHandshake rnd pos given = (sent, pos') ->
  exists key, sent = given ++ [(str "Upgrade", str "websocket"); (str "Connection", str "Upgrade"); (str "Sec-WebSocket-Version", str "13"); (str "Sec-WebSocket-Key", key)] /\
    lenN key = 24 /\ Forall base64_char key.
Proof.
  intros rnd pos given sent pos' E. unfold clientsideHandshake, generateKey in E. exists (base64 (map rnd (seq pos 16))).
  assert (lenN (base64 (map rnd (seq pos 16))) = 24) as Hl by (rewrite base64_length; unfold lenN; rewrite map_length, seq_length; reflexivity).
  pose proof (base64_chars (map rnd (seq pos 16))) as Hc. revert E Hl Hc. generalize (base64 (map rnd (seq pos 16))). intros key E Hl Hc.
  split; [|now split]. apply (f_equal fst) in E. cbn [fst] in E. rewrite <- E. unfold put. rewrite <- !app_assoc. reflexivity.
Qed.
Print Assumptions C94_request.

Lemma base64_one_line v : Forall base64_char v -> one_line v.
Proof.
  intros H. rewrite Forall_forall in H.
  split; intros Hi; apply H in Hi; vm_compute in Hi; repeat (destruct Hi as [Hi|Hi]; [discriminate Hi|]); exact Hi.
Qed.
Ltac plain := split; intros Hi; vm_compute in Hi; repeat (destruct Hi as [Hi|Hi]; [discriminate Hi|]); exact Hi.
Lemma response_clean H (c : core) junk request (handler : H) r : serversideHandshake c junk request handler = Answer r -> Forall clean_field (r_headers r).
Proof.
  intros E. apply C94_response in E as (accept & -> & _ & Ha). apply base64_one_line in Ha.
  repeat constructor; cbn [fst snd]; try exact (proj1 Ha); try exact (proj2 Ha); plain || idtac.
  all: intros Hi; vm_compute in Hi; repeat (destruct Hi as [Hi|Hi]; [discriminate Hi|]); exact Hi.
Qed.
Lemma request_clean rnd pos given sent pos' : Forall clean_field given -> clientsideHandshake rnd pos given = (sent, pos') -> Forall clean_field sent.
Proof.
  intros Hg E. apply C94_request in E as (key & -> & _ & Ha). apply base64_one_line in Ha. apply Forall_app. split; [exact Hg|].
  repeat constructor; cbn [fst snd]; try exact (proj1 Ha); try exact (proj2 Ha).
  all: intros Hi; vm_compute in Hi; repeat (destruct Hi as [Hi|Hi]; [discriminate Hi|]); exact Hi.
Qed.

(** An empty line occurs only at the end of lines. *)
Definition text (ls : list bytes) : bytes := flat_map (fun l => l ++ [CR; LF]) ls ++ [CR; LF].
Lemma text_end : forall ls a b, Forall (fun l => l <> [] /\ one_line l) ls -> text ls = a ++ [CR; LF; CR; LF] ++ b -> b = [].
Proof.
  induction ls as [|l ls IH]; intros a b Hf E.
  - destruct a as [|? [|? a]]; try discriminate. cbn in E. injection E as _ _ E. destruct a; discriminate.
  - apply Forall_cons_iff in Hf as [[Hn [Hc Hl]] Hf].
    assert (text (l :: ls) = l ++ CR :: LF :: text ls) as Et by (unfold text; cbn [flat_map]; rewrite <- !app_assoc; reflexivity).
    rewrite Et in E. clear Et Hn.
    revert a E. induction l as [|x l IHl]; intros a E.
    + cbn [app] in E. destruct a as [|y [|z a]].
      * cbn in E. injection E as E. destruct ls as [|l2 ls]; [cbn in E; injection E as <-; reflexivity|].
        apply Forall_cons_iff in Hf as [[Hn [Hc2 _]] _]. destruct l2 as [|q l2]; [congruence|]. cbn in E. injection E as E _. destruct Hc2. left. exact E.
      * cbn in E. injection E as _ E _. discriminate E.
      * cbn in E. injection E as _ _ E. exact (IH a b Hf E).
    + destruct a as [|y a].
      * cbn in E. injection E as E _. destruct Hc. left. exact E.
      * cbn in E. injection E as _ E. apply (IHl (fun K => Hc (or_intror K)) (fun K => Hl (or_intror K)) a E).
Qed.
Lemma head_text start h : head start h = text (start :: map (fun e => fst e ++ str ": " ++ snd e) h).
Proof.
  unfold head, text. cbn [flat_map]. rewrite <- !app_assoc. do 2 f_equal. f_equal.
  induction h as [|[n v] h IH]; [reflexivity|]. cbn [flat_map map fst snd]. now rewrite IH, <- !app_assoc.
Qed.
Lemma one_line_app a b : one_line a -> one_line b -> one_line (a ++ b).
Proof. intros [] []. split; intros Hi; apply in_app_or in Hi; tauto. Qed.
Lemma head_end start h a b : start <> [] -> one_line start -> Forall clean_field h -> head start h = a ++ [CR; LF; CR; LF] ++ b -> b = [].
Proof.
  intros Hs H1 Hf E. rewrite head_text in E. apply (text_end _ _ _) in E; [exact E|]. constructor; [now split|].
  apply Forall_map. eapply Forall_impl; [|exact Hf]. intros [n v] [Hn Hv]. cbn [fst snd] in *. split.
  - destruct n; discriminate.
  - apply one_line_app; [exact Hn|]. apply one_line_app; [plain|exact Hv].
Qed.

(** Response splitting: no request makes the head of the response end before its end. *)
Theorem C94_no_splitting : forall H (c : core) junk (request : headers) (handler : H) r start a b,
  serversideHandshake c junk request handler = Answer r -> start <> [] -> one_line start ->
  head start (r_headers r) = a ++ [CR; LF; CR; LF] ++ b -> b = [].
Proof. intros H c junk q handler r start a b E Hs H1 Hh. exact (head_end start _ a b Hs H1 (response_clean H c junk q handler r E) Hh). Qed.
Print Assumptions C94_no_splitting.

(** The same for the request, if the application's own fields are clean. *)
Theorem C94_request_no_splitting : forall rnd pos (given : headers) sent pos' start a b, Forall clean_field given ->
  clientsideHandshake rnd pos given = (sent, pos') -> start <> [] -> one_line start ->
  head start sent = a ++ [CR; LF; CR; LF] ++ b -> b = [].
Proof. intros rnd pos given sent pos' start a b Hg E Hs H1 Hh. exact (head_end start _ a b Hs H1 (request_clean rnd pos given sent pos' Hg E) Hh). Qed.
Print Assumptions C94_request_no_splitting.

(** A request whose key tries to add a line to the response is answered with an ordinary response. *)
Definition evil_key : bytes := str "x" ++ [CR; LF; CR; LF] ++ str "GET / HTTP/1.1".
Definition evil_request : headers :=
  [(str "Upgrade", str "websocket"); (str "Connection", str "Upgrade"); (str "Sec-WebSocket-Version", str "13"); (str "Sec-WebSocket-Key", evil_key)].
Lemma head_ends start h : exists a, h <> [] -> head start h = a ++ [CR; LF; CR; LF].
Proof.
  destruct h as [|e h]; [exists []; congruence|]. destruct (exists_last (l := e :: h)) as (h' & [n v] & E); [discriminate|].
  exists (start ++ [CR; LF] ++ flat_map (fun e => fst e ++ str ": " ++ snd e ++ [CR; LF]) h' ++ n ++ str ": " ++ v). intros _. rewrite E. unfold head. rewrite flat_map_app. cbn [flat_map fst snd].
  rewrite <- !app_assoc. reflexivity.
Qed.
Example C94_nonvacuous : exists r, serversideHandshake simple_core (Sha [] [] 0) evil_request tt = Answer r /\
  (exists a, head (str "HTTP/1.1 101 Switching Protocols") (r_headers r) = a ++ [CR; LF; CR; LF] ++ []) /\
  one_line (str "HTTP/1.1 101 Switching Protocols").
Proof.
  destruct (serversideHandshake simple_core (Sha [] [] 0) evil_request tt) as [r|n|] eqn:E.
  - exists r. split; [reflexivity|]. split; [|plain]. destruct (head_ends (str "HTTP/1.1 101 Switching Protocols") (r_headers r)) as [a Ha]. exists a. rewrite app_nil_r. apply Ha.
    apply C94_response in E as (accept & -> & _). discriminate.
  - exfalso. assert (match serversideHandshake simple_core (Sha [] [] 0) evil_request tt with Answer _ => true | _ => false end = true) as X by (vm_compute; reflexivity). rewrite E in X. discriminate.
  - exfalso. assert (match serversideHandshake simple_core (Sha [] [] 0) evil_request tt with Answer _ => true | _ => false end = true) as X by (vm_compute; reflexivity). rewrite E in X. discriminate.
Qed.
