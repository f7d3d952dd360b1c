(** What RFC 6455 section 4 (and RFC 7230 for header fields) says, independent of the code. *)
From Coq Require Import String Permutation.
From Verif Require Import Bytes SpecSha1 SpecBase64 Base64 Handshake.
Local Open Scope N_scope.

(** Equality ignoring ASCII case: equal when a-z are replaced by A-Z. *)
Definition upper (b : byte) : byte := if (97 <=? b2n b) && (b2n b <=? 122) then n2b (b2n b - 32) else b.
Definition ci (a b : bytes) : Prop := map upper a = map upper b.

(** The header set contains the field [name] with the value [v]. *)
Definition has (h : headers) (name v : bytes) : Prop := exists n, In (n, v) h /\ ci name n.
Definition absent (h : headers) (name : bytes) : Prop := forall v, ~ has h name v.
(** The field occurs in exactly one line, with the value [v]. *)
Definition sole (h : headers) (name v : bytes) : Prop :=
  exists l1 n l2, h = l1 ++ (n, v) :: l2 /\ ci name n /\ absent l1 name /\ absent l2 name.
(** The field occurs in at most one line. *)
Definition single (h : headers) (name : bytes) : Prop := absent h name \/ exists v, sole h name v.

(** RFC 6455 1.3/4.2.2: Sec-WebSocket-Accept for a key. *)
Definition GUID : bytes := str "258EAFA5-E914-47DA-95CA-C5AB0DC85B11".
Definition rfc_accept (key : bytes) : bytes := rfc_base64 (SHA1 (key ++ GUID)).

(** The freedom of the core: [find] returns one of the entries. *)
Definition pick_ok (c : core) : Prop := forall v l, In (c_pick c v l) (v :: l).

(** RFC 7230 section 7: comma separated list, elements trimmed of spaces and tabs. *)
Fixpoint split_on (sep : byte) (cur : bytes) (l : bytes) : list bytes :=
  match l with
  | [] => [cur]
  | b :: r => if Byte.eqb b sep then cur :: split_on sep [] r else split_on sep (cur ++ [b]) r
  end.
Definition is_ows (b : byte) : bool := Byte.eqb b x20 || Byte.eqb b x09.
Fixpoint trim_left (l : bytes) : bytes :=
  match l with b :: r => if is_ows b then trim_left r else l | [] => [] end.
Definition trim (l : bytes) : bytes := rev (trim_left (rev (trim_left l))).
Definition list_elements (v : bytes) : list bytes := map trim (split_on x2c [] v).

(** tchar of RFC 7230 3.2.6: letters, digits and !#$%&'*+-.^_`|~ *)
Definition is_tchar (b : byte) : bool :=
  let n := b2n b in
  ((48 <=? n) && (n <=? 57)) || ((65 <=? n) && (n <=? 90)) || ((97 <=? n) && (n <=? 122)) ||
  existsb (Byte.eqb b) (str "!#$%&'*+-.^_`|~").
(** A well-formed list of tokens (empty elements allowed). *)
Definition token_list (v : bytes) : Prop := forall t, In t (list_elements v) -> forallb is_tchar t = true.
Definition lists_token (v t : bytes) : Prop := exists t', In t' (list_elements v) /\ ci t t'.

(** The parser of the core: on well-formed lists its token set has the elements of the list. *)
Definition tokens_ok (c : core) : Prop :=
  forall v t, token_list v -> t <> [] ->
    ((exists t', In t' (c_tokens c v) /\ ci t t') <-> lists_token v t).

(** A core that meets both contracts. *)
Definition simple_core : core := Core (fun v _ => v) list_elements.

Lemma simple_core_pick : pick_ok simple_core.
Proof. intros v l. now left. Qed.
Lemma simple_core_tokens : tokens_ok simple_core.
Proof. intros v t _ _. reflexivity. Qed.

(** RFC 6455 4.1: what a client's opening handshake must contain (as far as the library sets it):
    exactly one Sec-WebSocket-Key that is the Base64 encoding of 16 bytes, exactly one
    Sec-WebSocket-Version with the value 13, an Upgrade field with "websocket" and a Connection field
    with the token "Upgrade". *)
Definition valid_request (h : headers) : Prop :=
  (exists nonce, lenN nonce = 16 /\ sole h (str "Sec-WebSocket-Key") (rfc_base64 nonce)) /\
  sole h (str "Sec-WebSocket-Version") (str "13") /\
  (exists u, has h (str "Upgrade") u /\ ci u (str "websocket")) /\
  (exists v, has h (str "Connection") v /\ lists_token v (str "upgrade")).

(** RFC 6455 4.1: what a client must accept, given the key it sent: status 101, one Upgrade field equal to
    "websocket", one Connection field listing the token "upgrade", and the accept value. *)
Definition valid_response (key : bytes) (status : N) (h : headers) : Prop :=
  status = 101 /\
  (exists u, sole h (str "Upgrade") u /\ ci u (str "websocket")) /\
  (exists v, sole h (str "Connection") v /\ token_list v /\ lists_token v (str "upgrade")) /\
  sole h (str "Sec-WebSocket-Accept") (rfc_accept key).
