(** Model of src/oatpp-websocket/Handshaker.cpp, Utils.cpp:31-40 (generateKey) and Connector.cpp. *)
From Verif Require Import Bytes Sha1 Base64.
From Coq Require Import String.
Local Open Scope N_scope.

(* ------------------------------------------------------------------------------------- *)
(** * oatpp core, contracts *)

(** ASCII case folding, as used by StringKeyLabelCI. *)
Definition lower (b : byte) : byte :=
  if (65 <=? b2n b) && (b2n b <=? 90) then n2b (b2n b + 32) else b.
Fixpoint bytes_eqb (a b : bytes) : bool :=
  match a, b with
  | [], [] => true
  | x :: a', y :: b' => Byte.eqb x y && bytes_eqb a' b'
  | _, _ => false
  end.
Definition ci_eqb (a b : bytes) : bool := bytes_eqb (map lower a) (map lower b).

(** oatpp::web::protocol::http::Headers: an unordered multimap from names (compared ignoring ASCII case)
    to values; the list is its iteration order.  [put] adds an entry and never replaces one. *)
Definition headers := list (bytes * bytes).
Definition put (h : headers) (name value : bytes) : headers := h ++ [(name, value)].

(** What the core leaves open: [c_pick v l] is the entry that [find] on the multimap returns when the
    values for a name are [v :: l] (unspecified by C++ when there are several); [c_tokens] is the token
    set that Parser::parseHeaderValueData(data, value, ',') computes. *)
Record core := Core { c_pick : bytes -> list bytes -> bytes; c_tokens : bytes -> list bytes }.

(** Headers::get / getAsMemoryLabel: the value found, or none. *)
Definition values_of (name : bytes) (h : headers) : list bytes :=
  map snd (filter (fun e => ci_eqb name (fst e)) h).
Definition get (c : core) (h : headers) (name : bytes) : option bytes :=
  match values_of name h with
  | [] => None
  | v :: l => Some (c_pick c v l)
  end.

(** Header::UPGRADE, Header::CONNECTION, Header::Value::CONNECTION_UPGRADE of the core. *)
Definition UPGRADE : bytes := str "Upgrade".
Definition CONNECTION : bytes := str "Connection".
Definition CONNECTION_UPGRADE : bytes := str "Upgrade".

(* ------------------------------------------------------------------------------------- *)
(** * Handshaker.cpp *)

(** Handshaker.cpp:34 *)
Definition MAGIC_UUID : bytes := str "258EAFA5-E914-47DA-95CA-C5AB0DC85B11".

(** Handshaker.cpp:52-55 and 104-107: key + MAGIC_UUID, SHA1, Base64 ([junk]: memory of the new SHA1
    object).  [None] is undefined behaviour; proved unreachable. *)
Definition accept_value (junk : sha) (key : bytes) : option bytes :=
  match sha_update (key ++ MAGIC_UUID) (sha_new junk) with
  | None => None
  | Some s => match sha_final s with None => None | Some (d, _) => Some (base64 d) end
  end.

(** outgoing::Response as far as the handshake sets it. *)
Record response (H : Type) := Response { r_status : N; r_headers : headers; r_upgrade : option H }.
Arguments Response {H}. Arguments r_status {H}. Arguments r_headers {H}. Arguments r_upgrade {H}.

Inductive server_result (H : Type) :=
| Answer (r : response H)
| HttpError (status : N)       (* throw HttpError(status, ...) *)
| Undefined.
Arguments Answer {H}. Arguments HttpError {H}. Arguments Undefined {H}.

(** Handshaker.cpp:36-80 serversideHandshake. *)
Definition serversideHandshake {H} (c : core) (junk : sha) (requestHeaders : headers) (handler : H)
  : server_result H :=
  let version := get c requestHeaders (str "Sec-WebSocket-Version") in
  let upgrade := get c requestHeaders UPGRADE in
  let connection := get c requestHeaders CONNECTION in
  let key := get c requestHeaders (str "Sec-WebSocket-Key") in
  match upgrade, connection, version, key with
  | Some upgrade, Some connection, Some version, Some key =>
      if (0 <? lenN key) && ci_eqb upgrade (str "websocket") then
        if existsb (fun t => ci_eqb CONNECTION_UPGRADE t) (c_tokens c connection) then
          if bytes_eqb version (str "13") then
            match accept_value junk key with
            | None => Undefined
            | Some accept =>
                Answer (Response 101
                          (put (put (put [] UPGRADE (str "websocket"))
                                    CONNECTION CONNECTION_UPGRADE)
                               (str "Sec-WebSocket-Accept") accept)
                          (Some handler))
            end
          else HttpError 400
        else HttpError 400
      else HttpError 400
  | _, _, _, _ => HttpError 400
  end.

(** Utils.cpp:35-39 generateKey: 16 bytes of the random source from position [pos] on, encoded. *)
Definition generateKey (rnd : nat -> byte) (pos : nat) : bytes * nat :=
  (base64 (map rnd (seq pos 16)), (pos + 16)%nat).

(** Handshaker.cpp:82-87 clientsideHandshake. *)
Definition clientsideHandshake (rnd : nat -> byte) (pos : nat) (requestHeaders : headers) : headers * nat :=
  let '(key, pos') := generateKey rnd pos in
  (put (put (put (put requestHeaders UPGRADE (str "websocket"))
                 CONNECTION CONNECTION_UPGRADE)
            (str "Sec-WebSocket-Version") (str "13"))
       (str "Sec-WebSocket-Key") key, pos').

(** Handshaker.hpp:49-64 *)
Inductive client_status := STATUS_OK | STATUS_SERVER_ERROR | STATUS_SERVER_WRONG_KEY | STATUS_UNKNOWN_PROTOCOL_SUGGESTED.

(** Handshaker.cpp:89-123 clientsideConfirmHandshake.  [cq], [cr]: the core on the request map and on the
    response map (two different maps).  [None]: undefined behaviour. *)
Definition clientsideConfirmHandshake (cq cr : core) (junk : sha)
  (clientHandshakeHeaders : headers) (status : N) (responseHeaders : headers) : option client_status :=
  if status =? 101 then
    let version := get cr responseHeaders (str "Sec-WebSocket-Version") in
    let upgrade := get cr responseHeaders UPGRADE in
    let connection := get cr responseHeaders CONNECTION in
    let websocketAccept := get cr responseHeaders (str "Sec-WebSocket-Accept") in
    let clientKey := get cq clientHandshakeHeaders (str "Sec-WebSocket-Key") in
    match version, upgrade, connection, websocketAccept, clientKey with
    | None, Some upgrade, Some connection, Some websocketAccept, Some clientKey =>
        if ci_eqb upgrade (str "websocket") && ci_eqb connection (str "upgrade") then
          match accept_value junk clientKey with
          | None => None
          | Some a => if bytes_eqb a websocketAccept then Some STATUS_OK else Some STATUS_SERVER_WRONG_KEY
          end
        else Some STATUS_UNKNOWN_PROTOCOL_SUGGESTED
    | _, _, _, _, _ => Some STATUS_UNKNOWN_PROTOCOL_SUGGESTED
    end
  else Some STATUS_SERVER_ERROR.

(* ------------------------------------------------------------------------------------- *)
(** * Connector.cpp *)

(** The connection provider's and the peer's behaviour: [p_get]: ConnectionProvider::get()/getAsync()
    gives a connection, a null handle or fails; [p_exec path request conn]: HttpRequestExecutor::execute
    with method GET sends [request] and gives the peer's response, or throws. *)
Inductive got (X : Type) := Got (x : X) | GotNull | GotFailure.
Arguments Got {X}. Arguments GotNull {X}. Arguments GotFailure {X}.
Record peer (X : Type) := Peer {
  p_get : got X;
  p_exec : bytes -> headers -> X -> option (N * headers)
}.
Arguments Peer {X}. Arguments p_get {X}. Arguments p_exec {X}.

Inductive connect_result (X : Type) :=
| Connected (conn : X)
| Threw                        (* an exception leaves connect() / the coroutine fails *)
| ConnectUndefined.            (* undefined behaviour *)
Arguments Connected {X}. Arguments Threw {X}. Arguments ConnectUndefined {X}.

(** The randomness and memory contents during one connect call. *)
Record env := Env { e_cq : core; e_cr : core; e_junk : sha; e_rnd : nat -> byte; e_pos : nat }.

(** Connector.cpp:47-52 (and 92-96): copying the caller's headers, entry by entry. *)
Definition copy_headers (h : headers) : headers := fold_left (fun a e => put a (fst e) (snd e)) h [].

(** Connector.cpp:58-69 (and 117-127): what follows from the status. *)
Definition by_status {X} (s : option client_status) (conn : X) : connect_result X :=
  match s with
  | None => ConnectUndefined
  | Some STATUS_OK => Connected conn
  | Some STATUS_SERVER_ERROR => Threw
  | Some STATUS_SERVER_WRONG_KEY => Threw
  | Some STATUS_UNKNOWN_PROTOCOL_SUGGESTED => Threw
  end.

(** Connector.cpp:37-71 connect. *)
Definition connect {X} (e : env) (p : peer X) (path : bytes) (h : headers) : connect_result X :=
  match p_get p with
  | GotFailure => Threw
  | GotNull => Threw
  | Got conn =>
      let '(allHeaders, _) := clientsideHandshake (e_rnd e) (e_pos e) (copy_headers h) in
      match p_exec p path allHeaders conn with
      | None => Threw
      | Some (status, rh) =>
          by_status (clientsideConfirmHandshake (e_cq e) (e_cr e) (e_junk e) allHeaders status rh) conn
      end
  end.

(** Connector.cpp:73-134 connectAsync: the coroutine as a machine; one step per method call.  A step of
    [CWaitConnection]/[CWaitResponse] happens when the awaited coroutine has finished. *)
Inductive cstate (X : Type) :=
| CAct (h : headers)                        (* act() not called yet; m_handshakeHeaders *)
| CWaitConnection (h : headers)             (* getAsync() running *)
| CWaitResponse (h : headers) (conn : X)    (* executeAsync() running *)
| CDone (r : connect_result X).
Arguments CAct {X}. Arguments CWaitConnection {X}. Arguments CWaitResponse {X}. Arguments CDone {X}.

Definition cstep {X} (e : env) (p : peer X) (path : bytes) (s : cstate X) : cstate X :=
  match s with
  | CAct h => CWaitConnection h                                   (* Connector.cpp:99-101 *)
  | CWaitConnection h =>                                          (* Connector.cpp:103-113 *)
      match p_get p with
      | GotFailure => CDone Threw
      | GotNull => CDone ConnectUndefined     (* no check: a ConnectionProxy around a null handle is used *)
      | Got conn => CWaitResponse (fst (clientsideHandshake (e_rnd e) (e_pos e) h)) conn
      end
  | CWaitResponse h conn =>                                       (* Connector.cpp:115-128 *)
      match p_exec p path h conn with
      | None => CDone Threw
      | Some (status, rh) =>
          CDone (by_status (clientsideConfirmHandshake (e_cq e) (e_cr e) (e_junk e) h status rh) conn)
      end
  | CDone r => CDone r
  end.

(** Connector.cpp:84-97, 132: the coroutine object that connectAsync starts. *)
Definition connectAsync {X} (h : headers) : cstate X := CAct (copy_headers h).

Fixpoint csteps {X} (n : nat) (e : env) (p : peer X) (path : bytes) (s : cstate X) : cstate X :=
  match n with O => s | S n' => csteps n' e p path (cstep e p path s) end.
