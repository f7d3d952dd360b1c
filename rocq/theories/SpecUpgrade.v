(** Vocabulary for C92: from the handshake to listening. *)
From Verif Require Import Bytes Frame World WebSocket SpecFrame SpecSend SpecListen SpecApi SpecAccept SpecEndToEnd Handshake Upgrade.
Local Open Scope N_scope.

(** [s] is the header section of an HTTP message: it ends with an empty line, for the first time. *)
Definition blank (s : bytes) : Prop := exists a, s = a ++ [x0d; x0a; x0d; x0a].
Definition header_section (s : bytes) : Prop := blank s /\ forall a b, s = a ++ b -> blank a -> b = [].

(** A client socket on a connection, with listener [l]. *)
Definition client_on (l : nat) (w : world) : world := set_sock w (set_listener (sock_new true) (Some l)).
(** connect() succeeds on the connection [w] (the coroutine of connectAsync with it: C40); a socket made of the connection it returned then listens
    and its listener is told [os]. *)
Definition client_told (parse : bytes -> option (N * headers)) (n : Z) (e : env) (path : bytes) (h : headers) (react : react_t) (l : nat) (w : world) (os : list obs) : Prop :=
  connect e (over parse n w) path h = Connected tt /\
  (forall k, (3 <= k)%nat -> csteps k e (over parse n w) path (connectAsync h) = CDone (Connected tt)) /\
  exists o w', listen react (client_on l (handed_over n w)) = (o, w') /\ transcript (w_log w') = os.
(** The response [section] is one connect() is content with. *)
Definition acceptable (parse : bytes -> option (N * headers)) (e : env) (path : bytes) (h : headers) (section : bytes) : Prop :=
  connect e (Peer (Got tt) (fun _ _ _ => parse section)) path h = Connected tt.
