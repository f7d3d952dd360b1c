(** Specification vocabulary: full duplex. At each of two endpoints one coroutine awaits a sequence of send...Async calls and
    another one is in listenAsync, both on the same AsyncWebSocket object, so that they share its fields, the connection and the random
    source. The network delivers bytes in order. *)
From Verif Require Import Bytes Frame World WebSocket AsyncWebSocket SpecFrame SpecSend SpecListen SpecApi SpecReply SpecAsync SpecNet.
Local Open Scope N_scope.

(** The coroutine's own state on the shared world. *)
Definition on (w : world) (sc : status * conf) : status * conf :=
  (fst sc, Conf (c_hdr (snd sc)) (c_short (snd sc)) (c_stack (snd sc)) w).

(** One endpoint: two coroutines, one world (the [c_world]s in [p_tx] and [p_rx] are not used). *)
Record peer := Peer { p_tx : status * conf; p_rx : status * conf; p_world : world }.
Definition tick_tx (p : peer) : peer :=
  let sc := tick watch (on (p_world p) (p_tx p)) in Peer sc (p_rx p) (c_world (snd sc)).
Definition tick_rx (p : peer) : peer :=
  let sc := tick watch (on (p_world p) (p_rx p)) in Peer (p_tx p) sc (c_world (snd sc)).
Definition receive (seg : bytes) (p : peer) : peer :=
  match seg with
  | [] => p
  | b :: bs => Peer (p_tx p) (p_rx p) (set_in (p_world p) (w_in (p_world p) ++ [RData b bs]))
  end.

Record duplex := Duplex { d_a : peer; d_b : peer; d_ab : nat; d_ba : nat }.
Inductive dev := TxA | RxA | TxB | RxB | NetAB (k : nat) | NetBA (k : nat).
Definition dstep (s : duplex) (e : dev) : duplex :=
  match e with
  | TxA => Duplex (tick_tx (d_a s)) (d_b s) (d_ab s) (d_ba s)
  | RxA => Duplex (tick_rx (d_a s)) (d_b s) (d_ab s) (d_ba s)
  | TxB => Duplex (d_a s) (tick_tx (d_b s)) (d_ab s) (d_ba s)
  | RxB => Duplex (d_a s) (tick_rx (d_b s)) (d_ab s) (d_ba s)
  | NetAB k =>
    let seg := segment k (d_ab s) (w_out (p_world (d_a s))) in
    Duplex (d_a s) (receive seg (d_b s)) (d_ab s + length seg) (d_ba s)
  | NetBA k =>
    let seg := segment k (d_ba s) (w_out (p_world (d_b s))) in
    Duplex (receive seg (d_a s)) (d_b s) (d_ab s) (d_ba s + length seg)
  end.
Definition peer_start (ops : list sendop) (w : world) : peer := Peer (ARun, start_sends ops w) (ARun, start_listen w) w.
Definition drun (opsa opsb : list sendop) (evs : list dev) (wa wb : world) : duplex :=
  fold_left dstep evs (Duplex (peer_start opsa wa) (peer_start opsb wb) 0 0).

Definition dkind (e : dev) : nat := match e with TxA => 0 | RxA => 1 | TxB => 2 | RxB => 3 | NetAB _ => 4 | NetBA _ => 5 end.
Definition dfair (f : nat -> dev) : Prop := forall k, (k < 6)%nat -> forall n, exists m, (n <= m)%nat /\ dkind (f m) = k.
Definition dupto (f : nat -> dev) (n : nat) : list dev := map f (seq 0 n).

(** The network of SpecNet with both coroutines of the client on one socket. *)
Record snet := SNet { o_client : peer; o_srv : status * conf; o_up : nat; o_down : nat }.
Definition sstep (rs : react_t) (s : snet) (e : nev) : snet :=
  match e with
  | TickTx => SNet (tick_tx (o_client s)) (o_srv s) (o_up s) (o_down s)
  | TickSrv => SNet (o_client s) (tick rs (o_srv s)) (o_up s) (o_down s)
  | TickRx => SNet (tick_rx (o_client s)) (o_srv s) (o_up s) (o_down s)
  | Up k =>
    let seg := segment k (o_up s) (w_out (p_world (o_client s))) in
    SNet (o_client s) (deliver seg (o_srv s)) (o_up s + length seg) (o_down s)
  | Down k =>
    let seg := segment k (o_down s) (w_out (c_world (snd (o_srv s)))) in
    SNet (receive seg (o_client s)) (o_srv s) (o_up s) (o_down s + length seg)
  end.
Definition srun (rs : react_t) (evs : list nev) (ops : list sendop) (wc ws : world) : snet :=
  fold_left (sstep rs) evs (SNet (peer_start ops wc) (ARun, start_listen ws) 0 0).
