(** Specification vocabulary: asynchronous endpoints connected by a network.

    A client whose application coroutine awaits a sequence of send...Async calls, a server in listenAsync, and the
    client's listenAsync. (The client's two coroutines run on one socket; here each has its own copy, as sending uses
    only the random source and the write side, listening only the read side and the last opcode.) The executors and the network are free to interleave in any way: every event is one executor
    step of one coroutine, or the delivery of some of the bytes one side has written to the other side, in order. *)
From Verif Require Import Bytes Frame World WebSocket AsyncWebSocket SpecFrame SpecSend SpecListen SpecApi SpecReply SpecAsync.
Local Open Scope N_scope.

(** An application coroutine that awaits the send coroutines of [ops] one after the other. *)
Definition start_sends (ops : list sendop) (w : world) : conf := Conf header_init [] [CoUser (map (CSend false) ops) false] w.

(** A listener that only takes notes. *)
Definition watch : react_t := fun _ _ => [].

Record net := Net {
  n_tx : status * conf;      (* the client's sending coroutine *)
  n_srv : status * conf;     (* the server *)
  n_rx : status * conf;      (* the client's listening coroutine *)
  n_up : nat;                (* bytes delivered from the client to the server *)
  n_down : nat               (* bytes delivered from the server to the client *)
}.

Inductive nev := TickTx | TickSrv | TickRx | Up (k : nat) | Down (k : nat).

(** The next bytes on their way, at most k + 1 of them. *)
Definition segment (k done : nat) (out : bytes) : bytes := firstn (S k) (skipn done out).
Definition deliver (seg : bytes) (sc : status * conf) : status * conf :=
  match seg with
  | [] => sc
  | b :: bs => (fst sc, arrive [RData b bs] (snd sc))
  end.

Definition nstep (rs rx : react_t) (s : net) (e : nev) : net :=
  match e with
  | TickTx => Net (tick watch (n_tx s)) (n_srv s) (n_rx s) (n_up s) (n_down s)
  | TickSrv => Net (n_tx s) (tick rs (n_srv s)) (n_rx s) (n_up s) (n_down s)
  | TickRx => Net (n_tx s) (n_srv s) (tick rx (n_rx s)) (n_up s) (n_down s)
  | Up k =>
    let seg := segment k (n_up s) (w_out (c_world (snd (n_tx s)))) in
    Net (n_tx s) (deliver seg (n_srv s)) (n_rx s) (n_up s + length seg) (n_down s)
  | Down k =>
    let seg := segment k (n_down s) (w_out (c_world (snd (n_srv s)))) in
    Net (n_tx s) (n_srv s) (deliver seg (n_rx s)) (n_up s) (n_down s + length seg)
  end.
Definition nrun (rs rx : react_t) (evs : list nev) (s : net) : net := fold_left (nstep rs rx) evs s.

(** A connected pair: nothing sent, nothing received yet. *)
Definition net_start (ops : list sendop) (wt ws wr : world) : net :=
  Net (ARun, start_sends ops wt) (ARun, start_listen ws) (ARun, start_listen wr) 0 0.
Definition idle (w : world) : Prop :=
  w_in w = [] /\ w_out w = [] /\ w_log w = [] /\ healthy (w_wr w) /\ s_listening (w_sock w) = false /\
  s_last (w_sock w) = (-1)%Z /\ (0 < s_buf (w_sock w))%Z.

(** An infinite schedule in which every coroutine and both directions of the network go on. *)
Definition kind (e : nev) : nat := match e with TickTx => 0 | TickSrv => 1 | TickRx => 2 | Up _ => 3 | Down _ => 4 end.
Definition fair (f : nat -> nev) : Prop := forall k, (k < 5)%nat -> forall n, exists m, (n <= m)%nat /\ kind (f m) = k.
Definition upto (f : nat -> nev) (n : nat) : list nev := map f (seq 0 n).
