(** Vocabulary for C90: an executor that runs methods of several coroutines of one asynchronous socket at the same time, on different threads. *)
From Verif Require Import Bytes Frame World WebSocket AsyncWebSocket Coroutines.
Local Open Scope N_scope.

(** What coroutines of a socket share: the socket's fields m_config, m_listener, m_lastOpcode (AsyncWebSocket.hpp:138-141), the connection's incoming and
    outgoing side, and the random source. *)
Inductive cell := FConfig | FListener | FLast | Incoming | Outgoing | Random.
(** [w], but for what is in [c], which is as in [v]. *)
Definition with_cell (c : cell) (v w : world) : world :=
  match c with
  | FConfig => set_sock w (set_config (w_sock w) (s_mask (w_sock v)) (s_buf (w_sock v)))
  | FListener => set_sock w (set_listener (w_sock w) (s_listener (w_sock v)))
  | FLast => set_sock w (set_last (w_sock w) (s_last (w_sock v)))
  | Incoming => set_in w (w_in v)
  | Outgoing => set_wr w (w_out v) (w_wr v)
  | Random => World (w_in w) (w_wr w) (w_out w) (w_rnd v) (w_rpos v) (w_log w) (w_sock w)
  end.

Section Parallel.
Variable react : react_t.
(** The next method of coroutine [k] leaves [c] alone: whatever is there is there afterwards, and it makes no difference to anything else. *)
Definition ignores (k : task) (w : world) (c : cell) : Prop :=
  forall v, ktick react k (with_cell c v w) = (fst (ktick react k w), with_cell c v (snd (ktick react k w))).
(** Whatever is in [c] is there afterwards. *)
Definition preserves (k : task) (w : world) (c : cell) : Prop :=
  forall v, let w' := snd (ktick react k (with_cell c v w)) in with_cell c v w' = w'.
(** Two coroutines are about to access [c], one of them to write it. *)
Definition race_on (c : cell) (s : crowd_t) : Prop :=
  exists i j, i <> j /\ ~ preserves (fst s i) (snd s) c /\ ~ ignores (fst s j) (snd s) c.
(** Running the next methods of [i] and [j] one after the other has the same effect in either order. *)
Definition commute (i j : nat) (s : crowd_t) : Prop :=
  let a := kstep react (CTick j) (kstep react (CTick i) s) in
  let b := kstep react (CTick i) (kstep react (CTick j) s) in
  (forall m, fst a m = fst b m) /\ snd a = snd b.
End Parallel.

(** A coroutine is in the middle of a send. *)
Definition sending (k : task) : bool := match k_stack k with CoSend _ _ _ _ _ :: _ | CoWrite _ _ :: _ => true | _ => false end.
