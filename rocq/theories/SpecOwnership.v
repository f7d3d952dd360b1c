(** Vocabulary for C93: listener code that replaces its own listener. *)
From Verif Require Import Bytes Frame World WebSocket.

(** In this call, listener [l] makes the socket forget it and does something afterwards. *)
Definition saws_off (react : react_t) (l : nat) (log : list (nat * event)) : Prop :=
  exists first x rest, react l log = first ++ CSetListener x :: rest /\ x <> Some l /\ rest <> [].
(** The calls made, [log], end with such a call of a listener nobody else keeps. *)
Definition died_running (kept : nat -> bool) (react : react_t) (log : list (nat * event)) : Prop :=
  exists before l ev, log = before ++ [(l, ev)] /\ kept l = false /\ saws_off react l log.
