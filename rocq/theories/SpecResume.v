(** Vocabulary for C95: an application that calls listen() again whenever it has returned, until the peer has closed. *)
From Verif Require Import Bytes Frame World WebSocket SpecFrame.

Definition is_close (e : nat * event) : bool := match snd e with EvClose _ _ => true | _ => false end.
(** Among the calls after the first [n] there is one of onClose. *)
Definition closed_since (n : nat) (log : list (nat * event)) : bool := existsb is_close (skipn n log).

(** At most [n] calls of listen(). *)
Fixpoint listen_again (n : nat) (react : react_t) (w : world) : outcome unit * world :=
  match n with
  | O => (Ret tt, w)
  | S n =>
    match listen react w with
    | (Ret _, w') => if closed_since (length (w_log w)) (w_log w') then (Ret tt, w') else listen_again n react w'
    | r => r
    end
  end.

(** The stream contains nothing this library refuses. *)
Definition nothing_refused (opn : bool) (bs : bytes) : Prop := match stream_ending opn bs with Rejected _ => False | _ => True end.
