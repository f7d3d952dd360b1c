(** Vocabulary for C87: a client and a server, both of this library, on one connection. *)
From Verif Require Import Bytes Frame World WebSocket SpecFrame SpecSend SpecListen SpecApi SpecAccept.
Local Open Scope N_scope.

(** The socket of [w], its connection working, makes the sending calls [ops]; [arrives] is what comes out at the other end: the bytes written,
    in any pieces, with retries. *)
Definition carried (w : world) (ops : list sendop) (arrives : list rev) : Prop :=
  healthy (w_wr w) /\ Forall (fits (s_mask (w_sock w))) ops /\ clean arrives /\
  exists w', send_all ops w = (Ret tt, w') /\ w_out w' = w_out w ++ bytes_of arrives.
(** The frames sent end the listening of the other side. *)
Definition finishes (ops : list sendop) : bool := match snd (understood false ops) with AllRead => false | _ => true end.
(** What a listener on a new socket is told. *)
Definition told_of (ops : list sendop) : list obs := fst (understood false ops).
(** A socket on which no message is in fragments so far calls listen(), having received [b] in any pieces; its listener [l], and what that does
    is polite. [new] are the calls made. *)
Definition listens_to (b : bytes) (react : react_t) (w : world) (l : nat) (new : list (nat * event)) : Prop :=
  good react w /\ open_of (w_sock w) = false /\ s_listener (w_sock w) = Some l /\ bytes_of (w_in w) = b /\
  exists o w', listen react w = (o, w') /\ w_log w' = w_log w ++ new.
