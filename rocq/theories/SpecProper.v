(** Vocabulary for C102: what a listener may be handed at all. *)
From Verif Require Import Bytes Frame World WebSocket.
Local Open Scope N_scope.

(** Data comes with the opcode of a text, binary or continuation frame (0 to 2) and is never empty; a control frame's payload has at
    most 125 bytes (RFC 6455 5.5), so a close reason at most 123; a close code is a 16-bit number. *)
Definition proper (ev : event) : Prop :=
  match ev with
  | EvMsg op d => op <= 2 /\ d <> []
  | EvEnd op => op <= 2
  | EvPing m | EvPong m => lenN m <= 125
  | EvClose c m => c < 65536 /\ lenN m <= 123
  end.
(** [l] is [l0] and proper calls after it. *)
Definition properly (l0 l : list (nat * event)) : Prop := exists new, l = l0 ++ new /\ Forall (fun x => proper (snd x)) new.
