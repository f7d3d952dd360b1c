(** Vocabulary for C71 with several threads: what may still be told once somebody has called stopListening. *)
From Verif Require Import Bytes Frame World WebSocket SpecProcess Process.

(** What a listener is told of one frame, or the last part of it: a part of the data and perhaps the end of the message, or one
    ping, pong or close. *)
Definition of_one_frame (l : list event) : Prop :=
  (exists op ds, l = map (EvMsg op) ds \/ l = map (EvMsg op) ds ++ [EvEnd op]) \/
  (exists m, l = [EvPing m]) \/ (exists m, l = [EvPong m]) \/ (exists code m, l = [EvClose code m]).

(** Thread [i] is about to call stopListening; or to assign m_listening = false there, in a callback or in a sending call that has
    failed. *)
Definition about_to_stop (i : nat) (s : system) : Prop :=
  (exists cs, fst (fst s i) = pexec_cmds (CStop :: cs)) \/
  (exists k, fst (fst s i) = PExt XStop k) \/ (exists k, fst (fst s i) = PStop k).
