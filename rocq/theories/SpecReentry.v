(** Specification for C101_which_listening: which of several nested listenings a Close frame ends. *)
From Verif Require Import Bytes Frame World WebSocket Object SpecFrame SpecListen SpecObject.
Local Open Scope N_scope.

(** Code that calls listenAsync exactly once whatever happens, makes no other call than sending and does not throw. *)
Fixpoint listens_once {S} (c : code S) : Prop :=
  match c with
  | Finish | Throws => False
  | Load k => forall s, listens_once (k s)
  | Store _ k => listens_once k
  | Do AListen k => forall r, every false only_sends (k r)
  | Do a k => only_sends a /\ forall r, listens_once (k r)
  end.
(** Listeners that listen again on every ping, and only then. *)
Definition listens_on_ping {S} (obj : object S) : Prop := forall l ev,
  match ev with EvPing _ => listens_once (obj l ev) | _ => every false only_sends (obj l ev) end.
(** [d] listenings inside the outermost one; a ping starts another one, a Close ends the innermost. The frames up to the Close that ends the
    outermost one; None if there is no such Close. *)
Fixpoint outermost (d : nat) (fs : list (lform * frame)) : option (list (lform * frame)) :=
  match fs with
  | [] => None
  | f :: r =>
    option_map (cons f) (if f_opcode (snd f) =? 9 then outermost (S d) r
                         else if f_opcode (snd f) =? 8 then match d with O => Some [] | S d' => outermost d' r end
                         else outermost d r)
  end.
