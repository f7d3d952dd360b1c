(** Specification vocabulary: input that arrives later. *)
From Verif Require Import Bytes World.

(** The same world, whose connection will also do [t] after everything it does in [w]. *)
Definition more (t : list rev) (w : world) : world := set_in w (w_in w ++ t).
