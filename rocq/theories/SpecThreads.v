(** Vocabulary for C69-C71: what happens to a blocking socket while other threads use it (Threads.v). *)
From Verif Require Import Bytes Frame World WebSocket SpecFrame SpecListen Threads.
Local Open Scope N_scope.

(** The notifications of the socket, in order, whether or not somebody was there to receive them. *)
Definition calls (t : list tev) : list event :=
  flat_map (fun e => match e with TCall _ ev => [ev] | _ => [] end) t.
(** The listener installed after [t], if it was [l] before. *)
Definition current (l : option nat) (t : list tev) : option nat :=
  fold_left (fun l e => match e with TOther (XSetListener l') => l' | TInstall l' => l' | _ => l end) t l.
(** stopListening has been called since listen() began. *)
Definition stopped (t : list tev) : bool :=
  fold_left (fun b e => match e with TListen => false | TOther XStop | TStop => true | _ => b end) t false.

(** The socket on its own, listening: one listener, [0], that only takes notes; the application calls iterateFrame [n] times with one and the
    same header object, until a Close frame. *)
Definition taking_notes : react_t := fun _ _ => [].
Fixpoint read_frames (n : nat) (h : header) : M header :=
  match n with
  | O => ret h
  | S n => (h' <- iterateFrame taking_notes h ;; if h_opcode h' =? 8 then ret h' else read_frames n h')%m
  end.
Definition on_its_own (w : world) : world :=
  World (w_in w) [] [] (fun _ => x00) 0 [] (set_listening (set_listener (w_sock w) (Some 0%nat)) true).

(** Nobody calls setConfig; no other thread calls anything but [ok] calls. *)
Definition no_config_cmd (c : cmd) : Prop := match c with CSetConfig _ _ => False | _ => True end.
Definition others (ok : ext -> Prop) (xss : list (list ext)) : Prop := Forall (Forall ok) xss.
(** Listener code that cannot fail as long as writes make progress. *)
Definition harmless_cmd (c : cmd) : Prop :=
  match c with CSetListener _ => True | _ => polite_cmd c end.
(** Nobody takes the listener away. *)
Definition no_null (x : ext) : Prop := match x with XSetListener None => False | _ => True end.
