(** Specification vocabulary for servers with one thread per connection: what concerns one connection. *)
From Verif Require Import Bytes Frame World WebSocket SpecSend SpecListen Lifecycle Server SpecServer ThreadServer.

(** What the application sees of a connection, and what its peer has been sent. *)
Definition bview (i : nat) (s : bserver) : list seen_ev := flat_map (seen_of i) (b_log s).
Definition phase_world (x : bphase) : world := match x with PNew w | PReady w | PListen _ w | POver w | PStuck w => w end.
Definition bsent_to (i : nat) (s : bserver) : bytes := w_out (phase_world (b_phase s i)).

Definition bconcerns (i : nat) (e : bev) : bool :=
  match e with
  | BSet _ => true
  | BConn j _ _ | BArrive j _ | BRun j => Nat.eqb j i
  end.
Definition bown (i : nat) (evs : list bev) : list bev := filter (bconcerns i) evs.
Definition bno_conn (i : nat) (evs : list bev) : Prop := forall p b, ~ In (BConn i p b) evs.
(** Everything that has arrived on connection [i]. *)
Definition barrived (i : nat) (evs : list bev) : list rev :=
  flat_map (fun e => match e with BArrive j s => if Nat.eqb j i then s else [] | _ => [] end) evs.
(** The socket instance listener installed after [evs]. *)
Definition binstance (evs : list bev) : option nat := fold_left (fun l e => match e with BSet l' => l' | _ => l end) evs None.

(** Instance listener code that cannot fail: sends with the exception caught, and sets the socket up. *)
Definition gentle_cmd (c : cmd) : Prop :=
  match c with CSend catch op => catch = true /\ (lenN (req_payload op) < 2 ^ 31)%N | CThrow | CDemand _ _ _ => False | _ => True end.
