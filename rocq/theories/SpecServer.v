(** Specification vocabulary for servers: what concerns one connection. *)
From Verif Require Import Bytes Frame World WebSocket AsyncWebSocket Lifecycle Server.

(** What the application sees of one connection. *)
Inductive seen_ev :=
| NCreate (l p : nat)             (* onAfterCreate_NonBlocking(params p) of socket instance listener l *)
| NListen                         (* listenAsync *)
| NCall (l : nat) (ev : event)    (* a call of listener l *)
| NDestroy (l : nat).             (* onBeforeDestroy_NonBlocking of socket instance listener l *)
Definition seen_of (i : nat) (e : sev) : list seen_ev :=
  match e with
  | SLife (EvAfterCreate l s p) => if Nat.eqb (k_conn s) i then [NCreate l p] else []
  | SLife (EvListen s) => if Nat.eqb (k_conn s) i then [NListen] else []
  | SLife (EvBeforeDestroy l s) => if Nat.eqb (k_conn s) i then [NDestroy l] else []
  | SCall j l ev => if Nat.eqb j i then [NCall l ev] else []
  end.
Definition view (i : nat) (s : server) : list seen_ev := flat_map (seen_of i) (v_log s).
(** What its peer has been sent. *)
Definition sent_to (i : nat) (s : server) : bytes := w_out (c_world (snd (v_run s i))).

(** The events that concern connection [i]. *)
Definition concerns (i : nat) (e : vev) : bool :=
  match e with
  | VSet _ => true
  | VConn j _ | VStep j | VArrive j _ | VDrop j => Nat.eqb j i
  end.
Definition own (i : nat) (evs : list vev) : list vev := filter (concerns i) evs.

Definition no_conn (i : nat) (evs : list vev) : Prop := forall p, ~ In (VConn i p) evs.
Definition no_drop (i : nat) (evs : list vev) : Prop := ~ In (VDrop i) evs.
Definition no_arrival (i : nat) (evs : list vev) : Prop := forall s, ~ In (VArrive i s) evs.
(** Everything that has arrived on connection [i]. *)
Definition arrived (i : nat) (evs : list vev) : list rev :=
  flat_map (fun e => match e with VArrive j s => if Nat.eqb j i then s else [] | _ => [] end) evs.
Definition steps_of (i : nat) (evs : list vev) : nat :=
  length (filter (fun e => match e with VStep j => Nat.eqb j i | _ => false end) evs).
(** The socket instance listener installed after [evs]. *)
Definition instance_listener (evs : list vev) : option nat :=
  fold_left (fun l e => match e with VSet l' => l' | _ => l end) evs None.

(** The socket that instance listener's [setup] gives a new connection. *)
Definition served_sock (xs : list ext) : sock := fold_left (fun k x =>
    match x with
    | XStop => set_listening k false
    | XSetListener l => set_listener k l
    | XSetConfig m b => set_config k m b
    end) xs (sock_new false).
Definition created (l : option nat) (p : nat) : list seen_ev := match l with Some l => [NCreate l p] | None => [] end.
Definition destroyed (l : option nat) : list seen_ev := match l with Some l => [NDestroy l] | None => [] end.
Definition called (log : list (nat * event)) : list seen_ev := map (fun c => NCall (fst c) (snd c)) log.
(** What socket instance listener [l], if there is one, does with the new socket of a connection with parameters [p], and with a socket that is about to be destroyed. *)
Definition hello (setup : nat -> nat -> list cmd) (l : option nat) (p : nat) : list cmd := match l with Some l => setup l p | None => [] end.
Definition bye (farewell : nat -> list cmd) (l : option nat) : list cmd := match l with Some l => farewell l | None => [] end.
(** The same for asynchronous servers: setListener and setConfig calls, or an exception. *)
Definition plan (setup : nat -> nat -> option (list ext)) (l : option nat) (p : nat) : option (list ext) := match l with Some l => setup l p | None => Some [] end.
(** A coroutine has returned or failed. *)
Definition ended (st : status) : bool := match st with ADone | AFail _ => true | _ => false end.
