(** Several coroutines on one asynchronous socket: one listens (AsyncWebSocket.cpp:428-458), the others send (AsyncWebSocket.cpp:462-573)
    and call setListener (AsyncWebSocket.hpp:205-207) and setConfig (AsyncWebSocket.cpp:54-56). The executor runs one method of one coroutine after the other
    (the contract of oatpp::async in AsyncWebSocket.v); several worker threads of the executor running methods of different coroutines at the
    same time: PropParallel.v. Shared are the connection, the random source and the fields of the socket; frame headers, message buffers and
    coroutine objects belong to one coroutine. *)
From Verif Require Import Bytes Frame World WebSocket AsyncWebSocket.
Local Open Scope N_scope.

(** A coroutine with the coroutines it has started ([k_hdr], [k_short]: c_hdr and c_short of AsyncWebSocket.v). *)
Record task := Task { k_status : status; k_hdr : header; k_short : bytes; k_stack : list cor }.
Definition crowd_t : Type := (nat -> task) * world.

(** The executor iterates coroutine [CTick i]; something arrives on the connection. *)
Inductive cev := CTick (i : nat) | CArrive (s : list rev).

Section Crowd.
Variable react : react_t.

(** AsyncWebSocket.v, tick: a coroutine that has ended is not iterated any more. *)
Definition ktick (k : task) (w : world) : task * world :=
  match tick react (k_status k, Conf (k_hdr k) (k_short k) (k_stack k) w) with
  | (st, c) => (Task st (c_hdr c) (c_short c) (c_stack c), c_world c)
  end.
Definition kstep (e : cev) (s : crowd_t) : crowd_t :=
  match e with
  | CTick i => let (k, w) := ktick (fst s i) (snd s) in ((fun j => if Nat.eqb j i then k else fst s j), w)
  | CArrive rs => (fst s, set_in (snd s) (w_in (snd s) ++ rs))
  end.
Definition krun (evs : list cev) (s : crowd_t) : crowd_t := fold_left (fun s e => kstep e s) evs s.
End Crowd.

(** Coroutine 0 is listenAsync() (AsyncWebSocket.cpp:456-458); coroutine [i] > 0 runs the commands [work i]. *)
Definition crowd_init (work : nat -> list cmd) (w : world) : crowd_t :=
  ((fun i => match i with
             | O => Task ARun (c_hdr (start_listen w)) [] [CoListen]
             | _ => Task ARun header_init [] [CoUser (work i) false]
             end), w).
