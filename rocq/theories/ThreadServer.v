(** A server: ConnectionHandler.cpp together with the sockets it makes (WebSocket.v), one thread per connection. *)
From Verif Require Import Bytes Frame World WebSocket SpecCausal Lifecycle Server.

(** What happens. A connection is identified by a number, which also serves as the address of its Task (the moves of the Task into
    the thread are in Lifecycle.v). *)
Inductive bev :=
| BSet (l : option nat)                  (* setSocketInstanceListener *)
| BConn (i p : nat) (spawn : bool)       (* handleConnection(connection i, params p); [spawn]: a thread can be created *)
| BArrive (i : nat) (s : list rev)       (* something happens on connection i, or another thread calls its socket *)
| BRun (i : nat).                        (* the thread of connection i runs until it blocks or ends *)

(** How far a connection has got. A blocked thread is represented by the world [w] in which it called listen(), with all that has
    arrived since, and the world [w1] it has reached; running it on means running listen() on [w], which repeats what was done
    (PropCausal.v, C48_causality) and goes on. *)
Inductive bphase :=
| PNew (w : world)                       (* not handed over *)
| PReady (w : world)                     (* the thread has been created *)
| PListen (w w1 : world)                 (* blocked in listen() *)
| POver (w : world)                      (* the thread has ended, or handleConnection has thrown *)
| PStuck (w : world).                    (* blocked for ever in a write of a socket instance listener *)

Record bserver := BServer { b_life : hstate; b_phase : nat -> bphase; b_log : list sev }.
(** [BTerminate]: std::terminate, an exception leaves a thread or a destructor. *)
Inductive sres := BOk (s : bserver) | BTerminate | BUndef.

Definition bserver_init (ws : nat -> world) : bserver := BServer hinit (fun i => PNew (ws i)) [].

(** A step of the handler (Lifecycle.v) and the calls it makes. *)
Definition blife (o : hop) (s : bserver) : sres :=
  match hstep o (b_life s) with
  | Some a => BOk (BServer a (b_phase s) (b_log s ++ map SLife (skipn (length (h_log (b_life s))) (h_log a))))
  | None => BUndef
  end.
Definition bthen (r : sres) (f : bserver -> sres) : sres := match r with BOk s => f s | _ => r end.
Definition set_phase (i : nat) (x : bphase) (s : bserver) : bserver := BServer (b_life s) (upd (b_phase s) i x) (b_log s).
Definition add_calls (i : nat) (cs : list (nat * event)) (s : bserver) : bserver :=
  BServer (b_life s) (b_phase s) (b_log s ++ map (fun c => SCall i (fst c) (snd c)) cs).

Definition arrive_phase (s : list rev) (x : bphase) : bphase :=
  match x with
  | PNew w => PNew (more s w)
  | PReady w => PReady (more s w)
  | PListen w w1 => PListen (more s w) w1
  | _ => x
  end.

Section ThreadServer.
(** [setup l p]: what socket instance listener [l] does with a new socket in onAfterCreate, given parameters [p];
    [farewell l]: what it does in onBeforeDestroy; [react i]: listener code of the socket on connection [i]. *)
Variable setup : nat -> nat -> list cmd.
Variable farewell : nat -> list cmd.
Variable react : nat -> react_t.

Definition on_create (l : option nat) (p : nat) : list cmd := match l with Some l => setup l p | None => [] end.
Definition on_destroy (l : option nat) : list cmd := match l with Some l => farewell l | None => [] end.

(** ConnectionHandler.cpp:64-68 ~Task() of the Task at [i], its socket in the state of [w]. Destructors are noexcept. *)
Definition destroy (i : nat) (w : world) (s : bserver) : sres :=
  let l := match h_objs (b_life s) i with Some t => t_listener t | None => None end in
  bthen (blife (ODestroy i) s) (fun s1 =>
    match exec_cmds (on_destroy l) w with
    | (Ret _, w') => BOk (set_phase i (POver w') s1)
    | (Wait, w') => BOk (set_phase i (PStuck w') s1)
    | (Throw _, _) => BTerminate
    | _ => BUndef
    end).
(** ConnectionHandler.cpp:70-72 Task::run, then the end of the thread. *)
Definition thread_run (i : nat) (w w1 : world) (s : bserver) : sres :=
  match listen (react i) w with
  | (Wait, w') => BOk (set_phase i (PListen w w') (add_calls i (skipn (length (w_log w1)) (w_log w')) s))
  | (Ret _, w') => destroy i w' (add_calls i (skipn (length (w_log w1)) (w_log w')) s)
  | (Throw _, _) => BTerminate
  | _ => BUndef
  end.
Definition bstep (e : bev) (s : bserver) : sres :=
  match e with
  | BSet l => blife (OSetListener l) s
  | BArrive i rs => BOk (set_phase i (arrive_phase rs (b_phase s i)) s)
  | BConn i p spawn =>                                     (* ConnectionHandler.cpp:34-56, 83-99 *)
    match b_phase s i with
    | PNew w =>
      match exec_cmds (on_create (h_listener (b_life s)) p) (set_sock w (sock_new false)) with
      | (Ret _, w1) =>
        bthen (blife (OHandle i i p false) s) (fun s1 =>
          if spawn then BOk (set_phase i (PReady w1) s1)
          else destroy i w1 s1)                            (* std::thread throws; the Task is destroyed *)
      | (Throw _, w1) => bthen (blife (OHandle i i p true) s) (fun s1 => BOk (set_phase i (POver w1) s1))
      | (Wait, w1) => bthen (blife (OHandle i i p true) s) (fun s1 => BOk (set_phase i (PStuck w1) s1))
      | _ => BUndef
      end
    | _ => BOk s                                           (* not the same connection twice *)
    end
  | BRun i =>
    match b_phase s i with
    | PReady w => bthen (blife (ORun i) s) (thread_run i w w)
    | PListen w w1 => thread_run i w w1 s
    | _ => BOk s
    end
  end.
Fixpoint brun (evs : list bev) (s : bserver) : sres :=
  match evs with
  | [] => BOk s
  | e :: r => bthen (bstep e s) (brun r)
  end.
End ThreadServer.
