(** A server whose application also sends from threads of its own: ConnectionHandler.cpp with sockets that several threads use (Process.v).
    The application gets the socket in onAfterCreate as a reference (ConnectionHandler.hpp:62), not as a shared pointer as from AsyncConnectionHandler: the
    socket is gone when ~Task has returned from onBeforeDestroy (ConnectionHandler.cpp:64-68), whoever is using it.

    Everything that will ever arrive on a connection is in its world from the beginning: when it arrives does not matter, as reads block. That thread creation
    may fail, and sends in onBeforeDestroy, are in ThreadServer.v; the moves of the Task in Lifecycle.v. *)
From Verif Require Import Bytes Frame World WebSocket AsyncWebSocket Lifecycle Server SpecServer ThreadServer Threads Process SpecProcess.

(** What happens. *)
Inductive uev :=
| USet (l : option nat)             (* setSocketInstanceListener *)
| UConn (i p : nat)                 (* handleConnection(connection i, params p) *)
| UStart (i : nat) (cs : list cmd)  (* the application starts a thread that executes [cs] on the socket of connection i; an exception ends it (it catches it) *)
| UTurn (i j : nat).                (* thread j of connection i takes a step; 0: the handler's, j > 0: the j-th the application has started there *)

(** How far the handler's thread has got: created; in listen(); in ~Task, onBeforeDestroy has been called; the Task and its socket are gone. *)
Inductive stage := StReady | StListen | StLeave | StGone.
Inductive uphase :=
| UNew (w : world)                  (* not handed over *)
| UOn (L : option nat) (st : stage) (threads : list (list cmd)) (c : system) (* [L]: its instance listener; [threads]: what the application has started *)
| UOver (w : world)                 (* onAfterCreate has thrown, and so has handleConnection *)
| UStuck (w : world).               (* blocked for ever in a write of onAfterCreate *)
Record userver := UServer { u_inst : option nat; u_phase : nat -> uphase; u_log : list (nat * seen_ev) }.
(** [UTerminate]: std::terminate, an exception leaves the handler's thread. *)
Inductive ures (A : Type) := UOk (a : A) | UTerminate | UUndef.
Arguments UOk {A} a.
Arguments UTerminate {A}.
Arguments UUndef {A}.

Definition userver_init (ws : nat -> world) : userver := UServer None (fun i => UNew (ws i)) [].
Definition running (c : system) (j : nat) : bool := match fst (fst c j) with PDone _ => false | _ => true end.
Definition leaving (st : stage) : bool := match st with StLeave | StGone => true | _ => false end.

Section PushThreads.
(** [waits l]: in onBeforeDestroy, instance listener [l] waits for the threads the application has started on the socket, and sees to it that no more are started. *)
Variable waits : nat -> bool.
(** [setup l p]: what it does in onAfterCreate, given parameters [p]. [react i]: listener code of the socket on connection [i]. *)
Variable setup : nat -> nat -> list cmd.
Variable react : nat -> react_t.

Definition careful (L : option nat) : bool := match L with Some l => waits l | None => false end.

(** ConnectionHandler.cpp:34-56, 83-99: the Task's constructor calls onAfterCreate; the thread is created. *)
Definition uhandle (i : nat) (inst : option nat) (p : nat) (w : world) : ures (uphase * list seen_ev) :=
  match exec_cmds (on_create setup inst p) (set_sock w (sock_new false)) with
  | (Ret _, w1) => UOk (UOn inst StReady [] (system_init (react i) (fun _ => []) w1), created inst p)
  | (Throw _, w1) => UOk (UOver w1, created inst p)
  | (Wait, w1) => UOk (UStuck w1, created inst p)
  | _ => UUndef
  end.
(** A thread is started; only who has got the socket from onAfterCreate can do that. *)
Definition ustart (cs : list cmd) (ph : uphase) : uphase :=
  match ph with
  | UOn (Some l) st ths c =>
    if leaving st && waits l then ph
    else UOn (Some l) st (ths ++ [cs]) (upd (fst c) (S (length ths)) (pexec_cmds cs, nothing), snd c)
  | _ => ph
  end.
(** The handler's thread: ConnectionHandler.cpp:70-72 Task::run, then ConnectionHandler.cpp:64-68 ~Task. *)
Definition uhandler (L : option nat) (st : stage) (ths : list (list cmd)) (c : system) : ures (uphase * list seen_ev) :=
  match st with
  | StReady => UOk (UOn L StListen ths (sstep 0 c), [NListen])
  | StListen =>
    match fst (fst c 0) with
    | PDone (Ret _) => UOk (UOn L StLeave ths c, destroyed L)
    | PDone Wait => UOk (UOn L st ths c, [])
    | PDone (Throw _) => UTerminate
    | PDone _ => UUndef
    | _ => UOk (UOn L st ths (sstep 0 c), called (skipn (length (told c)) (told (sstep 0 c))))
    end
  | StLeave => if careful L && existsb (running c) (seq 1 (length ths)) then UOk (UOn L st ths c, []) else UOk (UOn L StGone ths c, [])
  | StGone => UOk (UOn L st ths c, [])
  end.
(** A thread of the application; on a socket that is gone: use after free. *)
Definition uthread (j : nat) (L : option nat) (st : stage) (ths : list (list cmd)) (c : system) : ures (uphase * list seen_ev) :=
  if (j <=? length ths) && running c j then
    match st with
    | StGone => UUndef
    | _ =>
      match fst (fst (sstep j c) j) with
      | PDone (Ub _) | PDone OutOfFuel => UUndef
      | _ => UOk (UOn L st ths (sstep j c), [])
      end
    end
  else UOk (UOn L st ths c, []).

(** What an event does to connection [i]. *)
Definition uconn (inst : option nat) (i : nat) (e : uev) (ph : uphase) : ures (uphase * list seen_ev) :=
  match e, ph with
  | UConn _ p, UNew w => uhandle i inst p w
  | UStart _ cs, _ => UOk (ustart cs ph, [])
  | UTurn _ O, UOn L st ths c => uhandler L st ths c
  | UTurn _ j, UOn L st ths c => uthread j L st ths c
  | _, _ => UOk (ph, [])
  end.
Definition uabout (e : uev) : option nat := match e with USet _ => None | UConn i _ | UStart i _ | UTurn i _ => Some i end.
Definition ustep (e : uev) (s : userver) : ures userver :=
  match e with
  | USet l => UOk (UServer l (u_phase s) (u_log s))
  | UConn i _ | UStart i _ | UTurn i _ =>
    match uconn (u_inst s) i e (u_phase s i) with
    | UOk (ph, new) => UOk (UServer (u_inst s) (upd (u_phase s) i ph) (u_log s ++ map (pair i) new))
    | UTerminate => UTerminate
    | UUndef => UUndef
    end
  end.
Fixpoint urun (evs : list uev) (s : userver) : ures userver :=
  match evs with
  | [] => UOk s
  | e :: r => match ustep e s with UOk s' => urun r s' | UTerminate => UTerminate | UUndef => UUndef end
  end.
End PushThreads.
