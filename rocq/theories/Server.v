(** A server: AsyncConnectionHandler.cpp together with the sockets it makes (AsyncWebSocket.v) on any number of connections. *)
From Verif Require Import Bytes Frame World WebSocket AsyncWebSocket Lifecycle.

(** Calls made to the application. *)
Inductive sev :=
| SLife (e : lev)                                     (* to the socket instance listener; start of listenAsync *)
| SCall (conn : nat) (l : nat) (ev : event).          (* to listener [l] of the socket on connection [conn] *)

(** What happens. A connection is identified by a number, which also serves as the address of its coroutine. *)
Inductive vev :=
| VSet (l : option nat)          (* setSocketInstanceListener *)
| VConn (i p : nat)              (* handleConnection(connection i, params p) *)
| VStep (i : nat)                (* the executor iterates the coroutine serving connection i *)
| VArrive (i : nat) (s : list rev)   (* something happens on connection i *)
| VDrop (i : nat).               (* the executor drops that coroutine: stop(), AsyncConnectionHandler.cpp:97-99 *)

(** [v_run i]: the coroutines of the socket on connection [i] and its world; before listenAsync the stack is empty. *)
Record server := Server { v_life : astate; v_run : nat -> status * conf; v_log : list sev }.

Definition server_init (ws : nat -> world) : server :=
  Server ainit (fun i => (ARun, Conf header_init [] [] (ws i))) [].

(** A step of the handler (Lifecycle.v) and the calls it makes. *)
Definition life (o : aop) (s : server) : option server :=
  match acstep o (v_life s) with
  | Some a => Some (Server a (v_run s) (v_log s ++ map SLife (skipn (length (a_log (v_life s))) (a_log a))))
  | None => None
  end.
Definition set_run (i : nat) (r : status * conf) (s : server) : server := Server (v_life s) (upd (v_run s) i r) (v_log s).

Definition over (st : status) : bool := match st with ADone | AFail _ => true | _ => false end.
(** Calls of the listener made between two states of a socket. *)
Definition calls_since (r r' : status * conf) : list (nat * event) :=
  skipn (length (w_log (c_world (snd r)))) (w_log (c_world (snd r'))).

Section Server.
(** [setup l p]: what socket instance listener [l] does with a new socket in onAfterCreate_NonBlocking, given parameters [p]:
    setListener and setConfig calls, or [None]: it throws. (Sends it may start as separate coroutines are not modelled.)
    [react i]: listener code of the socket on connection [i]; as a function of that socket's calls. *)
Variable setup : nat -> nat -> option (list ext).
Variable react : nat -> react_t.

Definition at_create (l : option nat) (p : nat) : option (list ext) := match l with Some l => setup l p | None => Some [] end.

(** [None]: undefined behaviour. *)
Definition vstep (e : vev) (s : server) : option server :=
  match e with
  | VSet l => life (ASetListener l) s
  | VConn i p => life (AHandle i i p) s
  | VArrive i rs => Some (set_run i (fst (v_run s i), arrive rs (snd (v_run s i))) s)
  | VDrop i => match a_objs (v_life s) i with Some _ => life (ADestroy i) s | None => Some s end
  | VStep i =>
    match a_objs (v_life s) i with
    | None => Some s
    | Some c =>
      match c_socket c with
      | None =>                                            (* AsyncConnectionHandler.cpp:80-86 act() *)
        match at_create (c_listener c) (c_params c) with
        | None =>                                          (* the exception ends the coroutine *)
          match life (AAct i true) s with Some s1 => life (ADestroy i) s1 | None => None end
        | Some xs =>                                       (* createShared(connection, false); listenAsync() *)
          let w := c_world (snd (v_run s i)) in
          match life (AAct i false) s with
          | Some s1 => Some (set_run i (ARun, start_listen (set_sock w (fold_left (fun k x => apply_ext x k) xs (sock_new false)))) s1)
          | None => None
          end
        end
      | Some _ =>                                          (* a coroutine of the socket; .next(finish()) once it has ended *)
        let r := v_run s i in
        let r' := tick (react i) r in
        let s1 := Server (v_life s) (upd (v_run s) i r') (v_log s ++ map (fun c => SCall i (fst c) (snd c)) (calls_since r r')) in
        if over (fst r') then life (ADestroy i) s1 else Some s1
      end
    end
  end.
Fixpoint vrun (evs : list vev) (s : server) : option server :=
  match evs with
  | [] => Some s
  | e :: r => match vstep e s with Some s' => vrun r s' | None => None end
  end.
End Server.
