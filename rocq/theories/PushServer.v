(** A server whose application also sends from coroutines of its own: AsyncConnectionHandler.cpp with sockets that several coroutines use
    (Coroutines.v). The application gets the socket in onAfterCreate_NonBlocking (AsyncConnectionHandler.cpp:82-84) as a shared pointer and may, then
    or later, start coroutines that send on it; they keep the socket alive. *)
From Verif Require Import Bytes Frame World WebSocket AsyncWebSocket Lifecycle Server Coroutines.

(** What happens. Events of Server.v, and two more. *)
Inductive pev :=
| PSet (l : option nat)             (* setSocketInstanceListener *)
| PConn (i p : nat)                 (* handleConnection(connection i, params p) *)
| PStep (i : nat)                   (* the executor iterates the handler's coroutine for connection i *)
| PArrive (i : nat) (s : list rev)  (* something happens on connection i *)
| PDrop (i : nat)                   (* the executor drops the handler's coroutine *)
| PStart (i : nat) (cs : list cmd)  (* the application starts a coroutine that executes [cs] on the socket of connection i *)
| PTask (i j : nat).                (* the executor iterates the j-th (from 1) coroutine the application has started there *)

(** [p_crowd i]: the coroutines of the socket on connection [i] (0: the handler's) and its world; [p_made i]: that socket has been made;
    [p_count i]: the number of coroutines the application has started on it. *)
Record pserver := PServer { p_life : astate; p_log : list sev; p_crowd : nat -> crowd_t; p_made : nat -> bool; p_count : nat -> nat }.

(** A coroutine that does not exist. *)
Definition no_task : task := Task ADone header_init [] [].
Definition pserver_init (ws : nat -> world) : pserver :=
  PServer ainit [] (fun i => ((fun _ => no_task), ws i)) (fun _ => false) (fun _ => 0).

(** A step of the handler (Lifecycle.v) and the calls it makes; as [life] in Server.v. *)
Definition plife (o : aop) (s : pserver) : option pserver :=
  match acstep o (p_life s) with
  | Some a => Some (PServer a (p_log s ++ map SLife (skipn (length (a_log (p_life s))) (a_log a))) (p_crowd s) (p_made s) (p_count s))
  | None => None
  end.
Definition set_crowd (i : nat) (c : crowd_t) (s : pserver) : pserver := PServer (p_life s) (p_log s) (upd (p_crowd s) i c) (p_made s) (p_count s).
Definition note_calls (i : nat) (before : crowd_t) (s : pserver) : pserver :=
  PServer (p_life s) (p_log s ++ map (fun c => SCall i (fst c) (snd c)) (skipn (length (w_log (snd before))) (w_log (snd (p_crowd s i)))))
    (p_crowd s) (p_made s) (p_count s).

Section PushServer.
(** [setup l p]: the setListener and setConfig calls socket instance listener [l] makes in onAfterCreate_NonBlocking, given parameters [p], and whether
    it then throws. [react i]: listener code of the socket on connection [i]. *)
Variable setup : nat -> nat -> list ext * bool.
Variable react : nat -> react_t.

Definition at_pcreate (l : option nat) (p : nat) : list ext * bool := match l with Some l => setup l p | None => ([], false) end.

(** [None]: undefined behaviour. *)
Definition qstep (e : pev) (s : pserver) : option pserver :=
  match e with
  | PSet l => plife (ASetListener l) s
  | PConn i p => plife (AHandle i i p) s
  | PArrive i rs => Some (set_crowd i (kstep (react i) (CArrive rs) (p_crowd s i)) s)
  | PDrop i => match a_objs (p_life s) i with Some _ => plife (ADestroy i) s | None => Some s end
  | PStart i cs =>                                         (* Executor::execute (oatpp core): it will be iterated later *)
    if p_made s i then
      Some (PServer (p_life s) (p_log s) (upd (p_crowd s) i (upd (fst (p_crowd s i)) (S (p_count s i)) (Task ARun header_init [] [CoUser cs false]), snd (p_crowd s i)))
              (p_made s) (upd (p_count s) i (S (p_count s i))))
    else Some s
  | PTask i j =>
    if (1 <=? j) && (j <=? p_count s i) then Some (note_calls i (p_crowd s i) (set_crowd i (kstep (react i) (CTick j) (p_crowd s i)) s)) else Some s
  | PStep i =>
    match a_objs (p_life s) i with
    | None => Some s
    | Some c =>
      match c_socket c with
      | None =>                                            (* AsyncConnectionHandler.cpp:80-86 act() *)
        let (xs, throws) := at_pcreate (c_listener c) (c_params c) in
        let w := set_sock (snd (p_crowd s i)) (fold_left (fun k x => apply_ext x k) xs (sock_new false)) in
        match plife (AAct i throws) s with
        | Some s1 =>
          let s2 := PServer (p_life s1) (p_log s1) (upd (p_crowd s1) i (if throws then ((fun _ => no_task), w) else ((fun j => match j with O => Task ARun (c_hdr (start_listen w)) [] [CoListen] | _ => no_task end), w))) (upd (p_made s1) i true) (p_count s1) in
          if throws then plife (ADestroy i) s2 else Some s2
        | None => None
        end
      | Some _ =>                                          (* a coroutine of the socket; .next(finish()) once it has ended *)
        let s1 := note_calls i (p_crowd s i) (set_crowd i (kstep (react i) (CTick 0) (p_crowd s i)) s) in
        if over (k_status (fst (p_crowd s1 i) 0)) then plife (ADestroy i) s1 else Some s1
      end
    end
  end.
Fixpoint prun (evs : list pev) (s : pserver) : option pserver :=
  match evs with
  | [] => Some s
  | e :: r => match qstep e s with Some s' => prun r s' | None => None end
  end.
End PushServer.
