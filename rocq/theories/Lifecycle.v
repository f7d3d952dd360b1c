(** Models of ConnectionHandler.cpp and AsyncConnectionHandler.cpp: which objects exist, who owns the socket and
    which callbacks of the socket instance listener are made. *)
From Verif Require Import Bytes.

(** A web socket created by a handler: its serial number, its connection and maskOutgoingMessages. *)
Record socket := Socket { k_id : nat; k_conn : nat; k_mask : bool }.

(** Observable calls.  [l]: the socket instance listener; [p]: the parameter map. *)
Inductive lev :=
| EvAfterCreate (l : nat) (s : socket) (p : nat)     (* onAfterCreate / onAfterCreate_NonBlocking *)
| EvListen (s : socket)                              (* listen() / listenAsync() started on the socket *)
| EvBeforeDestroy (l : nat) (s : socket).            (* onBeforeDestroy / onBeforeDestroy_NonBlocking *)

(* ------------------------------------------------------------------------------------- *)
(** * ConnectionHandler *)

(** ConnectionHandler.cpp:36-81: the members of a Task object ([None] = null pointer).  m_connection only keeps
    the connection alive and is not modelled; m_params is never read after construction. *)
Record task := Task { t_listener : option nat; t_socket : option socket }.

(** ConnectionHandler.hpp:71 m_listener, the live Task objects by address, the number of sockets made so far,
    the calls made so far. *)
Record hstate := HState { h_listener : option nat; h_objs : nat -> option task; h_count : nat; h_log : list lev }.

Definition upd {A} (f : nat -> A) (i : nat) (v : A) : nat -> A := fun j => if Nat.eqb j i then v else f j.

(** What the application and the C++ runtime (std::thread) do. *)
Inductive hop :=
| OSetListener (l : option nat)                              (* setSocketInstanceListener *)
| OHandle (i : nat) (conn p : nat) (throws : bool)           (* handleConnection constructs a Task at address i;
                                                                [throws]: onAfterCreate throws (if there is a listener) *)
| OMove (i j : nat)                                          (* a Task at j is move-constructed from the one at i *)
| OAssign (i j : nat)                                        (* the Task at j is move-assigned from the one at i *)
| ORun (i : nat)                                             (* run() on the Task at i *)
| ODestroy (i : nat).                                        (* the Task at i is destroyed *)

(** [None]: undefined behaviour (no such object, null pointer dereferenced). *)
Definition hstep (o : hop) (s : hstate) : option hstate :=
  match o with
  | OSetListener l =>                                        (* ConnectionHandler.hpp:92-94 *)
      Some (HState l (h_objs s) (h_count s) (h_log s))
  | OHandle i conn p throws =>                               (* ConnectionHandler.cpp:45-56, 87 *)
      let sock := Socket (h_count s) conn false in
      match h_listener s with
      | Some l =>
          let log := h_log s ++ [EvAfterCreate l sock p] in
          if throws
          then Some (HState (h_listener s) (h_objs s) (S (h_count s)) log)   (* no object, no destructor *)
          else Some (HState (h_listener s) (upd (h_objs s) i (Some (Task (Some l) (Some sock)))) (S (h_count s)) log)
      | None =>
          Some (HState (h_listener s) (upd (h_objs s) i (Some (Task None (Some sock)))) (S (h_count s)) (h_log s))
      end
  | OMove i j =>                                             (* ConnectionHandler.cpp:58-62 *)
      match h_objs s i with
      | Some t => Some (HState (h_listener s) (upd (upd (h_objs s) j (Some t)) i (Some (Task None None)))
                               (h_count s) (h_log s))
      | None => None
      end
  | OAssign i j =>                                           (* ConnectionHandler.cpp:74-79 *)
      match h_objs s i, h_objs s j with
      | Some t, Some _ => Some (HState (h_listener s) (upd (upd (h_objs s) j (Some t)) i (Some (Task None None)))
                                       (h_count s) (h_log s))
      | _, _ => None
      end
  | ORun i =>                                                (* ConnectionHandler.cpp:70-72 *)
      match h_objs s i with
      | Some (Task _ (Some sock)) => Some (HState (h_listener s) (h_objs s) (h_count s) (h_log s ++ [EvListen sock]))
      | _ => None
      end
  | ODestroy i =>                                            (* ConnectionHandler.cpp:64-68 *)
      match h_objs s i with
      | Some (Task (Some l) (Some sock)) =>
          Some (HState (h_listener s) (upd (h_objs s) i None) (h_count s) (h_log s ++ [EvBeforeDestroy l sock]))
      | Some (Task (Some l) None) => None
      | Some (Task None _) => Some (HState (h_listener s) (upd (h_objs s) i None) (h_count s) (h_log s))
      | None => None
      end
  end.

(** ConnectionHandler.cpp:30-32 *)
Definition hinit : hstate := HState None (fun _ => None) 0 [].

Fixpoint hrun (l : list hop) (s : hstate) : option hstate :=
  match l with [] => Some s | o :: r => match hstep o s with Some s' => hrun r s' | None => None end end.

(* ------------------------------------------------------------------------------------- *)
(** * AsyncConnectionHandler *)

(** AsyncConnectionHandler.cpp:57-72: the members of a SocketCoroutine. *)
Record scor := SCor { c_conn : nat; c_params : nat; c_listener : option nat; c_socket : option socket }.
Record astate := AState { a_listener : option nat; a_objs : nat -> option scor; a_count : nat; a_log : list lev }.

Inductive aop :=
| ASetListener (l : option nat)
| AHandle (i : nat) (conn p : nat)       (* handleConnection: the executor gets a coroutine, at address i *)
| AAct (i : nat) (throws : bool)         (* the executor calls act(); [throws]: onAfterCreate_NonBlocking throws *)
| ADestroy (i : nat).                    (* the coroutine is destroyed: finished, failed or dropped *)

Definition acstep (o : aop) (s : astate) : option astate :=
  match o with
  | ASetListener l =>                                        (* AsyncConnectionHandler.cpp:49-51 *)
      Some (AState l (a_objs s) (a_count s) (a_log s))
  | AHandle i conn p =>                                      (* AsyncConnectionHandler.cpp:65-72, 93 *)
      Some (AState (a_listener s) (upd (a_objs s) i (Some (SCor conn p (a_listener s) None))) (a_count s) (a_log s))
  | AAct i throws =>                                         (* AsyncConnectionHandler.cpp:80-86 *)
      match a_objs s i with
      | Some c =>
          let sock := Socket (a_count s) (c_conn c) false in
          let objs := upd (a_objs s) i (Some (SCor (c_conn c) (c_params c) (c_listener c) (Some sock))) in
          match c_listener c with
          | Some l =>
              let log := a_log s ++ [EvAfterCreate l sock (c_params c)] in
              Some (AState (a_listener s) objs (S (a_count s)) (if throws then log else log ++ [EvListen sock]))
          | None => Some (AState (a_listener s) objs (S (a_count s)) (a_log s ++ [EvListen sock]))
          end
      | None => None
      end
  | ADestroy i =>                                            (* AsyncConnectionHandler.cpp:74-78 *)
      match a_objs s i with
      | Some c =>
          let log := match c_listener c, c_socket c with
                     | Some l, Some sock => a_log s ++ [EvBeforeDestroy l sock]
                     | _, _ => a_log s
                     end in
          Some (AState (a_listener s) (upd (a_objs s) i None) (a_count s) log)
      | None => None
      end
  end.

(** AsyncConnectionHandler.cpp:29-39 *)
Definition ainit : astate := AState None (fun _ => None) 0 [].

Fixpoint arun (l : list aop) (s : astate) : option astate :=
  match l with [] => Some s | o :: r => match acstep o s with Some s' => arun r s' | None => None end end.
