(** The blocking socket while other threads call stopListening, setListener and setConfig on it at arbitrary moments:
    WebSocket.cpp again, with the accesses to the fields these calls write (m_listening, m_listener, m_config;
    WebSocket.hpp:107-111, 175-177, WebSocket.cpp:55-57, 298-300) made explicit. Between any two such accesses of the listening
    thread any number of calls may take effect. Each access and each call is atomic (no data races in the sense of the C++ memory
    model); functions that touch none of these fields are those of WebSocket.v. *)
From Verif Require Import Bytes Frame World WebSocket.
Local Open Scope N_scope.

(** What happens, in order. *)
Inductive tev :=
| TListen                              (* listen() sets m_listening *)
| TFrame                               (* the listening thread turns to the next frame *)
| TOther (x : ext)                     (* a call of another thread *)
| TStop                                (* stopListening called by listener code *)
| TInstall (l : option nat)            (* setListener called by listener code *)
| TConfig (msk : bool) (buf : Z)       (* setConfig called by listener code *)
| TCall (l : option nat) (ev : event). (* the listener is called; None: there is none, the call is left out *)

(** [t_calls]: the calls other threads make before the listening thread's next access, the one after that, and so on. *)
Record tworld := TWorld { t_world : world; t_calls : list (list ext); t_trace : list tev }.

Definition TM (A : Type) : Type := tworld -> outcome A * tworld.
Definition tret {A} (a : A) : TM A := fun t => (Ret a, t).
Definition tfail {A} (o : outcome A) : TM A := fun t => (o, t).
Definition tbind {A B} (m : TM A) (f : A -> TM B) : TM B := fun t =>
  match m t with
  | (Ret a, t') => f a t'
  | (Throw e, t') => (Throw e, t')
  | (Wait, t') => (Wait, t')
  | (Ub u, t') => (Ub u, t')
  | (OutOfFuel, t') => (OutOfFuel, t')
  end.
Definition ttry (m : TM unit) : TM unit := fun t => match m t with (Throw _, t') => (Ret tt, t') | r => r end.
Definition tget : TM world := fun t => (Ret (t_world t), t).
Definition mark (e : tev) : TM unit := fun t => (Ret tt, TWorld (t_world t) (t_calls t) (t_trace t ++ [e])).
(** A piece of WebSocket.cpp without an access to the shared fields. *)
Definition local {A} (m : M A) : TM A := fun t => let (o, w') := m (t_world t) in (o, TWorld w' (t_calls t) (t_trace t)).

Declare Scope t_scope.
Delimit Scope t_scope with t.
Notation "x <- a ;; b" := (tbind a (fun x => b)) (at level 61, a at next level, right associativity) : t_scope.
Notation "a ;;; b" := (tbind a (fun _ => b)) (at level 61, right associativity) : t_scope.
Local Open Scope t_scope.

(** The calls made by other threads up to now take effect. *)
Definition interleave : TM unit := fun t =>
  match t_calls t with
  | [] => (Ret tt, t)
  | xs :: r => (Ret tt, TWorld (set_sock (t_world t) (fold_left (fun k x => apply_ext x k) xs (w_sock (t_world t)))) r (t_trace t ++ map TOther xs))
  end.
(** An access: calls of other threads, then one read of the shared fields. *)
Definition access {A} (f : sock -> A) : TM A := interleave ;;; w <- tget ;; tret (f (w_sock w)).

Section Threads.
Variable react : react_t.

(** One command of listener code (WebSocket.v, exec_cmd). A send reads m_config.maskOutgoingMessages once, before anything else
    (WebSocket.cpp:308); calls taking effect between that and a stopListening at its end could as well take effect after it. *)
Definition texec_cmd (c : cmd) : TM unit :=
  interleave ;;;
  match c with
  | CStop => mark TStop
  | CSetListener l => mark (TInstall l)
  | CSetConfig m b => mark (TConfig m b)
  | _ => tret tt
  end ;;;
  local (exec_cmd c).
Fixpoint texec_cmds (cs : list cmd) : TM unit :=
  match cs with
  | [] => tret tt
  | c :: cs' => texec_cmd c ;;; texec_cmds cs'
  end.

(** [if(m_listener) m_listener->callback(...)], WebSocket.cpp:174-175, 180-181, 198-199, 233-244, 252-253, 261-262: two reads of
    m_listener, the second one dereferenced. *)
Definition tnotify (ev : event) : TM unit :=
  there <- access s_listener ;;
  match there with
  | None => mark (TCall None ev)
  | Some _ =>
    l <- access s_listener ;;
    match l with
    | None => tfail (Ub UbNull)
    | Some l =>
      mark (TCall (Some l) ev) ;;;
      local (fun w => (Ret tt, set_log w (w_log w ++ [(l, ev)]))) ;;;
      w <- tget ;;
      texec_cmds (react l (w_log w))
    end
  end.

(** WebSocket.cpp:156-194  (WebSocket.v, readPayload_loop): m_config.readBufferSize is read anew before every read. *)
Fixpoint treadPayload_loop (fuel : nat) (h : header) (short : option bytes) (alloc progress : Z) : TM (option bytes) :=
  match fuel with
  | O => tfail OutOfFuel
  | S fuel' =>
    if (progress <? h_len h)%Z then
      desired <- access s_buf ;;
      let desired := if (h_len h - progress <? desired)%Z then (h_len h - progress)%Z else desired in
      r <- local (readSimple desired) ;;
      match r with
      | inl data =>
        if (alloc <? Z.of_N (lenN data))%Z then tfail (Ub UbOverflow) else
        let data' := if h_hasMask h then xor_from (h_mask h) (Z.to_N progress) data else data in
        match short with
        | Some s => treadPayload_loop fuel' h (Some (s ++ data')) alloc (progress + Z.of_N (lenN data))%Z
        | None =>
          tnotify (EvMsg (h_opcode h) data') ;;;
          treadPayload_loop fuel' h None alloc (progress + Z.of_N (lenN data))%Z
        end
      | inr IoRetry => treadPayload_loop fuel' h short alloc progress
      | inr _ => tfail (Throw ExConnState)
      end
    else tret short
  end.

(** WebSocket.cpp:147-201  (WebSocket.v, readPayload): m_config.readBufferSize is read for the allocation. *)
Definition treadPayload (h : header) (short : option bytes) : TM (option bytes) :=
  if (match short with Some _ => true | None => false end && (125 <? h_len h)%Z)%bool
  then tfail (Throw ExPayloadLen) else
  alloc <- access s_buf ;;
  if (alloc <? 0)%Z then tfail (Throw ExBadAlloc) else
  w <- tget ;;
  short' <- treadPayload_loop (S (script_size (w_in w))) h short alloc 0 ;;
  (match short with
   | None => if h_fin h then tnotify (EvEnd (h_opcode h)) else tret tt
   | Some _ => tret tt
   end) ;;;
  tret short'.

(** WebSocket.cpp:203-273  (WebSocket.v, handleFrame). m_lastOpcode is only touched by the listening thread. *)
Definition thandleFrame (h : header) : TM unit :=
  match h_opcode h with
  | 0 =>
    w <- tget ;;
    if (s_last (w_sock w) <? 0)%Z then tfail (Throw ExInvalidState)
    else treadPayload h None ;;; tret tt
  | 1 | 2 =>
    ok <- local (checkForContinuation h) ;;
    if (ok : bool) then treadPayload h None ;;; tret tt
    else tfail (Throw ExContinuationExpected)
  | 8 =>
    p <- treadPayload h (Some []) ;;
    tnotify (EvClose (close_code (str p)) (close_reason (str p)))
  | 9 =>
    p <- treadPayload h (Some []) ;;
    tnotify (EvPing (str p))
  | 10 =>
    p <- treadPayload h (Some []) ;;
    tnotify (EvPong (str p))
  | _ => tfail (Throw ExUnknownFrame)
  end.

(** WebSocket.cpp:286-289. *)
Fixpoint tlisten_loop (fuel : nat) (h : header) : TM unit :=
  match fuel with
  | O => tfail OutOfFuel
  | S fuel' =>
    mark TFrame ;;;
    h' <- local (readFrameHeader h) ;;
    thandleFrame h' ;;;
    listening <- access s_listening ;;
    if (negb (h_opcode h' =? OPCODE_CLOSE) && listening)%bool
    then tlisten_loop fuel' h'
    else tret tt
  end.

(** WebSocket.cpp:280-296  listen. *)
Definition tlisten : TM unit :=
  interleave ;;;
  mark TListen ;;;
  local (modify_sock (fun s => set_listening s true)) ;;;
  w <- tget ;;
  ttry (tlisten_loop (S (script_size (w_in w))) header_init).

End Threads.
