(** WebSocket.cpp once more, with listeners as C++ objects: callbacks are programs that read and write the listeners' own fields (and any other memory
    of the application), decide what to do next by what their calls did, and may call listen() and iterateFrame() on the socket that is calling them.

    In WebSocket.v a callback is a list of commands that depends on the history of calls only; C98 says what this leaves out: nothing, as long as
    the callbacks do not listen. *)
From Verif Require Import Bytes Frame World WebSocket SpecAsync.
Local Open Scope N_scope.

Section Mem.
Variable S : Type.     (* the application's memory *)

(** What a call on the socket did. *)
Inductive answer :=
| Done          (* returned; sendOneFrame: true *)
| Failed        (* sendOneFrame returned false *)
| Raised.       (* threw an exception, which the callback has caught *)

(** Calls of the socket's public interface, WebSocket.hpp:157-277. *)
Inductive act :=
| AStop                                  (* stopListening() *)
| ASetListener (l : option nat)           (* setListener(l) *)
| ASetConfig (m : bool) (b : Z)            (* setConfig({m, b}) *)
| ASend (op : sendop)                     (* the sending calls *)
| ALook                                  (* looks at the data it was given *)
| AListen                                (* listen() *)
| AIterate.                              (* iterateFrame(header) *)

(** The code of a callback. An exception it lets out is one of its own: WebSocket.cpp:290-295 treat all alike. *)
Inductive code :=
| Finish
| Throws
| Load (k : S -> code)
| Store (s : S) (k : code)
| Do (a : act) (k : answer -> code).

(** What the listener objects do: listener, call. *)
Definition object := nat -> event -> code.

Definition MS (A : Type) : Type := S * world -> outcome A * (S * world).
Definition bindS {A B} (m : MS A) (f : A -> MS B) : MS B := fun x =>
  match m x with
  | (Ret a, x') => f a x'
  | (Throw e, x') => (Throw e, x')
  | (Wait, x') => (Wait, x')
  | (Ub u, x') => (Ub u, x')
  | (OutOfFuel, x') => (OutOfFuel, x')
  end.
(** A function of the library that calls no listener. *)
Definition lift {A} (m : M A) : MS A := fun x => let (o, w') := m (snd x) in (o, (fst x, w')).
Definition tryS (m : MS unit) : MS unit := fun x =>
  match m x with (Throw _, x') => (Ret tt, x') | r => r end.
Notation "x <- a ;; b" := (bindS a (fun x => b)) (at level 61, a at next level, right associativity).
Notation "a ;;; b" := (bindS a (fun _ => b)) (at level 61, right associativity).

Section With.
Variable call : event -> MS unit.
(** WebSocket.cpp:156-194 *)
Fixpoint payloadS (fuel : nat) (h : header) (short : option bytes) (alloc progress : Z) : MS (option bytes) :=
  match fuel with
  | O => lift out_of_fuel
  | Datatypes.S fuel' =>
    if (progress <? h_len h)%Z then
      w <- lift get ;;
      let desired := s_buf (w_sock w) in
      let desired := if (h_len h - progress <? desired)%Z then (h_len h - progress)%Z else desired in
      r <- lift (readSimple desired) ;;
      match r with
      | inl data =>
        if (alloc <? Z.of_N (lenN data))%Z then lift (undef UbOverflow) else
        let data' := if h_hasMask h then xor_from (h_mask h) (Z.to_N progress) data else data in
        match short with
        | Some s => payloadS fuel' h (Some (s ++ data')) alloc (progress + Z.of_N (lenN data))%Z
        | None =>
          call (EvMsg (h_opcode h) data') ;;;
          payloadS fuel' h None alloc (progress + Z.of_N (lenN data))%Z
        end
      | inr IoRetry => payloadS fuel' h short alloc progress
      | inr _ => lift (throw ExConnState)
      end
    else lift (ret short)
  end.
(** WebSocket.cpp:147-201 *)
Definition readPayloadS (h : header) (short : option bytes) : MS (option bytes) :=
  if (match short with Some _ => true | None => false end && (125 <? h_len h)%Z)%bool
  then lift (throw ExPayloadLen) else
  w <- lift get ;;
  let alloc := s_buf (w_sock w) in
  if (alloc <? 0)%Z then lift (throw ExBadAlloc) else
  short' <- payloadS (Datatypes.S (script_size (w_in w))) h short alloc 0 ;;
  (match short with
   | None => if h_fin h then call (EvEnd (h_opcode h)) else lift (ret tt)
   | Some _ => lift (ret tt)
   end) ;;;
  lift (ret short').
(** WebSocket.cpp:203-273 *)
Definition handleFrameS (h : header) : MS unit :=
  match h_opcode h with
  | 0 =>
    w <- lift get ;;
    if (s_last (w_sock w) <? 0)%Z then lift (throw ExInvalidState)
    else readPayloadS h None ;;; lift (ret tt)
  | 1 | 2 =>
    ok <- lift (checkForContinuation h) ;;
    if (ok : bool) then readPayloadS h None ;;; lift (ret tt)
    else lift (throw ExContinuationExpected)
  | 8 =>
    p <- readPayloadS h (Some []) ;;
    call (EvClose (close_code (str p)) (close_reason (str p)))
  | 9 =>
    p <- readPayloadS h (Some []) ;;
    call (EvPing (str p))
  | 10 =>
    p <- readPayloadS h (Some []) ;;
    call (EvPong (str p))
  | _ => lift (throw ExUnknownFrame)
  end.
(** WebSocket.cpp:275-278 *)
Definition iterateFrameS (h : header) : MS header :=
  h' <- lift (readFrameHeader h) ;;
  handleFrameS h' ;;;
  lift (ret h').
(** WebSocket.cpp:286-289 *)
Fixpoint loopS (fuel : nat) (h : header) : MS unit :=
  match fuel with
  | O => lift out_of_fuel
  | Datatypes.S fuel' =>
    h' <- lift (readFrameHeader h) ;;
    handleFrameS h' ;;;
    w <- lift get ;;
    if (negb (h_opcode h' =? OPCODE_CLOSE) && s_listening (w_sock w))%bool
    then loopS fuel' h'
    else lift (ret tt)
  end.
(** WebSocket.cpp:280-296 *)
Definition listenS : MS unit :=
  lift (modify_sock (fun s => set_listening s true)) ;;;
  w <- lift get ;;
  tryS (loopS (Datatypes.S (script_size (w_in w))) header_init).
End With.

(** One call of a callback on the socket; the boolean is the result of sendOneFrame. [again]: how a nested listen() or iterateFrame() calls listeners. *)
Definition perform (again : event -> MS unit) (a : act) : MS bool :=
  match a with
  | AStop => lift (stopListening ;;; ret true)%m
  | ASetListener l => lift (modify_sock (fun s => set_listener s l) ;;; ret true)%m
  | ASetConfig m b => lift (modify_sock (fun s => set_config s m b) ;;; ret true)%m
  | ASend op => lift (send_reporting op)
  | ALook => lift (ret true)
  | AListen => listenS again ;;; lift (ret true)
  | AIterate => iterateFrameS again header_init ;;; lift (ret true)
  end.
Fixpoint exec_code (again : event -> MS unit) (c : code) : MS unit := fun x =>
  match c with
  | Finish => (Ret tt, x)
  | Throws => (Throw ExListener, x)
  | Load k => exec_code again (k (fst x)) x
  | Store s k => exec_code again k (s, snd x)
  | Do a k =>
    match perform again a x with
    | (Ret true, x') => exec_code again (k Done) x'
    | (Ret false, x') => exec_code again (k Failed) x'
    | (Throw _, x') => exec_code again (k Raised) x'
    | (Wait, x') => (Wait, x')
    | (Ub u, x') => (Ub u, x')
    | (OutOfFuel, x') => (OutOfFuel, x')
    end
  end.
(** [if(m_listener) m_listener->callback(...)], WebSocket.cpp:174-175, 180-181, 197-198, 233-243, 252-253, 262-263. Callbacks nest at most [depth] deep
    (a frame is read between two levels, so the input bounds the depth: C99_total). *)
Fixpoint call_object (obj : object) (depth : nat) (ev : event) : MS unit := fun x =>
  match s_listener (w_sock (snd x)) with
  | None => (Ret tt, x)
  | Some l =>
    let w' := set_log (snd x) (w_log (snd x) ++ [(l, ev)]) in
    match depth with
    | O => (OutOfFuel, x)
    | Datatypes.S d => exec_code (call_object obj d) (obj l ev) (fst x, w')
    end
  end.
(** listen() called by the application, and iterateFrame(). *)
Definition depth_of (w : world) : nat := Datatypes.S (script_size (w_in w)).
Definition listen_object (obj : object) : MS unit := fun x => listenS (call_object obj (depth_of (snd x))) x.
Definition iterate_object (obj : object) (h : header) : MS header := fun x => iterateFrameS (call_object obj (depth_of (snd x))) h x.
End Mem.
Arguments Finish {S}.
Arguments Throws {S}.
Arguments Load {S}.
Arguments Store {S}.
Arguments Do {S}.
Arguments lift {S A}.
Arguments bindS {S A B}.
Arguments listen_object {S}.
Arguments iterate_object {S}.
