(** WebSocket.cpp once more, with the references that keep listener objects alive.

    m_listener (WebSocket.hpp:109) is a shared_ptr; setListener (WebSocket.hpp:175-177) assigns it and so gives up the socket's reference to the previous
    listener, which is destroyed if nobody else holds one. The callbacks are called through m_listener itself (WebSocket.cpp:175, 181, 198, 243, 253, 263), no second
    reference is taken for the duration of the call. A callback that goes on after its listener has been destroyed is undefined behaviour as soon as it touches a member of
    the listener; simplification: every further action counts as touching one.

    [listen_with] is listen of WebSocket.v with the calls of the listener as a parameter (PropOwnership.v: listen_with_notify). *)
From Verif Require Import Bytes Frame World WebSocket.
Local Open Scope N_scope.
Local Open Scope m_scope.

Section With.
Variable call : event -> M unit.
(** WebSocket.cpp:156-194 *)
Fixpoint payload_with (fuel : nat) (h : header) (short : option bytes) (alloc progress : Z) : M (option bytes) :=
  match fuel with
  | O => out_of_fuel
  | S fuel' =>
    if (progress <? h_len h)%Z then
      w <- get ;;
      let desired := s_buf (w_sock w) in
      let desired := if (h_len h - progress <? desired)%Z then (h_len h - progress)%Z else desired in
      r <- readSimple desired ;;
      match r with
      | inl data =>
        if (alloc <? Z.of_N (lenN data))%Z then undef UbOverflow else
        let data' := if h_hasMask h then xor_from (h_mask h) (Z.to_N progress) data else data in
        match short with
        | Some s => payload_with fuel' h (Some (s ++ data')) alloc (progress + Z.of_N (lenN data))%Z
        | None =>
          call (EvMsg (h_opcode h) data') ;;;
          payload_with fuel' h None alloc (progress + Z.of_N (lenN data))%Z
        end
      | inr IoRetry => payload_with fuel' h short alloc progress
      | inr _ => throw ExConnState
      end
    else ret short
  end.
(** WebSocket.cpp:147-201 *)
Definition readPayload_with (h : header) (short : option bytes) : M (option bytes) :=
  if (match short with Some _ => true | None => false end && (125 <? h_len h)%Z)%bool
  then throw ExPayloadLen else
  w <- get ;;
  let alloc := s_buf (w_sock w) in
  if (alloc <? 0)%Z then throw ExBadAlloc else
  short' <- payload_with (S (script_size (w_in w))) h short alloc 0 ;;
  (match short with
   | None => if h_fin h then call (EvEnd (h_opcode h)) else ret tt
   | Some _ => ret tt
   end) ;;;
  ret short'.
(** WebSocket.cpp:203-273 *)
Definition handleFrame_with (h : header) : M unit :=
  match h_opcode h with
  | 0 =>
    w <- get ;;
    if (s_last (w_sock w) <? 0)%Z then throw ExInvalidState
    else readPayload_with h None ;;; ret tt
  | 1 | 2 =>
    ok <- checkForContinuation h ;;
    if (ok : bool) then readPayload_with h None ;;; ret tt
    else throw ExContinuationExpected
  | 8 =>
    p <- readPayload_with h (Some []) ;;
    call (EvClose (close_code (str p)) (close_reason (str p)))
  | 9 =>
    p <- readPayload_with h (Some []) ;;
    call (EvPing (str p))
  | 10 =>
    p <- readPayload_with h (Some []) ;;
    call (EvPong (str p))
  | _ => throw ExUnknownFrame
  end.
(** WebSocket.cpp:286-289 *)
Fixpoint loop_with (fuel : nat) (h : header) : M unit :=
  match fuel with
  | O => out_of_fuel
  | S fuel' =>
    h' <- readFrameHeader h ;;
    handleFrame_with h' ;;;
    w <- get ;;
    if (negb (h_opcode h' =? OPCODE_CLOSE) && s_listening (w_sock w))%bool
    then loop_with fuel' h'
    else ret tt
  end.
(** WebSocket.cpp:280-296 *)
Definition listen_with : M unit :=
  modify_sock (fun s => set_listening s true) ;;;
  w <- get ;;
  try_ (loop_with (S (script_size (w_in w))) header_init).
End With.

(** [kept l]: somebody else holds a reference to listener [l] all the time. *)
Definition alive (kept : nat -> bool) (l : nat) (w : world) : bool :=
  (kept l || match s_listener (w_sock w) with Some l' => Nat.eqb l' l | None => false end)%bool.
(** Code of listener [l]. *)
Fixpoint exec_owned (kept : nat -> bool) (l : nat) (cs : list cmd) : M unit :=
  match cs with
  | [] => ret tt
  | c :: cs' => (fun w => if alive kept l w then exec_cmd c w else (Ub UbDangling, w)) ;;; exec_owned kept l cs'
  end.
(** WebSocket.cpp:174-175, 180-181, 197-198, 233-243, 252-253, 262-263 *)
Definition notify_owned (kept : nat -> bool) (react : react_t) (ev : event) : M unit := fun w =>
  match s_listener (w_sock w) with
  | None => (Ret tt, w)
  | Some l =>
    let w' := set_log w (w_log w ++ [(l, ev)]) in
    exec_owned kept l (react l (w_log w')) w'
  end.
Definition listen_owned (kept : nat -> bool) (react : react_t) : M unit := listen_with (notify_owned kept react).
