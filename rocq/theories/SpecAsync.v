(** Specification vocabulary for the asynchronous socket. *)
From Verif Require Import Bytes Frame World WebSocket AsyncWebSocket SpecFrame SpecSend SpecListen SpecApi.
Local Open Scope N_scope.

(** No calls of other threads; any connection failures. *)
Definition no_ext (x : ext) : Prop := False.
Definition io_only (s : list rev) : Prop := script_ok no_ext any_err s.

(** Listener code of the equivalence: it sends and throws. It does not stop, re-install listeners or reconfigure
    (the claim's condition), and looks at its data only inside the callback itself (see C31 for the rest).
    If [strict], failures of sends are not swallowed. *)
Definition async_cmd (strict : bool) (c : cmd) : Prop :=
  match c with
  | CThrow => True
  | CSend catch op =>
    strict = true -> catch = match op with SoFrame _ _ _ => true | _ => false end
  | CDemand _ _ _ => True
  | _ => False
  end.
Definition async_react (strict : bool) (react : react_t) : Prop := forall l log, Forall (async_cmd strict) (react l log).
(** The peer never refuses data for good: it takes what it is sent bit by bit, or stops taking any. *)
Definition failure (e : wev) : Prop := match e with WIo IoZero | WIo IoBroken => True | _ => False end.
Definition never_fails (q : list wev) : Prop := Forall (fun e => ~ failure e) q.
(** Sends may only be swallowed if they cannot fail. *)
Definition env_ok (strict : bool) (w : world) : Prop := strict = false -> never_fails (w_wr w).

(** The asynchronous socket has no "listening" flag. *)
Definition er (w : world) : world := set_sock w (set_listening (w_sock w) false).

(** Everything the executor has been given by a schedule. *)
Fixpoint arrivals (evs : list xev) : list rev :=
  match evs with
  | [] => []
  | Tick :: r => arrivals r
  | Arrive s :: r => s ++ arrivals r
  end.
Definition give (w : world) (s : list rev) : world := set_in w (w_in w ++ s).

(** The try block of listen() (WebSocket.cpp:283-289): its outcome shows whether listen() swallowed an exception. *)
Definition listen_try (react : react_t) : M unit := (
  modify_sock (fun s => set_listening s true) ;;;
  w <- get ;;
  listen_loop react (S (script_size (w_in w))) header_init)%m.

(** The two implementations ended the same way. *)
Definition same_end {A} (st : status) (o : outcome A) : Prop :=
  match st, o with
  | ADone, Ret _ => True
  | AFail _, Throw _ => True
  | AWait, Wait => True
  | AUb u, Ub u' => u = u'
  | _, _ => False
  end.
(** The two worlds are the same to users and to the peer: input left, output, randomness used, listener calls, and
    the socket's fields (but for the listening flag, which AsyncWebSocket does not have). *)
Definition same_effects (a s : world) : Prop :=
  w_in a = w_in s /\ w_wr a = w_wr s /\ w_out a = w_out s /\ w_rpos a = w_rpos s /\ w_log a = w_log s /\
  s_last (w_sock a) = s_last (w_sock s) /\ s_mask (w_sock a) = s_mask (w_sock s) /\
  s_buf (w_sock a) = s_buf (w_sock s) /\ s_listener (w_sock a) = s_listener (w_sock s).

(** Executor steps only. *)
Fixpoint ticks (n : nat) : list xev := match n with O => [] | S k => Tick :: ticks k end.

(** A sending call of the blocking socket, reporting failure as [false] if it does not throw (sendOneFrame). *)
Definition send_reporting (op : sendop) : M bool :=
  match op with
  | SoFrame fin opcode m => sendOneFrame fin opcode m
  | _ => (send op ;;; ret true)%m
  end.
(** The blocking call failed or succeeded as the coroutine did. *)
Definition same_send_end (st : status) (o : outcome bool) : Prop :=
  match st, o with
  | ADone, Ret true => True
  | AFail _, Ret false => True
  | AFail _, Throw _ => True
  | AWait, Wait => True
  | AUb u, Ub u' => u = u'
  | _, _ => False
  end.

(** * The same listener code on the blocking socket

    AsyncWebSocket reports a failed send as an error of the coroutine: it ends the callback (and listening) unless the
    listener handles it, and leaves the socket listening if it does. In terms of the blocking API: a handled send is
    a sendOneFrame whose result is ignored (inside try/catch), an unhandled one a sendOneFrame whose failure is
    thrown, or one of the calls that throw by themselves. *)
Definition req_message (op : sendop) : option bytes :=
  match op with SoClose0 => None | SoClose _ _ => Some (req_payload op) | SoFrame _ _ m | SoPing m | SoPong m | SoText m | SoBinary m => m end.
Definition as_blocking_cmd (c : cmd) : cmd :=
  match c with
  | CSend true op => CSend true (SoFrame (req_fin op) (req_opcode op) (req_message op))
  | CSend false (SoFrame fin opcode m) => CDemand fin opcode m
  | c => c
  end.
Definition as_blocking (react : react_t) : react_t := fun l log => map as_blocking_cmd (react l log).

(** Listener code that sends, throws and looks at the data it was given. *)
Definition user_cmd (c : cmd) : Prop :=
  match c with
  | CSend _ _ | CDemand _ _ _ | CThrow | CUseData => True
  | _ => False
  end.
Definition user_react (react : react_t) : Prop := forall l log, Forall user_cmd (react l log).
Definition no_use (react : react_t) : Prop := forall l log, Forall (fun c => c <> CUseData) (react l log).

(** A frame with opcode [op] and payload length [n] that the library refuses after the frames [fs] (received from the
    start of a connection). *)
Definition refused (fs : list (lform * frame)) (op n : N) : Prop :=
  ((op = 8 \/ op = 9 \/ op = 10) /\ 125 < n < 2 ^ 63) \/
  (3 <= op <= 7 \/ 11 <= op <= 15) \/
  (op = 0 /\ started fs = false) \/
  ((op = 1 \/ op = 2) /\ msg_open false fs = true).

(** Some write between [w] and [w'] has failed. *)
Definition write_failed (w w' : world) : Prop := exists used, w_wr w = used ++ w_wr w' /\ Exists failure used.
(** The same connection, had its peer stopped taking data for good at the moment its first write fails. *)
Fixpoint before_failure (q : list wev) : list wev :=
  match q with
  | [] => []
  | WIo IoZero :: _ | WIo IoBroken :: _ => [WIo IoRetry; WBlock]
  | e :: r => e :: before_failure r
  end.
Definition until_failure (w : world) : world := set_wr w (w_out w) (before_failure (w_wr w)).
