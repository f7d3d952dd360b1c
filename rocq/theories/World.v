(** The world a socket lives in: the connection (a contract for oatpp core's IOStream, which is
    not part of the repository), the random source, the listener log, and the socket's fields. *)
From Verif Require Import Bytes Frame.
Local Open Scope N_scope.

(** ** Inbound side of the connection *)

(** Results of a failed read or write call: IOError::RETRY_READ / RETRY_WRITE ("try again"),
    0 (ZERO_VALUE, end of stream), or any other negative value (BROKEN_PIPE, ...). *)
Inductive ioerr := IoRetry | IoZero | IoBroken.

(** A call made by another thread while the listening thread is inside [read].
    Data races are not modelled: such a call is atomic and takes effect at a read. *)
Inductive ext :=
| XStop                                  (* WebSocket::stopListening *)
| XSetListener (l : option nat)          (* setListener *)
| XSetConfig (msk : bool) (buf : Z).     (* setConfig *)

(** What the connection will do, in order. A data segment is non-empty; a read of [n] bytes
    takes at most [n] bytes from the segment at the head. *)
Inductive rev :=
| RData (b : byte) (bs : bytes)
| RIo (e : ioerr)
| RExt (x : ext).

(** ** Outbound side *)
Inductive wev :=
| WAccept (n : positive)   (* one write call accepts at most n bytes *)
| WIo (e : ioerr)          (* one write call fails *)
| WBlock.                  (* the write call does not return *)
(* after the end of the list every write call accepts everything *)

(** ** Listener calls.  WebSocket.hpp:63-89, AsyncWebSocket.hpp:86-118.
    The socket argument is left out; [nat] in the log is the identity of the listener called. *)
Inductive event :=
| EvMsg (opcode : N) (data : bytes)      (* readMessage(opcode, data, size>0) *)
| EvEnd (opcode : N)                     (* readMessage(opcode, nullptr, 0) *)
| EvPing (m : bytes)
| EvPong (m : bytes)
| EvClose (code : N) (m : bytes).

(** ** Socket fields. WebSocket.hpp:107-111, AsyncWebSocket.hpp:138-142. *)
Record sock := Sock {
  s_mask : bool;             (* m_config.maskOutgoingMessages *)
  s_buf : Z;                 (* m_config.readBufferSize, v_int32 *)
  s_listener : option nat;   (* m_listener; None = nullptr *)
  s_last : Z;                (* m_lastOpcode, v_int32 *)
  s_listening : bool         (* m_listening *)
}.

Record world := World {
  w_in : list rev;
  w_wr : list wev;
  w_out : bytes;                     (* bytes accepted by the connection so far *)
  w_rnd : nat -> byte;               (* random source *)
  w_rpos : nat;                      (* bytes drawn from it so far *)
  w_log : list (nat * event);        (* listener calls so far, oldest first *)
  w_sock : sock
}.

Definition set_in (w : world) (i : list rev) : world :=
  World i (w_wr w) (w_out w) (w_rnd w) (w_rpos w) (w_log w) (w_sock w).
Definition set_sock (w : world) (s : sock) : world :=
  World (w_in w) (w_wr w) (w_out w) (w_rnd w) (w_rpos w) (w_log w) s.
Definition set_log (w : world) (l : list (nat * event)) : world :=
  World (w_in w) (w_wr w) (w_out w) (w_rnd w) (w_rpos w) l (w_sock w).
Definition set_rpos (w : world) (p : nat) : world :=
  World (w_in w) (w_wr w) (w_out w) (w_rnd w) p (w_log w) (w_sock w).
Definition set_wr (w : world) (o : bytes) (q : list wev) : world :=
  World (w_in w) q o (w_rnd w) (w_rpos w) (w_log w) (w_sock w).

Definition set_last (s : sock) (z : Z) : sock :=
  Sock (s_mask s) (s_buf s) (s_listener s) z (s_listening s).
Definition set_listening (s : sock) (b : bool) : sock :=
  Sock (s_mask s) (s_buf s) (s_listener s) (s_last s) b.
Definition set_listener (s : sock) (l : option nat) : sock :=
  Sock (s_mask s) (s_buf s) l (s_last s) (s_listening s).
Definition set_config (s : sock) (m : bool) (b : Z) : sock :=
  Sock m b (s_listener s) (s_last s) (s_listening s).

(** ** Outcomes *)
(** One constructor per throw site. *)
Inductive exn :=
| ExHeaderRead | ExLen2Read | ExLen3Read | ExMaskRead            (* WebSocket.cpp:76,88,95,103 *)
| ExHeaderWrite | ExLen2Write | ExLen3Write | ExMaskWrite        (* WebSocket.cpp:119,126,134,141 *)
| ExPayloadLen                                                    (* WebSocket.cpp:150 *)
| ExBadAlloc             (* new v_char8[negative]: std::bad_array_new_length, WebSocket.cpp:153 *)
| ExConnState                                                     (* WebSocket.cpp:191 *)
| ExInvalidState | ExContinuationExpected                         (* WebSocket.cpp:208,217,225 *)
| ExUnknownFrame                                                  (* WebSocket.cpp:269 *)
| ExSend                                                          (* WebSocket.cpp:353,361,368,375,382,389 *)
| ExAsyncIO              (* AsyncIOError raised by oatpp core's async inline reads/writes *)
| ExListener.            (* anything thrown by listener code *)

Inductive ub :=
| UbOverflow         (* write past the end of the read buffer *)
| UbNegativeCount    (* negative byte count passed to read *)
| UbSigned           (* v_int32 loop counter overflow *)
| UbDangling         (* use of a freed data pointer *)
| UbNull.            (* null dereference *)

Inductive outcome (A : Type) :=
| Ret (a : A)
| Throw (e : exn)
| Wait          (* blocked in the connection, more input/room may still come *)
| Ub (u : ub)
| OutOfFuel.    (* model artefact; proved unreachable *)
Arguments Ret {A} a.
Arguments Throw {A} e.
Arguments Wait {A}.
Arguments Ub {A} u.
Arguments OutOfFuel {A}.

Definition M (A : Type) : Type := world -> outcome A * world.

Definition ret {A} (a : A) : M A := fun w => (Ret a, w).
Definition throw {A} (e : exn) : M A := fun w => (Throw e, w).
Definition undef {A} (u : ub) : M A := fun w => (Ub u, w).
Definition out_of_fuel {A} : M A := fun w => (OutOfFuel, w).
Definition bind {A B} (m : M A) (f : A -> M B) : M B := fun w =>
  match m w with
  | (Ret a, w') => f a w'
  | (Throw e, w') => (Throw e, w')
  | (Wait, w') => (Wait, w')
  | (Ub u, w') => (Ub u, w')
  | (OutOfFuel, w') => (OutOfFuel, w')
  end.
(** try { m } catch(...) {} *)
Definition try_ (m : M unit) : M unit := fun w =>
  match m w with
  | (Throw _, w') => (Ret tt, w')
  | r => r
  end.
Definition get : M world := fun w => (Ret w, w).
Definition modify_sock (f : sock -> sock) : M unit := fun w => (Ret tt, set_sock w (f (w_sock w))).

Declare Scope m_scope.
Delimit Scope m_scope with m.
Notation "x <- a ;; b" := (bind a (fun x => b))
  (at level 61, a at next level, right associativity) : m_scope.
Notation "a ;;; b" := (bind a (fun _ => b))
  (at level 61, right associativity) : m_scope.

(** ** Reading *)

Definition apply_ext (x : ext) (s : sock) : sock :=
  match x with
  | XStop => set_listening s false
  | XSetListener l => set_listener s l
  | XSetConfig m b => set_config s m b
  end.

(** What is left of a segment goes back to the head of the script. *)
Definition unread (d : bytes) (s : list rev) : list rev :=
  match d with
  | [] => s
  | b :: bs => RData b bs :: s
  end.

Inductive rres :=
| RGot (d : bytes)     (* read returned size d > 0 *)
| RErr (e : ioerr)     (* read returned e *)
| RPending.            (* read has not returned yet: script exhausted *)

(** oatpp core, contract: IOStream::read(buffer, n) with n > 0, together with the calls of
    other threads that take effect while it is in progress. *)
Fixpoint read_raw (n : N) (s : list rev) (k : sock) : rres * list rev * sock :=
  match s with
  | [] => (RPending, [], k)
  | RExt x :: s' => read_raw n s' (apply_ext x k)
  | RIo e :: s' => (RErr e, s', k)
  | RData b bs :: s' => (RGot (takeN n (b :: bs)), unread (dropN n (b :: bs)) s', k)
  end.

(** oatpp core, contract: ReadCallback::readSimple(buffer, n).
    n = 0: returns 0 and consumes nothing. n < 0: converted to a huge size_t, undefined. *)
Definition readSimple (n : Z) : M (bytes + ioerr) := fun w =>
  if (n <? 0)%Z then (Ub UbNegativeCount, w)
  else if (n =? 0)%Z then (Ret (inr IoZero), w)
  else match read_raw (Z.to_N n) (w_in w) (w_sock w) with
       | (r, s', k') =>
         let w' := set_sock (set_in w s') k' in
         match r with
         | RGot d => (Ret (inl d), w')
         | RErr e => (Ret (inr e), w')
         | RPending => (Wait, w')
         end
       end.

Inductive xres :=
| XAll (d : bytes)     (* all requested bytes *)
| XShort (d : bytes)   (* read failed after d *)
| XPending.

(** oatpp core, contract: ReadCallback::readExactSizeDataSimple(buffer, n): repeats read() until
    n bytes have been read, ignoring RETRY, stopping at any other failure. Lemma
    [readExact_unfold] shows that this is the iteration of [read_raw]. *)
Fixpoint readExact_raw (n : N) (s : list rev) (k : sock) : xres * list rev * sock :=
  if n =? 0 then (XAll [], s, k) else
  match s with
  | [] => (XPending, [], k)
  | RExt x :: s' => readExact_raw n s' (apply_ext x k)
  | RIo IoRetry :: s' => readExact_raw n s' k
  | RIo _ :: s' => (XShort [], s', k)
  | RData b bs :: s' =>
    if n <=? lenN (b :: bs) then (XAll (takeN n (b :: bs)), unread (dropN n (b :: bs)) s', k)
    else match readExact_raw (n - lenN (b :: bs)) s' k with
         | (XAll d, s'', k') => (XAll ((b :: bs) ++ d), s'', k')
         | (XShort d, s'', k') => (XShort ((b :: bs) ++ d), s'', k')
         | (XPending, s'', k') => (XPending, s'', k')
         end
  end.

(** Returns the bytes actually read; the caller compares their number with [n]. *)
Definition readExactSizeDataSimple (n : N) : M bytes := fun w =>
  match readExact_raw n (w_in w) (w_sock w) with
  | (r, s', k') =>
    let w' := set_sock (set_in w s') k' in
    match r with
    | XAll d => (Ret d, w')
    | XShort d => (Ret d, w')
    | XPending => (Wait, w')
    end
  end.

(** ** Writing *)

Inductive wres := WDone | WFailed | WPending.

(** oatpp core, contract: WriteCallback::writeExactSizeDataSimple: repeats write() until all data
    is written, ignoring RETRY, stopping at any other failure.
    Returns (result, bytes accepted, remaining script). *)
Fixpoint writeExact_raw (d : bytes) (q : list wev) : wres * bytes * list wev :=
  match d with
  | [] => (WDone, [], q)
  | _ =>
    match q with
    | [] => (WDone, d, [])
    | WBlock :: _ => (WPending, [], q)
    | WIo IoRetry :: q' => writeExact_raw d q'
    | WIo _ :: q' => (WFailed, [], q')
    | WAccept n :: q' =>
      match writeExact_raw (dropN (Npos n) d) q' with
      | (r, a, q'') => (r, takeN (Npos n) d ++ a, q'')
      end
    end
  end.

(** Returns the number of bytes written. *)
Definition writeExactSizeDataSimple (d : bytes) : M N := fun w =>
  match writeExact_raw d (w_wr w) with
  | (r, a, q') =>
    let w' := set_wr w (w_out w ++ a) q' in
    match r with
    | WPending => (Wait, w')
    | _ => (Ret (lenN a), w')
    end
  end.

(** oatpp core, contract: Random::randomBytes(buffer, n): the next n bytes of the source. *)
Definition randomBytes (n : nat) : M bytes := fun w =>
  (Ret (map (w_rnd w) (seq (w_rpos w) n)), set_rpos w (w_rpos w + n)).

(** Measure of an inbound script: every read with a positive count that returns consumes
    at least one unit. *)
Fixpoint script_size (s : list rev) : nat :=
  match s with
  | [] => 0
  | RData _ bs :: s' => 2 + length bs + script_size s'
  | _ :: s' => 1 + script_size s'
  end.
