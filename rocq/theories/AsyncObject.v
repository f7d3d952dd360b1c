(** AsyncWebSocket.cpp once more, with listeners whose coroutines are C++ objects: the coroutine a callback returns is a program ([code], Object.v)
    that reads and writes the listeners' own fields (and any other memory of the application) and decides what to do next by what its calls did.

    oatpp core, contract: a coroutine goes on in one method after the coroutine it started has finished ([.next(yieldTo(...))]), in another if that
    failed (handleError). Simplification: a coroutine that does not handle errors is one that throws when told of one, in a step of its own
    and with an exception of its own. *)
From Verif Require Import Bytes Frame World WebSocket AsyncWebSocket Object.
Local Open Scope N_scope.

Section Mem.
Context {S : Type}.     (* the application's memory *)
Variable obj : object S.

(** The coroutine a listener has returned: it is about to run, or has started a sending coroutine. *)
Inductive doing :=
| Running (c : code S)
| Asked (k : answer -> code S).
(** Only one callback is in progress at a time: the socket waits for the coroutine a listener returned (AsyncWebSocket.cpp:270-306, 379-421).
    Such a coroutine is [CoUser [] freed] on the stack. *)
Record oconf := OConf { o_mem : S; o_now : option doing; o_conf : conf }.

(** Runs up to the next call. *)
Inductive todo := TFinish | TThrow | TDo (a : act) (k : answer -> code S).
Fixpoint settle (c : code S) (s : S) : S * todo :=
  match c with
  | Finish => (s, TFinish)
  | Throws => (s, TThrow)
  | Load k => settle (k s) s
  | Store s' k => settle k s'
  | Do a k => (s, TDo a k)
  end.
Definition told_now (d : option doing) : code S :=
  match d with
  | Some (Running c) => c
  | Some (Asked k) => k Raised
  | None => Finish
  end.

(** The listener's coroutine takes a step. There is no stopListening, listen and iterateFrame on AsyncWebSocket; listenAsync from a callback: AsyncReentry.v. *)
Definition object_user (freed : bool) (s : S) (d : option doing) (hdr : header) (short : bytes) (K : list cor) (w : world) : status * oconf :=
  let (s', t) := settle (told_now d) s in
  match t with
  | TFinish => (ARun, OConf s' None (Conf hdr short K w))
  | TThrow => let (st, c) := fail ExListener (Conf hdr short K w) in (st, OConf s' None c)
  | TDo a k =>
    let go w := (ARun, OConf s' (Some (Running (k Done))) (Conf hdr short (CoUser [] freed :: K) w)) in
    match a with
    | ASetListener l => go (set_sock w (set_listener (w_sock w) l))
    | ASetConfig m b => go (set_sock w (set_config (w_sock w) m b))
    | ASend op => (ARun, OConf s' (Some (Asked k)) (Conf hdr short (start_send op :: CoCatch :: CoUser [] freed :: K) w))
    | ALook => if freed then (AUb UbDangling, OConf s' None (Conf hdr short [] w)) else go w
    | AStop | AListen | AIterate => go w
    end
  end.

(** One step: the library's ([step], AsyncWebSocket.v), unless the listener's coroutine is to run. *)
Definition object_step (x : oconf) : status * oconf :=
  match c_stack (o_conf x) with
  | CoUser _ freed :: K => object_user freed (o_mem x) (o_now x) (c_hdr (o_conf x)) (c_short (o_conf x)) K (c_world (o_conf x))
  | CoCatch :: K =>                            (* the sending coroutine has finished *)
    (ARun, OConf (o_mem x) (match o_now x with Some (Asked k) => Some (Running (k Done)) | d => d end)
                 (Conf (c_hdr (o_conf x)) (c_short (o_conf x)) K (c_world (o_conf x))))
  | _ =>
    let (st, c) := step (fun _ _ => []) (o_conf x) in
    match c_stack c, List.rev (w_log (c_world c)) with
    | CoUser _ _ :: _, (l, ev) :: _ =>
      if Nat.ltb (length (w_log (c_world (o_conf x)))) (length (w_log (c_world c)))
      then (st, OConf (o_mem x) (Some (Running (obj l ev))) c)      (* a listener has been called *)
      else (st, OConf (o_mem x) (o_now x) c)
    | _, _ => (st, OConf (o_mem x) (o_now x) c)
    end
  end.
Definition object_tick (sx : status * oconf) : status * oconf :=
  match sx with
  | (ARun, x) | (AWait, x) => object_step x
  | _ => sx
  end.
Fixpoint object_run (evs : list xev) (sx : status * oconf) : status * oconf :=
  match evs with
  | [] => sx
  | Tick :: r => object_run r (object_tick sx)
  | Arrive s :: r => object_run r (fst sx, OConf (o_mem (snd sx)) (o_now (snd sx)) (arrive s (o_conf (snd sx))))
  end.
(** listenAsync() *)
Definition object_start (s : S) (w : world) : oconf := OConf s None (start_listen w).
End Mem.
Arguments doing : clear implicits.
Arguments oconf : clear implicits.
Arguments todo : clear implicits.
