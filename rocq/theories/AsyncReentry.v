(** AsyncWebSocket.cpp with callbacks whose coroutines may call listenAsync() on the socket that is calling them.

    oatpp core, contract: the coroutine of a nested listenAsync is pushed above the callback's coroutine, which goes on when it has finished or,
    in handleError, when it has failed. Each listenAsync has a Frame::Header of its own (AsyncWebSocket.cpp:435, 440), each HandleFrameCoroutine a message
    stream of its own (AsyncWebSocket.cpp:343, 375-385). *)
From Verif Require Import Bytes Frame World WebSocket AsyncWebSocket Object AsyncObject.
Local Open Scope N_scope.

Section Mem.
Context {S : Type}.
Variable obj : object S.

(** A callback's coroutine that waits for the listenAsync it has started: the header and stream of the listening that called it, the coroutines from it
    downwards to that listening, what it does next. *)
Record level := Level { v_hdr : header; v_short : bytes; v_stack : list cor; v_code : answer -> code S }.
Record rconf := RConf { r_outer : list level; r_now : oconf S }.

(** The nested listenAsync has ended: back to the callback. The socket, its connection and the application's memory are shared. *)
Definition back (outer : list level) (sx : status * oconf S) : status * rconf :=
  match outer, fst sx with
  | Level h sh K k :: r, ADone => (ARun, RConf r (OConf (o_mem (snd sx)) (Some (Running (k Done))) (Conf h sh K (c_world (o_conf (snd sx))))))
  | Level h sh K k :: r, AFail _ => (ARun, RConf r (OConf (o_mem (snd sx)) (Some (Running (k Raised))) (Conf h sh K (c_world (o_conf (snd sx))))))
  | _, st => (st, RConf outer (snd sx))
  end.
(** One step: as before (AsyncObject.v), unless a callback's coroutine calls listenAsync. *)
Definition reentry_step (x : rconf) : status * rconf :=
  let y := r_now x in
  match c_stack (o_conf y) with
  | CoUser _ freed :: K =>
    match settle (told_now (o_now y)) (o_mem y) with
    | (s', TDo AListen k) =>
      (ARun, RConf (Level (c_hdr (o_conf y)) (c_short (o_conf y)) (CoUser [] freed :: K) k :: r_outer x)
                   (OConf s' None (start_listen (c_world (o_conf y)))))
    | _ => back (r_outer x) (object_step obj y)
    end
  | _ => back (r_outer x) (object_step obj y)
  end.
Definition reentry_tick (sx : status * rconf) : status * rconf :=
  match sx with
  | (ARun, x) | (AWait, x) => reentry_step x
  | _ => sx
  end.
Definition reentry_arrive (s : list rev) (x : rconf) : rconf :=
  RConf (r_outer x) (OConf (o_mem (r_now x)) (o_now (r_now x)) (arrive s (o_conf (r_now x)))).
Fixpoint reentry_run (evs : list xev) (sx : status * rconf) : status * rconf :=
  match evs with
  | [] => sx
  | Tick :: r => reentry_run r (reentry_tick sx)
  | Arrive s :: r => reentry_run r (fst sx, reentry_arrive s (snd sx))
  end.
(** listenAsync() *)
Definition reentry_start (s : S) (w : world) : rconf := RConf [] (object_start s w).
End Mem.
Arguments level : clear implicits.
Arguments rconf : clear implicits.
Notation r_world x := (c_world (o_conf (r_now x))).
