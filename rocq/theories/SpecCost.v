(** Vocabulary for C82 and C83: what receiving costs an asynchronous socket in memory and in work. *)
From Verif Require Import Bytes Frame World WebSocket AsyncWebSocket SpecFrame.
Local Open Scope N_scope.

(** Received bytes kept by a coroutine object: the bytes of an unfinished header field; for a payload the read buffer and,
    while a chunk is dealt with, its decoded copy (AsyncWebSocket.cpp:243, 290). *)
Definition kept_bytes (co : cor) : N :=
  match co with
  | CoReadFrame (RfAct d) | CoReadFrame (RfOnBb d) | CoReadFrame (RfReadLen _ d) | CoReadFrame (RfOnLen _ d) | CoReadFrame (RfReadMask d) => lenN d
  | CoPayload _ _ buffer _ p => Z.to_N buffer + match p with RpOnData d => lenN d | _ => 0 end
  | _ => 0
  end.
(** ... and in the buffer for the payload of a control frame (c_short, AsyncWebSocket.cpp:376-388). *)
Definition memory (c : conf) : N := lenN (c_short c) + fold_right N.add 0 (map kept_bytes (c_stack c)).

(** No configuration in use has a read buffer larger than [B]. *)
Definition cfg_cmd (B : Z) (c : cmd) : Prop := match c with CSetConfig _ b => (b <= B)%Z | _ => True end.
Definition cfg_ev (B : Z) (e : rev) : Prop := match e with RExt (XSetConfig _ b) => (b <= B)%Z | _ => True end.

(** Number of method calls the executor makes that neither wait for the connection nor end the run. *)
Fixpoint busy (react : react_t) (evs : list xev) (sc : status * conf) : nat :=
  match evs with
  | [] => 0
  | Tick :: r => let sc' := tick react sc in (match fst sc' with ARun => 1 | _ => 0 end) + busy react r sc'
  | Arrive s :: r => busy react r (fst sc, arrive s (snd sc))
  end.
(** What a connection has in store for its reader: bytes, other results of read(), calls of other threads. *)
Fixpoint amount (s : list rev) : nat :=
  match s with [] => 0 | RData _ bs :: r => S (length bs) + amount r | _ :: r => 1 + amount r end.
(** What the calls [new] ask for: a unit for the call and 30 for every command in it (sending a message takes up to 14 method calls besides
    the answers of write()). *)
Fixpoint chores (react : react_t) (log new : list (nat * event)) : nat :=
  match new with [] => 0 | e :: r => 1 + 30 * length (react (fst e) (log ++ [e])) + chores react (log ++ [e]) r end.
