(** Vocabulary for C85: which objects keep a listener alive. *)
From Verif Require Import Bytes Frame World WebSocket AsyncWebSocket Coroutines.
Local Open Scope N_scope.

(** The coroutine object holds a shared_ptr to listener [l]: ReadPayloadCoroutine::m_listener (AsyncWebSocket.cpp:229, 245),
    HandleFrameCoroutine::m_listener (AsyncWebSocket.cpp:341, 349). *)
Definition holds (co : cor) (l : nat) : Prop :=
  match co with
  | CoHandle (Some l') _ | CoPayload (Some l') _ _ _ _ => l' = l
  | _ => False
  end.
(** A callback coroutine of a listener has been started and has not ended; [below] are the coroutine objects waiting for it. *)
Definition in_callback (stack below : list cor) : Prop := exists above cs freed, stack = above ++ CoUser cs freed :: below.
(** The last listener call made. *)
Definition last_call (log : list (nat * event)) (l : nat) : Prop := exists before ev, log = before ++ [(l, ev)].
