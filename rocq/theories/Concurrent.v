(** Several threads (WebSocket) or coroutines (AsyncWebSocket) sending on one socket.

    There is no lock in WebSocket.cpp or AsyncWebSocket.cpp: a sending call issues one write after the other
    on the shared connection, and the writes of different callers interleave. The model interleaves single
    write() calls of the connection; what happens between two write() calls of one caller (reading the
    configuration, drawing the masking key) is part of the step that precedes them. Data races on the socket
    object itself are not modelled (sending only reads its fields). *)
From Verif Require Import Bytes Frame World WebSocket AsyncWebSocket.
Local Open Scope N_scope.

(** ** Threads on the blocking socket *)

(** WebSocket.cpp:109-145 writeFrameHeader: its writes after the first, in order. *)
Definition len_write (h : header) : list bytes :=
  let scenario := snd (packHeaderBits h) in
  if scenario =? 2 then [be_enc 2 (i64_to_u16 (h_len h))]
  else if scenario =? 3 then
    [be_enc 4 (i64_to_u32 (Z.shiftr (h_len h) 32)) ++ be_enc 4 (i64_to_u32 (Z.land (h_len h) 4294967295))]
  else [].
Definition mask_write (h : header) : list bytes := if h_hasMask h then [mask_bytes (h_mask h)] else [].
(** WebSocket.cpp:320-339 sendOneFrame: the write of the payload, if there is one. *)
Definition payload_write (h : header) (m : option bytes) : list bytes :=
  match m with
  | Some (b :: bs) => [if h_hasMask h then xor_from (h_mask h) 0 (b :: bs) else b :: bs]
  | _ => []
  end.
(** The data of the calls of writeExactSizeDataSimple made by one sendOneFrame, in order. *)
Definition writes (h : header) (m : option bytes) : list bytes :=
  be_enc 2 (fst (packHeaderBits h)) :: len_write h ++ mask_write h ++ payload_write h m.

(** WebSocket.cpp:302-313 sendFrameHeader up to the first write, as called at lines 321 and 336. *)
Definition frame_header (fin : bool) (opcode : N) (m : option bytes) (w : world) : header * world :=
  let n := match m with Some (b :: bs) => Z.of_N (lenN (b :: bs)) | _ => 0%Z end in
  let h := Header fin false false false opcode (s_mask (w_sock w)) n mask0 in
  if s_mask (w_sock w)
  then (set_mask h (mask_of (map (w_rnd w) (seq (w_rpos w) 4))), set_rpos w (w_rpos w + 4))
  else (h, w).

(** A thread: what is left to write of the call in progress, and the calls still to be made. *)
Record sender := Sender { d_now : list bytes; d_todo : list sendop }.

Definition upd {A} (f : nat -> A) (i : nat) (x : A) : nat -> A := fun j => if Nat.eqb j i then x else f j.

(** One step of thread [i]: enter the next sending call, or one write() call. A thread whose call fails stops
    sending. [writeExactAsyncInline] is one write() call. *)
Definition cstep (i : nat) (s : (nat -> sender) * world) : (nat -> sender) * world :=
  let (f, w) := s in
  match d_now (f i) with
  | [] =>
    match d_todo (f i) with
    | [] => s
    | op :: r =>
      match send_args op with
      | (fin, opcode, m) =>
        let (h, w') := frame_header fin opcode m w in
        (upd f i (Sender (writes h m) r), w')
      end
    end
  | c :: cs =>
    match writeExactAsyncInline c w with
    | (INext _, w') => (upd f i (Sender cs (d_todo (f i))), w')
    | (IAgain c', w') => (upd f i (Sender (c' :: cs) (d_todo (f i))), w')
    | (IWait, _) => s
    | (IFail, w') => (upd f i (Sender [] []), w')
    end
  end.
(** A schedule says which thread moves. *)
Fixpoint crun (sch : list nat) (s : (nat -> sender) * world) : (nat -> sender) * world :=
  match sch with
  | [] => s
  | i :: r => crun r (cstep i s)
  end.
Definition threads (todo : nat -> list sendop) : nat -> sender := fun i => Sender [] (todo i).

(** ** Coroutines on the asynchronous socket *)

(** Each runs its sending calls one after the other: [a_stack] is the coroutine stack of the call in progress. *)
Record asender := ASender { a_stack : list cor; a_todo : list sendop }.

Definition astep (i : nat) (s : (nat -> asender) * world) : (nat -> asender) * world :=
  let (f, w) := s in
  match a_stack (f i) with
  | [] =>
    match a_todo (f i) with
    | [] => s
    | op :: r => (upd f i (ASender [start_send op] r), w)
    end
  | st =>
    match step (fun _ _ => []) (Conf header_init [] st w) with
    | (AFail _, c) | (AUb _, c) => (upd f i (ASender [] []), c_world c)
    | (_, c) => (upd f i (ASender (c_stack c) (a_todo (f i))), c_world c)
    end
  end.
Fixpoint arun (sch : list nat) (s : (nat -> asender) * world) : (nat -> asender) * world :=
  match sch with
  | [] => s
  | i :: r => arun r (astep i s)
  end.
Definition coroutines (todo : nat -> list sendop) : nat -> asender := fun i => ASender [] (todo i).
