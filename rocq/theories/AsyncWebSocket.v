(** Model of AsyncWebSocket.hpp / AsyncWebSocket.cpp: the coroutines as a stack machine.

    oatpp core, contract (oatpp::async, not part of the repository): the executor keeps a stack of
    coroutine objects and repeatedly calls the current method of the topmost one; the returned Action
    says what to do: [yieldTo m] makes m the current method, a coroutine starter with [.next(a)] pushes
    the new coroutine and makes [a] what the caller does afterwards, [finish()] pops, REPEAT calls the
    same method again, WAIT suspends until the connection is ready and then calls it again. An exception
    or an error action pops coroutines until one handles it (handleError). [A.next(B).next(a)] runs A, then
    B, then a; B is constructed when the expression is evaluated and started when A has finished.

    One step of the machine is one such method call. Executor schedules are sequences of steps and of
    arrivals of connection events (see [run] below). *)
From Verif Require Import Bytes Frame World WebSocket.
Local Open Scope N_scope.

(** Result of one inline input/output call. *)
Inductive ires :=
| INext (d : bytes)      (* nextAction is returned; [d]: bytes read so far / left to write *)
| IAgain (d : bytes)     (* REPEAT *)
| IWait                  (* WAIT *)
| IFail.                 (* AsyncIOError *)

(** oatpp core, contract: ReadCallback::readExactSizeDataAsyncInline(inlineData, next) with a buffer of [n]
    bytes of which [got] have been read: one read() per call. *)
Definition readExactAsyncInline (n : N) (got : bytes) (w : world) : ires * world :=
  if n <=? lenN got then (INext got, w)
  else match read_raw (n - lenN got) (w_in w) (w_sock w) with
       | (r, s', k') =>
         let w' := set_sock (set_in w s') k' in
         match r with
         | RGot d => (IAgain (got ++ d), w')
         | RErr IoRetry => (IAgain got, w')
         | RErr _ => (IFail, w')
         | RPending => (IWait, w')
         end
       end.

(** oatpp core, contract: ReadCallback::readSomeDataAsyncInline with a buffer of [n] bytes (v_buff_size, signed):
    nothing is read if n <= 0; a zero result goes on with nothing read. *)
Definition readSomeAsyncInline (n : Z) (w : world) : ires * world :=
  if (n <=? 0)%Z then (INext [], w)
  else match read_raw (Z.to_N n) (w_in w) (w_sock w) with
       | (r, s', k') =>
         let w' := set_sock (set_in w s') k' in
         match r with
         | RGot d => (INext d, w')
         | RErr IoRetry => (IAgain [], w')
         | RErr IoZero => (INext [], w')
         | RErr IoBroken => (IFail, w')
         | RPending => (IWait, w')
         end
       end.

(** oatpp core, contract: WriteCallback::writeExactSizeDataAsyncInline, [d] still to be written: one
    write() per call. *)
Definition writeExactAsyncInline (d : bytes) (w : world) : ires * world :=
  match d with
  | [] => (INext [], w)
  | _ =>
    match w_wr w with
    | [] => (IAgain [], set_wr w (w_out w ++ d) [])
    | WBlock :: _ => (IWait, w)
    | WIo IoRetry :: q => (IAgain d, set_wr w (w_out w) q)
    | WIo _ :: q => (IFail, set_wr w (w_out w) q)
    | WAccept n :: q => (IAgain (dropN (Npos n) d), set_wr w (w_out w ++ takeN (Npos n) d) q)
    end
  end.

(** Current methods of the coroutine classes, with the inline data in use. *)
(** AsyncWebSocket.cpp:72-145 ReadFrameCoroutine; [t] is m_lenType. *)
Inductive rf_pc :=
| RfAct (got : bytes)
| RfOnBb (bb : bytes)
| RfReadLen (t : N) (got : bytes)
| RfOnLen (t : N) (got : bytes)
| RfReadMask (got : bytes).
(** AsyncWebSocket.cpp:154-213 WriteFrameCoroutine. *)
Inductive wf_pc :=
| WfAct (left : bytes)
| WfOnBb
| WfWriteLen (left : bytes)
| WfOnLen
| WfWriteMask (left : bytes).
(** AsyncWebSocket.cpp:223-325 ReadPayloadCoroutine; [n] is the size set in m_inlineData. *)
Inductive rp_pc :=
| RpAct
| RpReadData (n : Z)
| RpOnData (got : bytes)
| RpFinish.                 (* .next(finish()) *)
(** AsyncWebSocket.cpp:337-424 HandleFrameCoroutine. *)
Inductive hf_pc := HfAct | HfOnClose | HfOnPing | HfOnPong | HfFinish.
(** AsyncWebSocket.cpp:483-535 SendFrameCoroutine. *)
Inductive sf_pc :=
| SfAct
| SfPrepare
| SfWrite (left : bytes)
| SfFinish.

(** Coroutine objects. [l] is the captured m_listener. *)
Inductive cor :=
| CoListen                                                         (* ListenCoroutine at act *)
| CoReadFrame (p : rf_pc)
| CoHandle (l : option nat) (p : hf_pc)
| CoPayload (l : option nat) (useShort : bool) (alloc progress : Z) (p : rp_pc)
| CoSend (fin : bool) (opcode : N) (m : option bytes) (h : header) (p : sf_pc)
| CoWrite (h : header) (p : wf_pc)
| CoUser (cs : list cmd) (freed : bool)   (* coroutine returned by a listener: commands left; [freed]: the data
                                             pointer it was given no longer points to allocated memory *)
| CoCatch.                                (* listener code catching errors of the coroutine it started *)

(** Machine state. [c_hdr] is the Frame::Header shared by ListenCoroutine, ReadFrameCoroutine,
    HandleFrameCoroutine and ReadPayloadCoroutine, [c_short] the shortMessageStream shared by the latter two.
    Simplification: the header shared by SendFrameCoroutine and WriteFrameCoroutine is copied into both (it is
    not written to after WriteFrameCoroutine was created). *)
Record conf := Conf { c_hdr : header; c_short : bytes; c_stack : list cor; c_world : world }.

Inductive status := ARun | AWait | ADone | AFail (e : exn) | AUb (u : ub).

(** AsyncWebSocket.cpp:58-68 checkForContinuation. *)
Definition checkForContinuationA (h : header) (w : world) : bool * world :=
  let last := s_last (w_sock w) in
  if ((last =? 1) || (last =? 2))%Z%bool then (false, w)
  else (true, set_sock w (set_last (w_sock w) (if h_fin h then (-1)%Z else Z.of_N (h_opcode h)))).

(** Error propagation: coroutines are dropped until one handles the error. ListenCoroutine::handleError
    (AsyncWebSocket.cpp:452-454) passes it on. *)
Fixpoint unwind (st : list cor) : option (list cor) :=
  match st with
  | [] => None
  | CoCatch :: st' => Some st'
  | _ :: st' => unwind st'
  end.
Definition fail (e : exn) (c : conf) : status * conf :=
  match unwind (c_stack c) with
  | None => (AFail e, Conf (c_hdr c) (c_short c) [] (c_world c))
  | Some st => (ARun, Conf (c_hdr c) (c_short c) st (c_world c))
  end.

(** AsyncWebSocket.cpp:541-573: arguments of sendOneFrameAsync for each sending call. *)
Definition send_args (op : sendop) : bool * N * option bytes :=
  match op with
  | SoFrame fin opcode m => (fin, opcode, m)
  | SoClose code m => (true, OPCODE_CLOSE, Some (close_payload code m))
  | SoClose0 => (true, OPCODE_CLOSE, None)
  | SoPing m => (true, OPCODE_PING, m)
  | SoPong m => (true, OPCODE_PONG, m)
  | SoText m => (true, OPCODE_TEXT, m)
  | SoBinary m => (true, OPCODE_BINARY, m)
  end.
(** AsyncWebSocket.cpp:537 SendFrameCoroutine::start. *)
Definition start_send (op : sendop) : cor :=
  match send_args op with (fin, opcode, m) => CoSend fin opcode m header_init SfAct end.

(** AsyncWebSocket.cpp:462-479 sendFrameHeaderAsync and 168-177 the constructor of WriteFrameCoroutine. *)
Definition sendFrameHeaderAsync (h : header) (fin : bool) (opcode : N) (messageSize : Z) (w : world) : header * cor * world :=
  let h1 := Header fin false false false opcode (s_mask (w_sock w)) messageSize (h_mask h) in
  if h_hasMask h1 then
    let mk := map (w_rnd w) (seq (w_rpos w) 4) in
    let h2 := set_mask h1 (mask_of mk) in
    (h2, CoWrite h2 (WfAct (be_enc 2 (fst (packHeaderBits h2)))), set_rpos w (w_rpos w + 4))
  else (h1, CoWrite h1 (WfAct (be_enc 2 (fst (packHeaderBits h1)))), w).

Section Step.

Variable react : react_t.

(** A listener callback: the call is logged; the listener returns a coroutine running its commands. *)
Definition call_listener (l : nat) (ev : event) (freed : bool) (w : world) : cor * world :=
  let w' := set_log w (w_log w ++ [(l, ev)]) in
  (CoUser (react l (w_log w')) freed, w').

(** AsyncWebSocket.cpp:93-143 ReadFrameCoroutine. *)
Definition step_readFrame (p : rf_pc) (hdr : header) (short : bytes) (K : list cor) (w : world) : status * conf :=
  let run h p w := (ARun, Conf h short (CoReadFrame p :: K) w) in
  let finish h w := (ARun, Conf h short K w) in
  let wait w := (AWait, Conf hdr short (CoReadFrame p :: K) w) in
  let err w := fail ExAsyncIO (Conf hdr short K w) in
  match p with
  | RfAct got =>
    match readExactAsyncInline 2 got w with
    | (INext bb, w') => run hdr (RfOnBb bb) w'
    | (IAgain got', w') => run hdr (RfAct got') w'
    | (IWait, w') => wait w'
    | (IFail, w') => err w'
    end
  | RfOnBb bb =>
    let (h, messageLen1) := unpackHeaderBits (be_dec bb) hdr in
    if messageLen1 <? 126 then run (set_len h (Z.of_N messageLen1)) (RfOnLen 1 []) w
    else if messageLen1 =? 126 then run h (RfReadLen 2 []) w
    else if messageLen1 =? 127 then run h (RfReadLen 3 []) w
    else fail ExPayloadLen (Conf h short K w)
  | RfReadLen t got =>
    match readExactAsyncInline (if t =? 2 then 2 else 8) got w with
    | (INext d, w') => run hdr (RfOnLen t d) w'
    | (IAgain got', w') => run hdr (RfReadLen t got') w'
    | (IWait, w') => wait w'
    | (IFail, w') => err w'
    end
  | RfOnLen t d =>
    let h := if t =? 2 then set_len hdr (Z.of_N (be_dec d))
             else if t =? 3 then set_len hdr (to_i64 (N.lor (N.shiftl (be_dec (takeN 4 d)) 32) (be_dec (dropN 4 d))))
             else hdr in
    if h_hasMask h then run h (RfReadMask []) w else finish h w
  | RfReadMask got =>
    match readExactAsyncInline 4 got w with
    | (INext d, w') => finish (set_mask hdr (mask_of d)) w'
    | (IAgain got', w') => run hdr (RfReadMask got') w'
    | (IWait, w') => wait w'
    | (IFail, w') => err w'
    end
  end.

(** AsyncWebSocket.cpp:179-211 WriteFrameCoroutine. *)
Definition step_writeFrame (h : header) (p : wf_pc) (hdr : header) (short : bytes) (K : list cor) (w : world) : status * conf :=
  let run p w := (ARun, Conf hdr short (CoWrite h p :: K) w) in
  let finish w := (ARun, Conf hdr short K w) in
  let wait w := (AWait, Conf hdr short (CoWrite h p :: K) w) in
  let err w := fail ExAsyncIO (Conf hdr short K w) in
  match p with
  | WfAct d =>
    match writeExactAsyncInline d w with
    | (INext _, w') => run WfOnBb w'
    | (IAgain d', w') => run (WfAct d') w'
    | (IWait, w') => wait w'
    | (IFail, w') => err w'
    end
  | WfOnBb =>
    let scenario := snd (packHeaderBits h) in
    if scenario =? 2 then run (WfWriteLen (be_enc 2 (i64_to_u16 (h_len h)))) w
    else if scenario =? 3 then
      run (WfWriteLen (be_enc 4 (i64_to_u32 (Z.shiftr (h_len h) 32)) ++
                       be_enc 4 (i64_to_u32 (Z.land (h_len h) 4294967295)))) w
    else run WfOnLen w
  | WfWriteLen d =>
    match writeExactAsyncInline d w with
    | (INext _, w') => run WfOnLen w'
    | (IAgain d', w') => run (WfWriteLen d') w'
    | (IWait, w') => wait w'
    | (IFail, w') => err w'
    end
  | WfOnLen => if h_hasMask h then run (WfWriteMask (mask_bytes (h_mask h))) w else finish w
  | WfWriteMask d =>
    match writeExactAsyncInline d w with
    | (INext _, w') => finish w'
    | (IAgain d', w') => run (WfWriteMask d') w'
    | (IWait, w') => wait w'
    | (IFail, w') => err w'
    end
  end.

(** AsyncWebSocket.cpp:258-323 ReadPayloadCoroutine. The decoded copy of a masked chunk is freed when
    onDataRead returns (line 290: unique_ptr), before the listener's coroutine runs. *)
Definition step_payload (l : option nat) (useShort : bool) (alloc progress : Z) (p : rp_pc)
                        (hdr : header) (short : bytes) (K : list cor) (w : world) : status * conf :=
  let self progress p := CoPayload l useShort alloc progress p in
  match p with
  | RpAct =>
    if (progress <? h_len hdr)%Z then
      let desired := s_buf (w_sock w) in
      let desired := if (h_len hdr - progress <? desired)%Z then (h_len hdr - progress)%Z else desired in
      (ARun, Conf hdr short (self progress (RpReadData desired) :: K) w)
    else if (negb useShort && h_fin hdr)%bool then
      match l with
      | Some li =>
        let (co, w') := call_listener li (EvEnd (h_opcode hdr)) false w in
        (ARun, Conf hdr short (co :: self progress RpFinish :: K) w')
      | None => (ARun, Conf hdr short K w)
      end
    else (ARun, Conf hdr short K w)
  | RpReadData n =>
    match readSomeAsyncInline n w with
    | (INext d, w') =>
      if (alloc <? Z.of_N (lenN d))%Z then (AUb UbOverflow, Conf hdr short [] w')
      else (ARun, Conf hdr short (self progress (RpOnData d) :: K) w')
    | (IAgain _, w') => (ARun, Conf hdr short (self progress (RpReadData n) :: K) w')
    | (IWait, w') => (AWait, Conf hdr short (self progress (RpReadData n) :: K) w')
    | (IFail, w') => fail ExAsyncIO (Conf hdr short K w')
    end
  | RpOnData d =>
    match d with
    | [] => fail ExConnState (Conf hdr short K w)
    | _ =>
      let d' := if h_hasMask hdr then xor_from (h_mask hdr) (Z.to_N progress) d else d in
      let progress' := (progress + Z.of_N (lenN d))%Z in
      if useShort then (ARun, Conf hdr (short ++ d') (self progress' RpAct :: K) w)
      else match l with
           | Some li =>
             let (co, w') := call_listener li (EvMsg (h_opcode hdr) d') (h_hasMask hdr) w in
             (ARun, Conf hdr short (co :: self progress' RpAct :: K) w')
           | None => (ARun, Conf hdr short (self progress' RpAct :: K) w)
           end
    end
  | RpFinish => (ARun, Conf hdr short K w)
  end.

(** AsyncWebSocket.cpp:327-331 readPayloadAsync and 236-252 the constructor of ReadPayloadCoroutine:
    captures the listener installed now and allocates the buffer. None: an exception is thrown. *)
Definition readPayloadAsync (hdr : header) (useShort : bool) (w : world) : exn + cor :=
  if (useShort && (125 <? h_len hdr)%Z)%bool then inl ExPayloadLen
  else if (s_buf (w_sock w) <? 0)%Z then inl ExBadAlloc
  else inr (CoPayload (s_listener (w_sock w)) useShort (s_buf (w_sock w)) 0 RpAct).

(** AsyncWebSocket.cpp:352-422 HandleFrameCoroutine. *)
Definition step_handle (l : option nat) (p : hf_pc) (hdr : header) (short : bytes) (K : list cor) (w : world) : status * conf :=
  let payload useShort next short w :=
    match readPayloadAsync hdr useShort w with
    | inl e => fail e (Conf hdr short K w)
    | inr co => (ARun, Conf hdr short (co :: CoHandle l next :: K) w)
    end in
  let call ev :=
    match l with
    | Some li => let (co, w') := call_listener li ev false w in (ARun, Conf hdr short (co :: CoHandle l HfFinish :: K) w')
    | None => (ARun, Conf hdr short K w)
    end in
  match p with
  | HfAct =>
    match h_opcode hdr with
    | 0 => if (s_last (w_sock w) <? 0)%Z then fail ExInvalidState (Conf hdr short K w)
           else payload false HfFinish short w
    | 1 | 2 =>
      let (ok, w') := checkForContinuationA hdr w in
      if (ok : bool) then payload false HfFinish short w' else fail ExContinuationExpected (Conf hdr short K w')
    | 8 => payload true HfOnClose [] w
    | 9 => payload true HfOnPing [] w
    | 10 => payload true HfOnPong [] w
    | _ => fail ExUnknownFrame (Conf hdr short K w)
    end
  | HfOnClose => call (EvClose (close_code short) (close_reason short))
  | HfOnPing => call (EvPing short)
  | HfOnPong => call (EvPong short)
  | HfFinish => (ARun, Conf hdr short K w)
  end.

(** AsyncWebSocket.cpp:510-533 SendFrameCoroutine. The masking loop counts with a v_int32. *)
Definition step_send (fin : bool) (opcode : N) (m : option bytes) (h : header) (p : sf_pc)
                     (hdr : header) (short : bytes) (K : list cor) (w : world) : status * conf :=
  match p with
  | SfAct =>
    match m with
    | Some (b :: bs) =>
      match sendFrameHeaderAsync h fin opcode (Z.of_N (lenN (b :: bs))) w with
      | (h', co, w') => (ARun, Conf hdr short (co :: CoSend fin opcode m h' SfPrepare :: K) w')
      end
    | _ =>
      match sendFrameHeaderAsync h fin opcode 0 w with
      | (h', co, w') => (ARun, Conf hdr short (co :: CoSend fin opcode m h' SfFinish :: K) w')
      end
    end
  | SfPrepare =>
    let msg := match m with Some d => d | None => [] end in
    if h_hasMask h then
      if 2 ^ 31 <=? lenN msg then (AUb UbSigned, Conf hdr short [] w)
      else (ARun, Conf hdr short (CoSend fin opcode m h (SfWrite (xor_from (h_mask h) 0 msg)) :: K) w)
    else (ARun, Conf hdr short (CoSend fin opcode m h (SfWrite msg) :: K) w)
  | SfWrite d =>
    match writeExactAsyncInline d w with
    | (INext _, w') => (ARun, Conf hdr short K w')
    | (IAgain d', w') => (ARun, Conf hdr short (CoSend fin opcode m h (SfWrite d') :: K) w')
    | (IWait, w') => (AWait, Conf hdr short (CoSend fin opcode m h (SfWrite d) :: K) w')
    | (IFail, w') => fail ExAsyncIO (Conf hdr short K w')
    end
  | SfFinish => (ARun, Conf hdr short K w)
  end.

(** Listener code: one command per step. stopListening does not exist on AsyncWebSocket. *)
Definition step_user (cs : list cmd) (freed : bool) (hdr : header) (short : bytes) (K : list cor) (w : world) : status * conf :=
  match cs with
  | [] => (ARun, Conf hdr short K w)
  | c :: cs' =>
    let go w := (ARun, Conf hdr short (CoUser cs' freed :: K) w) in
    match c with
    | CStop => go w
    | CSetListener l => go (set_sock w (set_listener (w_sock w) l))
    | CSetConfig m b => go (set_sock w (set_config (w_sock w) m b))
    | CSend catch op =>
      (ARun, Conf hdr short (start_send op :: (if catch then [CoCatch] else []) ++ CoUser cs' freed :: K) w)
    | CUseData => if freed then (AUb UbDangling, Conf hdr short [] w) else go w
    | CThrow => fail ExListener (Conf hdr short K w)
    | CDemand fin opcode m => (ARun, Conf hdr short (start_send (SoFrame fin opcode m) :: CoUser cs' freed :: K) w)
    end
  end.

(** One step. AsyncWebSocket.cpp:445-450 ListenCoroutine::act: HandleFrameCoroutine is constructed, and captures
    the listener (line 349), before the frame header is read. *)
Definition step (c : conf) : status * conf :=
  let (hdr, short, st, w) := c in
  match st with
  | [] => (ADone, c)
  | co :: K =>
    match co with
    | CoListen =>
      if h_opcode hdr =? OPCODE_CLOSE then (ARun, Conf hdr short K w)
      else (ARun, Conf hdr short (CoReadFrame (RfAct []) :: CoHandle (s_listener (w_sock w)) HfAct :: CoListen :: K) w)
    | CoReadFrame p => step_readFrame p hdr short K w
    | CoHandle l p => step_handle l p hdr short K w
    | CoPayload l useShort alloc progress p => step_payload l useShort alloc progress p hdr short K w
    | CoSend fin opcode m h p => step_send fin opcode m h p hdr short K w
    | CoWrite h p => step_writeFrame h p hdr short K w
    | CoUser cs freed => step_user cs freed hdr short K w
    | CoCatch => (ARun, Conf hdr short K w)
    end
  end.

(** Executor schedules: the executor takes a step, or something happens on the connection. *)
Inductive xev :=
| Tick
| Arrive (s : list rev).

Definition arrive (s : list rev) (c : conf) : conf :=
  Conf (c_hdr c) (c_short c) (c_stack c) (set_in (c_world c) (w_in (c_world c) ++ s)).

(** A finished, failed or undefined run is not stepped any more. *)
Definition tick (sc : status * conf) : status * conf :=
  match sc with
  | (ARun, c) | (AWait, c) => step c
  | _ => sc
  end.
Fixpoint run (evs : list xev) (sc : status * conf) : status * conf :=
  match evs with
  | [] => sc
  | Tick :: r => run r (tick sc)
  | Arrive s :: r => run r (fst sc, arrive s (snd sc))
  end.

End Step.

(** AsyncWebSocket.cpp:438-443, 458: listenAsync(); the opcode starts as v_uint8(-1). *)
Definition start_listen (w : world) : conf :=
  Conf (Header false false false false 255 false 0 mask0) [] [CoListen] w.
(** A send coroutine on its own. *)
Definition start_sending (op : sendop) (w : world) : conf := Conf header_init [] [start_send op] w.

(** AsyncWebSocket.cpp:37-52: a fresh socket has the fields of [sock_new] / [sock_new_config]. *)
