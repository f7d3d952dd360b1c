(** Model of WebSocket.hpp / WebSocket.cpp (the blocking socket), function by function. *)
From Verif Require Import Bytes Frame World.
Local Open Scope N_scope.
Local Open Scope m_scope.

(** The sending calls of the API. WebSocket.hpp:231-273, AsyncWebSocket.hpp:251-293.
    A message is an oatpp::String: [None] is nullptr. Codes are v_uint16. *)
Inductive sendop :=
| SoFrame (fin : bool) (opcode : N) (m : option bytes)   (* sendOneFrame *)
| SoClose (code : N) (m : option bytes)                  (* sendClose(code, message) *)
| SoClose0                                               (* sendClose() *)
| SoPing (m : option bytes)
| SoPong (m : option bytes)
| SoText (m : option bytes)                              (* sendOneFrameText *)
| SoBinary (m : option bytes).                           (* sendOneFrameBinary *)

(** What listener code may do inside a callback. [CSend true op] is a send inside try/catch,
    [CDemand] is if(!socket.sendOneFrame(...)) throw. *)
Inductive cmd :=
| CStop
| CSetListener (l : option nat)
| CSetConfig (msk : bool) (buf : Z)
| CSend (catch : bool) (op : sendop)
| CUseData          (* dereference the data pointer passed to readMessage *)
| CThrow
| CDemand (fin : bool) (opcode : N) (m : option bytes).

(** Listener code: identity of the listener and history of listener calls (the current one
    last) to the commands executed. Quantified over in the theorems. Simplification: the
    commands of one call are fixed at its start (they may depend on the whole history of
    calls, not on the results of sends made in the same call). Re-entrant listen()/iterateFrame()
    from a callback is not modelled (callbacks receive a const WebSocket). *)
Definition react_t := nat -> list (nat * event) -> list cmd.

(** XOR loops: WebSocket.cpp:169-171 (offset = progress), 325-327 (offset 0),
    AsyncWebSocket.cpp:291-293, 521-523. *)
Fixpoint xor_from (m : mask4) (off : N) (d : bytes) : bytes :=
  match d with
  | [] => []
  | b :: r => bxor b (mask_at m off) :: xor_from m (off + 1) r
  end.

(** WebSocket.cpp:59-69  checkForContinuation. *)
Definition checkForContinuation (h : header) : M bool :=
  w <- get ;;
  let last := s_last (w_sock w) in
  if ((last =? 1) || (last =? 2))%Z%bool then ret false
  else
    modify_sock (fun s => set_last s (if h_fin h then (-1)%Z else Z.of_N (h_opcode h))) ;;;
    ret true.

(** WebSocket.cpp:71-107  readFrameHeader. The header passed by reference is the argument and
    the result (its value after an exception is not tracked). *)
Definition readFrameHeader (h0 : header) : M header :=
  bb <- readExactSizeDataSimple 2 ;;
  if negb (lenN bb =? 2) then throw ExHeaderRead else
  let (h, messageLen1) := unpackHeaderBits (be_dec bb) h0 in
  h <- (if messageLen1 <? 126 then
          ret (set_len h (Z.of_N messageLen1))
        else if messageLen1 =? 126 then
          l2 <- readExactSizeDataSimple 2 ;;
          if negb (lenN l2 =? 2) then throw ExLen2Read
          else ret (set_len h (Z.of_N (be_dec l2)))
        else if messageLen1 =? 127 then
          l3 <- readExactSizeDataSimple 8 ;;
          if negb (lenN l3 =? 8) then throw ExLen3Read
          else ret (set_len h (to_i64 (N.lor (N.shiftl (be_dec (takeN 4 l3)) 32)
                                             (be_dec (dropN 4 l3)))))
        else ret h) ;;
  if h_hasMask h then
    mk <- readExactSizeDataSimple 4 ;;
    if negb (lenN mk =? 4) then throw ExMaskRead
    else ret (set_mask h (mask_of mk))
  else ret h.

(** WebSocket.cpp:109-145  writeFrameHeader. *)
Definition writeFrameHeader (h : header) : M unit :=
  let (bb, scenario) := packHeaderBits h in
  res <- writeExactSizeDataSimple (be_enc 2 bb) ;;
  if negb (res =? 2) then throw ExHeaderWrite else
  (if scenario =? 2 then
     res <- writeExactSizeDataSimple (be_enc 2 (i64_to_u16 (h_len h))) ;;
     if negb (res =? 2) then throw ExLen2Write else ret tt
   else if scenario =? 3 then
     res <- writeExactSizeDataSimple
              (be_enc 4 (i64_to_u32 (Z.shiftr (h_len h) 32)) ++
               be_enc 4 (i64_to_u32 (Z.land (h_len h) 4294967295))) ;;
     if negb (res =? 8) then throw ExLen3Write else ret tt
   else ret tt) ;;;
  if h_hasMask h then
    res <- writeExactSizeDataSimple (mask_bytes (h_mask h)) ;;
    if negb (res =? 4) then throw ExMaskWrite else ret tt
  else ret tt.

(** WebSocket.cpp:302-316  sendFrameHeader; Utils.cpp:31-33 generateMaskForFrame.
    [h] is the caller's header object, of which only the mask survives. Returns it updated. *)
Definition sendFrameHeader (h : header) (fin : bool) (opcode : N) (messageSize : Z) : M header :=
  w <- get ;;
  let h1 := Header fin false false false opcode (s_mask (w_sock w)) messageSize (h_mask h) in
  h2 <- (if h_hasMask h1 then mk <- randomBytes 4 ;; ret (set_mask h1 (mask_of mk))
         else ret h1) ;;
  writeFrameHeader h2 ;;;
  ret h2.

(** Frame.hpp:73-112: a default-constructed header; only [mask] has an initialiser, the other
    fields are indeterminate in C++ and always overwritten before use. *)
Definition header_init : header := Header false false false false 0 false 0 mask0.

(** WebSocket.cpp:318-339  sendOneFrame. message->size() is size_t; the masking loop counts with a
    v_int32, which overflows (undefined behaviour) if the size does not fit. *)
Definition sendOneFrame (fin : bool) (opcode : N) (message : option bytes) : M bool :=
  match message with
  | Some (b :: bs) =>
    let msg := b :: bs in
    h <- sendFrameHeader header_init fin opcode (Z.of_N (lenN msg)) ;;
    res <- (if h_hasMask h then
              if 2 ^ 31 <=? lenN msg then undef UbSigned
              else writeExactSizeDataSimple (xor_from (h_mask h) 0 msg)
            else writeExactSizeDataSimple msg) ;;
    ret (res =? lenN msg)
  | _ =>
    sendFrameHeader header_init fin opcode 0 ;;;
    ret true
  end.

(** WebSocket.cpp:298-300  stopListening. *)
Definition stopListening : M unit := modify_sock (fun s => set_listening s false).

(** The common tail of WebSocket.cpp:351-354, 359-362, 366-369, 373-376, 380-383, 387-390. *)
Definition sendChecked (fin : bool) (opcode : N) (message : option bytes) : M unit :=
  ok <- sendOneFrame fin opcode message ;;
  if (ok : bool) then ret tt else stopListening ;;; throw ExSend.

(** WebSocket.cpp:343-349: the close payload, code in network order then the reason. *)
Definition close_payload (code : N) (message : option bytes) : bytes :=
  be_enc 2 code ++ match message with Some m => m | None => [] end.

(** WebSocket.cpp:318-391  the public sending functions. *)
Definition send (op : sendop) : M unit :=
  match op with
  | SoFrame fin opcode m => sendOneFrame fin opcode m ;;; ret tt
  | SoClose code m => sendChecked true OPCODE_CLOSE (Some (close_payload code m))
  | SoClose0 => sendChecked true OPCODE_CLOSE None
  | SoPing m => sendChecked true OPCODE_PING m
  | SoPong m => sendChecked true OPCODE_PONG m
  | SoText m => sendChecked true OPCODE_TEXT m
  | SoBinary m => sendChecked true OPCODE_BINARY m
  end.

Section Listen.

Variable react : react_t.

(** Listener code: if(!socket.sendOneFrame(fin, opcode, m)) throw ... *)
Definition demand (fin : bool) (opcode : N) (m : option bytes) : M unit :=
  ok <- sendOneFrame fin opcode m ;; if (ok : bool) then ret tt else throw ExListener.

(** One command of listener code, run inside a callback of the blocking socket. *)
Definition exec_cmd (c : cmd) : M unit :=
  match c with
  | CStop => stopListening
  | CSetListener l => modify_sock (fun s => set_listener s l)
  | CSetConfig m b => modify_sock (fun s => set_config s m b)
  | CSend true op => try_ (send op)
  | CSend false op => send op
  | CUseData => ret tt       (* the buffer outlives the synchronous call *)
  | CThrow => throw ExListener
  | CDemand fin opcode m => demand fin opcode m
  end.

Fixpoint exec_cmds (cs : list cmd) : M unit :=
  match cs with
  | [] => ret tt
  | c :: cs' => exec_cmd c ;;; exec_cmds cs'
  end.

(** [if(m_listener) m_listener->callback(...)]: the listener installed at this moment. *)
Definition notify (ev : event) : M unit := fun w =>
  match s_listener (w_sock w) with
  | None => (Ret tt, w)
  | Some l =>
    let w' := set_log w (w_log w ++ [(l, ev)]) in
    exec_cmds (react l (w_log w')) w'
  end.

(** WebSocket.cpp:156-194  the loop of readPayload. [short] is the shortMessageStream content
    (None = nullptr), [alloc] the size of the buffer allocated at line 153. *)
Fixpoint readPayload_loop (fuel : nat) (h : header) (short : option bytes) (alloc progress : Z)
  : M (option bytes) :=
  match fuel with
  | O => out_of_fuel
  | S fuel' =>
    if (progress <? h_len h)%Z then
      w <- get ;;
      let desired := s_buf (w_sock w) in
      let desired := if (h_len h - progress <? desired)%Z then (h_len h - progress)%Z else desired in
      r <- readSimple desired ;;
      match r with
      | inl data =>
        if (alloc <? Z.of_N (lenN data))%Z then undef UbOverflow else
        let data' := if h_hasMask h then xor_from (h_mask h) (Z.to_N progress) data else data in
        match short with
        | Some s => readPayload_loop fuel' h (Some (s ++ data')) alloc (progress + Z.of_N (lenN data))%Z
        | None =>
          notify (EvMsg (h_opcode h) data') ;;;
          readPayload_loop fuel' h None alloc (progress + Z.of_N (lenN data))%Z
        end
      | inr IoRetry => readPayload_loop fuel' h short alloc progress
      | inr _ => throw ExConnState
      end
    else ret short
  end.

(** WebSocket.cpp:147-201  readPayload. Returns the final shortMessageStream content. *)
Definition readPayload (h : header) (short : option bytes) : M (option bytes) :=
  if (match short with Some _ => true | None => false end && (125 <? h_len h)%Z)%bool
  then throw ExPayloadLen else
  w <- get ;;
  let alloc := s_buf (w_sock w) in
  if (alloc <? 0)%Z then throw ExBadAlloc else
  short' <- readPayload_loop (S (script_size (w_in w))) h short alloc 0 ;;
  (match short with
   | None => if h_fin h then notify (EvEnd (h_opcode h)) else ret tt
   | Some _ => ret tt
   end) ;;;
  ret short'.

Definition str (o : option bytes) : bytes := match o with Some s => s | None => [] end.

(** WebSocket.cpp:234-243: code and reason of a close payload. *)
Definition close_code (p : bytes) : N := if 2 <=? lenN p then be_dec (takeN 2 p) else 0.
Definition close_reason (p : bytes) : bytes := if 2 <=? lenN p then dropN 2 p else [].

(** WebSocket.cpp:203-273  handleFrame. *)
Definition handleFrame (h : header) : M unit :=
  match h_opcode h with
  | 0 =>
    w <- get ;;
    if (s_last (w_sock w) <? 0)%Z then throw ExInvalidState
    else readPayload h None ;;; ret tt
  | 1 | 2 =>
    ok <- checkForContinuation h ;;
    if (ok : bool) then readPayload h None ;;; ret tt
    else throw ExContinuationExpected
  | 8 =>
    p <- readPayload h (Some []) ;;
    notify (EvClose (close_code (str p)) (close_reason (str p)))
  | 9 =>
    p <- readPayload h (Some []) ;;
    notify (EvPing (str p))
  | 10 =>
    p <- readPayload h (Some []) ;;
    notify (EvPong (str p))
  | _ => throw ExUnknownFrame
  end.

(** WebSocket.cpp:275-278  iterateFrame. *)
Definition iterateFrame (h : header) : M header :=
  h' <- readFrameHeader h ;;
  handleFrame h' ;;;
  ret h'.

(** WebSocket.cpp:286-289  the do-while loop of listen. *)
Fixpoint listen_loop (fuel : nat) (h : header) : M unit :=
  match fuel with
  | O => out_of_fuel
  | S fuel' =>
    h' <- readFrameHeader h ;;
    handleFrame h' ;;;
    w <- get ;;
    if (negb (h_opcode h' =? OPCODE_CLOSE) && s_listening (w_sock w))%bool
    then listen_loop fuel' h'
    else ret tt
  end.

(** WebSocket.cpp:280-296  listen. Both catch clauses swallow the exception. *)
Definition listen : M unit :=
  modify_sock (fun s => set_listening s true) ;;;
  w <- get ;;
  try_ (listen_loop (S (script_size (w_in w))) header_init).

End Listen.

(** WebSocket.cpp:38-53, Config.hpp:43-50: a socket fresh from its constructors. *)
Definition sock_new (msk : bool) : sock := Sock msk 1024 None (-1) false.
Definition sock_new_config (msk : bool) (buf : Z) : sock := Sock msk buf None (-1) false.
