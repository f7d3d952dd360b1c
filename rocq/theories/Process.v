(** Several threads on one blocking socket, at the granularity of single write() calls and single accesses to the shared fields:
    WebSocket.cpp once more, as programs whose steps can be interleaved. At most one thread listens; the others send
    (WebSocket.cpp:302-392) and call stopListening, setListener and setConfig.

    State only the listening thread touches (what it has read, m_lastOpcode, the calls it has made) is private to it, so what it
    does between two accesses to shared state is one step. [interp] (ProofProcess.v) relates these programs to Threads.v, which
    is related to WebSocket.v there (C69_alone). *)
From Verif Require Import Bytes Frame World WebSocket AsyncWebSocket Threads.
Local Open Scope N_scope.

(** Private state of the listening thread: the receiving side of the connection, the listener calls made, m_lastOpcode (WebSocket.hpp:110). *)
Record priv := Priv { v_in : list rev; v_log : list (nat * event); v_last : Z }.
(** The fields of the socket other threads may read and write: m_config, m_listener, m_listening (WebSocket.hpp:107-111; setListener WebSocket.hpp:175-177, setConfig WebSocket.cpp:55-57
    and stopListening WebSocket.cpp:298-300). *)
Record shf := Shf { k_mask : bool; k_buf : Z; k_listener : option nat; k_listening : bool }.
Definition shf_of (s : sock) : shf := Shf (s_mask s) (s_buf s) (s_listener s) (s_listening s).
Definition apply_shf (x : ext) (s : shf) : shf :=
  match x with
  | XStop => Shf (k_mask s) (k_buf s) (k_listener s) false
  | XSetListener l => Shf (k_mask s) (k_buf s) l (k_listening s)
  | XSetConfig m b => Shf m b (k_listener s) (k_listening s)
  end.

Inductive prog (A : Type) : Type :=
| PDone (o : outcome A)
| PAtom (u : priv -> priv) (k : priv -> prog A)   (* something private *)
| PAcc (k : shf -> prog A)                        (* reads the shared fields *)
| PExt (x : ext) (k : prog A)                     (* stopListening, setListener, setConfig *)
| PBegin (k : prog A)                             (* m_listening = true *)
| PStop (k : prog A)                              (* stopListening() of a send that has failed *)
| PRand (n : nat) (k : bytes -> prog A)           (* Random::randomBytes *)
| PWrite (d : bytes) (got : N) (k : N -> prog A)  (* inside writeExactSizeDataSimple: [got] bytes written, [d] to go *)
| PMark (e : tev) (k : prog A).                   (* nothing; names the moment for Threads.v *)
Arguments PDone {A} o.
Arguments PAtom {A} u k.
Arguments PAcc {A} k.
Arguments PExt {A} x k.
Arguments PBegin {A} k.
Arguments PStop {A} k.
Arguments PRand {A} n k.
Arguments PWrite {A} d got k.
Arguments PMark {A} e k.

Fixpoint pbind {A B} (p : prog A) (f : A -> prog B) : prog B :=
  match p with
  | PDone (Ret a) => f a
  | PDone (Throw e) => PDone (Throw e)
  | PDone Wait => PDone Wait
  | PDone (Ub u) => PDone (Ub u)
  | PDone OutOfFuel => PDone OutOfFuel
  | PAtom u k => PAtom u (fun v => pbind (k v) f)
  | PAcc k => PAcc (fun s => pbind (k s) f)
  | PExt x k => PExt x (pbind k f)
  | PBegin k => PBegin (pbind k f)
  | PStop k => PStop (pbind k f)
  | PRand n k => PRand n (fun b => pbind (k b) f)
  | PWrite d got k => PWrite d got (fun n => pbind (k n) f)
  | PMark e k => PMark e (pbind k f)
  end.
Fixpoint ptry (p : prog unit) : prog unit :=
  match p with
  | PDone (Throw _) => PDone (Ret tt)
  | PDone o => PDone o
  | PAtom u k => PAtom u (fun v => ptry (k v))
  | PAcc k => PAcc (fun s => ptry (k s))
  | PExt x k => PExt x (ptry k)
  | PBegin k => PBegin (ptry k)
  | PStop k => PStop (ptry k)
  | PRand n k => PRand n (fun b => ptry (k b))
  | PWrite d got k => PWrite d got (fun n => ptry (k n))
  | PMark e k => PMark e (ptry k)
  end.
Definition pret {A} (a : A) : prog A := PDone (Ret a).
Definition pthrow {A} (e : exn) : prog A := PDone (Throw e).
Definition paccess {A} (f : shf -> A) : prog A := PAcc (fun s => pret (f s)).
Definition pwrite (d : bytes) : prog N := PWrite d 0 pret.

(** Something private, done by a function of WebSocket.v. *)
Definition world_of (v : priv) : world := World (v_in v) [] [] (fun _ => x00) 0 (v_log v) (Sock false 0 None (v_last v) false).
Definition priv_of (w : world) : priv := Priv (w_in w) (w_log w) (s_last (w_sock w)).
Definition plocal {A} (m : M A) : prog A := PAtom (fun v => priv_of (snd (m (world_of v)))) (fun v => PDone (fst (m (world_of v)))).
Definition pget : prog priv := PAtom (fun v => v) pret.

Declare Scope p_scope.
Delimit Scope p_scope with p.
Notation "x <- a ;; b" := (pbind a (fun x => b)) (at level 61, a at next level, right associativity) : p_scope.
Notation "a ;;; b" := (pbind a (fun _ => b)) (at level 61, right associativity) : p_scope.
Local Open Scope p_scope.

(** ** Sending *)

(** WebSocket.cpp:109-145  writeFrameHeader. *)
Definition pwriteFrameHeader (h : header) : prog unit :=
  let (bb, scenario) := packHeaderBits h in
  res <- pwrite (be_enc 2 bb) ;;
  if negb (res =? 2) then pthrow ExHeaderWrite else
  (if scenario =? 2 then
     res <- pwrite (be_enc 2 (i64_to_u16 (h_len h))) ;;
     if negb (res =? 2) then pthrow ExLen2Write else pret tt
   else if scenario =? 3 then
     res <- pwrite (be_enc 4 (i64_to_u32 (Z.shiftr (h_len h) 32)) ++
                    be_enc 4 (i64_to_u32 (Z.land (h_len h) 4294967295))) ;;
     if negb (res =? 8) then pthrow ExLen3Write else pret tt
   else pret tt) ;;;
  if h_hasMask h then
    res <- pwrite (mask_bytes (h_mask h)) ;;
    if negb (res =? 4) then pthrow ExMaskWrite else pret tt
  else pret tt.

(** WebSocket.cpp:302-316  sendFrameHeader: m_config.maskOutgoingMessages is read once. *)
Definition psendFrameHeader (h : header) (fin : bool) (opcode : N) (messageSize : Z) : prog header :=
  msk <- paccess k_mask ;;
  let h1 := Header fin false false false opcode msk messageSize (h_mask h) in
  h2 <- (if h_hasMask h1 then PRand 4 (fun mk => pret (set_mask h1 (mask_of mk))) else pret h1) ;;
  pwriteFrameHeader h2 ;;;
  pret h2.

(** WebSocket.cpp:318-339  sendOneFrame. *)
Definition psendOneFrame (fin : bool) (opcode : N) (message : option bytes) : prog bool :=
  match message with
  | Some (b :: bs) =>
    let msg := b :: bs in
    h <- psendFrameHeader header_init fin opcode (Z.of_N (lenN msg)) ;;
    res <- (if h_hasMask h then
              if 2 ^ 31 <=? lenN msg then PDone (Ub UbSigned)
              else pwrite (xor_from (h_mask h) 0 msg)
            else pwrite msg) ;;
    pret (res =? lenN msg)
  | _ =>
    psendFrameHeader header_init fin opcode 0 ;;;
    pret true
  end.

(** WebSocket.cpp:341-391. *)
Definition psendChecked (fin : bool) (opcode : N) (message : option bytes) : prog unit :=
  ok <- psendOneFrame fin opcode message ;;
  if (ok : bool) then pret tt else PStop (pthrow ExSend).
Definition psend (op : sendop) : prog unit :=
  match op with
  | SoFrame fin opcode m => psendOneFrame fin opcode m ;;; pret tt
  | SoClose code m => psendChecked true OPCODE_CLOSE (Some (close_payload code m))
  | SoClose0 => psendChecked true OPCODE_CLOSE None
  | SoPing m => psendChecked true OPCODE_PING m
  | SoPong m => psendChecked true OPCODE_PONG m
  | SoText m => psendChecked true OPCODE_TEXT m
  | SoBinary m => psendChecked true OPCODE_BINARY m
  end.

(** One command of application code, in a callback or in another thread (WebSocket.v, exec_cmd; Threads.v, texec_cmd). *)
Definition pexec_cmd (c : cmd) : prog unit :=
  match c with
  | CStop => PExt XStop (PMark TStop (pret tt))
  | CSetListener l => PExt (XSetListener l) (PMark (TInstall l) (pret tt))
  | CSetConfig m b => PExt (XSetConfig m b) (PMark (TConfig m b) (pret tt))
  | CSend true op => ptry (psend op)
  | CSend false op => psend op
  | CUseData => PAcc (fun _ => pret tt)
  | CThrow => PAcc (fun _ => pthrow ExListener)
  | CDemand fin opcode m => ok <- psendOneFrame fin opcode m ;; if (ok : bool) then pret tt else pthrow ExListener
  end.
Fixpoint pexec_cmds (cs : list cmd) : prog unit :=
  match cs with
  | [] => pret tt
  | c :: cs' => pexec_cmd c ;;; pexec_cmds cs'
  end.

(** ** Listening (the comments of Threads.v apply) *)
Section Process.
Variable react : react_t.

(** [if(m_listener) m_listener->callback(...)], WebSocket.cpp:174-175, 180-181, 198-199, 233-244, 252-253, 261-262. *)
Definition pnotify (ev : event) : prog unit :=
  there <- paccess k_listener ;;
  match there with
  | None => PMark (TCall None ev) (pret tt)
  | Some _ =>
    l <- paccess k_listener ;;
    match l with
    | None => PDone (Ub UbNull)
    | Some l =>
      PMark (TCall (Some l) ev)
        (PAtom (fun v => Priv (v_in v) (v_log v ++ [(l, ev)]) (v_last v)) (fun v => pexec_cmds (react l (v_log v ++ [(l, ev)]))))
    end
  end.

(** WebSocket.cpp:156-194. *)
Fixpoint preadPayload_loop (fuel : nat) (h : header) (short : option bytes) (alloc progress : Z) : prog (option bytes) :=
  match fuel with
  | O => PDone OutOfFuel
  | S fuel' =>
    if (progress <? h_len h)%Z then
      desired <- paccess k_buf ;;
      let desired := if (h_len h - progress <? desired)%Z then (h_len h - progress)%Z else desired in
      r <- plocal (readSimple desired) ;;
      match r with
      | inl data =>
        if (alloc <? Z.of_N (lenN data))%Z then PDone (Ub UbOverflow) else
        let data' := if h_hasMask h then xor_from (h_mask h) (Z.to_N progress) data else data in
        match short with
        | Some s => preadPayload_loop fuel' h (Some (s ++ data')) alloc (progress + Z.of_N (lenN data))%Z
        | None =>
          pnotify (EvMsg (h_opcode h) data') ;;;
          preadPayload_loop fuel' h None alloc (progress + Z.of_N (lenN data))%Z
        end
      | inr IoRetry => preadPayload_loop fuel' h short alloc progress
      | inr _ => pthrow ExConnState
      end
    else pret short
  end.

(** WebSocket.cpp:147-201. *)
Definition preadPayload (h : header) (short : option bytes) : prog (option bytes) :=
  if (match short with Some _ => true | None => false end && (125 <? h_len h)%Z)%bool
  then pthrow ExPayloadLen else
  alloc <- paccess k_buf ;;
  if (alloc <? 0)%Z then pthrow ExBadAlloc else
  v <- pget ;;
  short' <- preadPayload_loop (S (script_size (v_in v))) h short alloc 0 ;;
  (match short with
   | None => if h_fin h then pnotify (EvEnd (h_opcode h)) else pret tt
   | Some _ => pret tt
   end) ;;;
  pret short'.

(** WebSocket.cpp:203-273. *)
Definition phandleFrame (h : header) : prog unit :=
  match h_opcode h with
  | 0 =>
    v <- pget ;;
    if (v_last v <? 0)%Z then pthrow ExInvalidState
    else preadPayload h None ;;; pret tt
  | 1 | 2 =>
    ok <- plocal (checkForContinuation h) ;;
    if (ok : bool) then preadPayload h None ;;; pret tt
    else pthrow ExContinuationExpected
  | 8 =>
    p <- preadPayload h (Some []) ;;
    pnotify (EvClose (close_code (str p)) (close_reason (str p)))
  | 9 =>
    p <- preadPayload h (Some []) ;;
    pnotify (EvPing (str p))
  | 10 =>
    p <- preadPayload h (Some []) ;;
    pnotify (EvPong (str p))
  | _ => pthrow ExUnknownFrame
  end.

(** WebSocket.cpp:286-289. *)
Fixpoint plisten_loop (fuel : nat) (h : header) : prog unit :=
  match fuel with
  | O => PDone OutOfFuel
  | S fuel' =>
    PMark TFrame (
    h' <- plocal (readFrameHeader h) ;;
    phandleFrame h' ;;;
    listening <- paccess k_listening ;;
    if (negb (h_opcode h' =? OPCODE_CLOSE) && listening)%bool
    then plisten_loop fuel' h'
    else pret tt)
  end.

(** WebSocket.cpp:280-296  listen. *)
Definition plisten : prog unit :=
  PBegin (v <- pget ;; ptry (plisten_loop (S (script_size (v_in v))) header_init)).
End Process.

(** ** Interleaving *)

(** What the threads share: the sending side of the connection, the random source, the shared fields. *)
Record shared := Shared { g_wr : list wev; g_out : bytes; g_rnd : nat -> byte; g_rpos : nat; g_f : shf }.
Definition set_f (g : shared) (f : shf) : shared := Shared (g_wr g) (g_out g) (g_rnd g) (g_rpos g) f.

(** One step of a thread; [None]: finished, or blocked in a write. [PWrite] makes one write() call (World.v, writeExact_raw). *)
Definition pstep {A} (p : prog A) (v : priv) (g : shared) : option (prog A * priv * shared) :=
  match p with
  | PDone _ => None
  | PAtom u k => Some (k v, u v, g)
  | PAcc k => Some (k (g_f g), v, g)
  | PExt x k => Some (k, v, set_f g (apply_shf x (g_f g)))
  | PBegin k => Some (k, v, set_f g (Shf (k_mask (g_f g)) (k_buf (g_f g)) (k_listener (g_f g)) true))
  | PStop k => Some (k, v, set_f g (apply_shf XStop (g_f g)))
  | PRand n k => Some (k (map (g_rnd g) (seq (g_rpos g) n)), v, Shared (g_wr g) (g_out g) (g_rnd g) (g_rpos g + n) (g_f g))
  | PWrite [] got k => Some (k got, v, g)
  | PWrite d got k =>
    match g_wr g with
    | [] => Some (k (got + lenN d), v, Shared [] (g_out g ++ d) (g_rnd g) (g_rpos g) (g_f g))
    | WBlock :: _ => None
    | WIo IoRetry :: q => Some (p, v, Shared q (g_out g) (g_rnd g) (g_rpos g) (g_f g))
    | WIo _ :: q => Some (k got, v, Shared q (g_out g) (g_rnd g) (g_rpos g) (g_f g))
    | WAccept n :: q =>
      Some (PWrite (dropN (Npos n) d) (got + lenN (takeN (Npos n) d)) k, v, Shared q (g_out g ++ takeN (Npos n) d) (g_rnd g) (g_rpos g) (g_f g))
    end
  | PMark _ k => Some (k, v, g)
  end.

(** Threads are numbered; a schedule says who moves. *)
Definition system : Type := (nat -> prog unit * priv) * shared.
Definition sstep (i : nat) (s : system) : system :=
  match pstep (fst (fst s i)) (snd (fst s i)) (snd s) with
  | Some (p, v, g) => ((fun j => if Nat.eqb j i then (p, v) else fst s j), g)
  | None => s
  end.
Fixpoint srun (sch : list nat) (s : system) : system :=
  match sch with
  | [] => s
  | i :: r => srun r (sstep i s)
  end.

(** Thread 0 calls listen() on the connection, socket and history of [w]; thread [i] > 0 runs the commands [work i]. *)
Definition nothing : priv := Priv [] [] (-1).
Definition system_init (react : react_t) (work : nat -> list cmd) (w : world) : system :=
  ((fun i => match i with O => (plisten react, priv_of w) | _ => (pexec_cmds (work i), nothing) end),
   Shared (w_wr w) (w_out w) (w_rnd w) (w_rpos w) (shf_of (w_sock w))).
