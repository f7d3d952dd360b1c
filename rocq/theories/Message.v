(** A sending coroutine and the string object of the message it was given.

    sendOneFrameAsync and the calls built on it keep the oatpp::String they are given (AsyncWebSocket.cpp:488, 500), that is a reference to the application's string object, not a copy
    of its content. The object is looked at when the coroutine is run for the first time (its size, line 511-512), when the frame header has been written (its size and content, lines
    519-527; with masking the content is copied, line 520-524, otherwise a pointer to it is kept, line 526), and, without masking, each time bytes are written (line 532).
    sendCloseAsync(code, message) copies the message when it is called (lines 545-551).

    The coroutine is that of AsyncWebSocket.v; here the application may change the object between two steps. *)
From Verif Require Import Bytes Frame World WebSocket AsyncWebSocket.
Local Open Scope N_scope.

Inductive mev :=
| MTick                    (* the executor runs the coroutine for one step *)
| MOverwrite (d : bytes)   (* the application overwrites the bytes of the string, in place; only possible with as many bytes as it has *)
| MAssign (d : bytes).     (* the application gives the string any other content, and other memory to hold it (a longer string, a move assignment, ...) *)

(** Does the coroutine keep the application's object? (lines 488, 545-551, 556) *)
Definition shares (op : sendop) : bool :=
  match op with
  | SoFrame _ _ (Some _) | SoPing (Some _) | SoPong (Some _) | SoText (Some _) | SoBinary (Some _) => true
  | _ => false
  end.

(** [x_gone]: the memory the coroutine's pointer into the string points to (line 526) may have been freed. *)
Record mstate := MState { x_st : status; x_conf : conf; x_gone : bool }.

(** The coroutine points into the string: line 526. *)
Definition points_into (co : cor) : bool := match co with CoSend _ _ _ h (SfWrite _) => negb (h_hasMask h) | _ => false end.
(** What the coroutine's members refer to after the string has got the content [d]; [live]: in the memory the coroutine may point into. *)
Definition changed (live : bool) (d : bytes) (co : cor) : cor :=
  match co with
  | CoSend fin opcode (Some old) h p =>
    CoSend fin opcode (Some d) h
      match p with
      | SfWrite rest => if (live && negb (h_hasMask h) && (lenN d =? lenN old))%bool then SfWrite (dropN (lenN old - lenN rest) d) else p
      | _ => p
      end
  | _ => co
  end.
Definition change (live : bool) (d : bytes) (c : conf) : conf := Conf (c_hdr c) (c_short c) (map (changed live d) (c_stack c)) (c_world c).
Definition same_size (d : bytes) (co : cor) : bool := match co with CoSend _ _ (Some old) _ _ => lenN d =? lenN old | _ => true end.

(** lines 531-533: there are bytes to be read through the pointer. *)
Definition reads_pointer (c : conf) : bool :=
  match c_stack c with CoSend fin opcode m h (SfWrite (_ :: _)) :: _ => negb (h_hasMask h) | _ => false end.

Section Run.
Variables (react : react_t) (op : sendop).
Definition mstep (e : mev) (s : mstate) : mstate :=
  match e with
  | MTick =>
    if (x_gone s && reads_pointer (x_conf s))%bool then MState (AUb UbDangling) (x_conf s) true
    else let (st, c) := tick react (x_st s, x_conf s) in MState st c (x_gone s)
  | MOverwrite d =>
    if shares op then MState (x_st s) (change (negb (x_gone s)) d (x_conf s)) (x_gone s || negb (forallb (same_size d) (c_stack (x_conf s))) && existsb points_into (c_stack (x_conf s)))
    else s
  | MAssign d =>
    if shares op then MState (x_st s) (change false d (x_conf s)) (x_gone s || existsb points_into (c_stack (x_conf s)))
    else s
  end.
Definition mrun (evs : list mev) (s : mstate) : mstate := fold_left (fun s e => mstep e s) evs s.
(** The call, and then this history. *)
Definition message_run (evs : list mev) (w : world) : mstate := mrun evs (MState ARun (start_sending op w) false).
End Run.
