(** Specification vocabulary: messages sent in several frames, and frames whose payload the caller streams itself. *)
From Verif Require Import Bytes Frame World WebSocket SpecFrame SpecSend SpecListen SpecApi.
Local Open Scope N_scope.
Local Open Scope m_scope.

Definition control_send (op : sendop) : Prop :=
  match op with SoPing m | SoPong m => lenN (msg_of m) <= 125 | _ => False end.

(** What may follow the first fragment of a message: further fragments and control frames, until the last fragment; then
    control frames (the library does not read a second message after a fragmented one: C19). The message may also be
    unfinished. *)
Inductive fragments : list sendop -> Prop :=
| fr_pending : fragments []
| fr_control op r : control_send op -> fragments r -> fragments (op :: r)
| fr_more m r : fragments r -> fragments (SoFrame false 0 m :: r)
| fr_last m r : Forall control_send r -> fragments (SoFrame true 0 m :: r).

(** Whole messages and control frames, then at most one fragmented message. *)
Inductive sendable : list sendop -> Prop :=
| sd_nil : sendable []
| sd_plain op r : plain_send op -> sendable r -> sendable (op :: r)
| sd_whole o m r : o = 1 \/ o = 2 -> sendable r -> sendable (SoFrame true o m :: r)
| sd_first o m r : o = 1 \/ o = 2 -> fragments r -> sendable (SoFrame false o m :: r).

(** What the peer's listener must observe of such a send. *)
Definition arrived (op : sendop) : list obs :=
  match op with
  | SoFrame fin o m => map (OByte o) (msg_of m) ++ (if fin then [OEnd o] else [])
  | _ => received op
  end.

(** Message content: of what a listener is shown, and of what is sent. *)
Definition content (os : list obs) : bytes := flat_map (fun o => match o with OByte _ c => [c] | _ => [] end) os.
Definition sent_content (op : sendop) : bytes :=
  match op with SoFrame _ _ m | SoText m | SoBinary m => msg_of m | _ => [] end.

(** * Streaming a payload *)
(** A caller of sendFrameHeader which then writes the payload to the connection itself, in pieces, each masked with the key
    in the header it was handed back, if there is one. *)
Definition masked_from (k : mask4) (off : nat) (p : bytes) : bytes :=
  map (fun ib => bxor (snd ib) (nth (fst ib mod 4)%nat (octets k) x00)) (combine (seq off (length p)) p).
Fixpoint write_pieces (h : header) (off : nat) (ps : list bytes) : M bool :=
  match ps with
  | [] => ret true
  | p :: r =>
    n <- writeExactSizeDataSimple (if h_hasMask h then masked_from (h_mask h) off p else p) ;;
    if n =? lenN p then write_pieces h (off + length p) r else ret false
  end.
Definition stream_frame (h0 : header) (fin : bool) (opcode : N) (size : Z) (ps : list bytes) : M bool :=
  h <- sendFrameHeader h0 fin opcode size ;; write_pieces h 0 ps.
