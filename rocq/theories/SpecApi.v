(** Specification vocabulary for the properties of the blocking socket's API. *)
From Verif Require Import Bytes Frame World WebSocket SpecFrame SpecSend SpecListen.
Local Open Scope N_scope.
Local Open Scope m_scope.

(** * Sequences of sends *)
Fixpoint send_all (ops : list sendop) : M unit :=
  match ops with
  | [] => ret tt
  | op :: r => send op ;;; send_all r
  end.

(** Whole messages and pings/pongs of the size RFC 6455 allows. *)
Definition plain_send (op : sendop) : Prop :=
  match op with
  | SoText _ | SoBinary _ => True
  | SoPing m | SoPong m => lenN (msg_of m) <= 125
  | _ => False
  end.

(** What the peer's listener must observe of such a send. *)
Definition received (op : sendop) : list obs :=
  match op with
  | SoText m => map (OByte 1) (msg_of m) ++ [OEnd 1]
  | SoBinary m => map (OByte 2) (msg_of m) ++ [OEnd 2]
  | SoPing m => [OPing (msg_of m)]
  | SoPong m => [OPong (msg_of m)]
  | _ => []
  end.

(** * Histories of received frames *)

Definition is_data (f : frame) : bool := (f_opcode f =? 1) || (f_opcode f =? 2).
Definition is_control (f : frame) : bool := (f_opcode f =? 8) || (f_opcode f =? 9) || (f_opcode f =? 10).

(** A fragmented message was started in this history. *)
Definition started (fs : list (lform * frame)) : bool :=
  existsb (fun x => is_data (snd x) && negb (f_fin (snd x))) fs.

(** A fragmented message is open at the end of this history, as RFC 6455 defines it. *)
Fixpoint msg_open (opn : bool) (fs : list (lform * frame)) : bool :=
  match fs with
  | [] => opn
  | (_, f) :: r =>
    msg_open (if is_data f then negb (f_fin f)
              else if (f_opcode f =? 0) && f_fin f then false else opn) r
  end.

(** A frame with its RSV bits cleared, its masking removed and FIN set if it is a control frame. *)
Definition cleaned (f : frame) : frame :=
  RFrame (f_fin f || is_control f) false false false (f_opcode f) None (f_payload f).

(** The first [k] frames of a stream are not fragments. *)
Fixpoint unfragmented (k : nat) (bs : bytes) : bool :=
  match k with
  | O => true
  | S k' =>
    match rd_header bs with
    | None => true
    | Some (i, rest) =>
      (if i_opcode i <? 8 then i_fin i && negb (i_opcode i =? 0) else true) &&
      (if i_len i <=? lenN rest then unfragmented k' (dropN (i_len i) rest) else true)
    end
  end.

Definition not_rejected (e : rend) : bool := match e with Rejected _ => false | _ => true end.

(** * Programs using a socket *)
Inductive call :=
| KSend (op : sendop)
| KListen
| KIterate
| KStop
| KSetListener (l : option nat).

(** Exceptions are handled by the program, which goes on. *)
Definition run_call (react : react_t) (c : call) : M unit :=
  try_ match c with
       | KSend op => send op
       | KListen => listen react
       | KIterate => iterateFrame react header_init ;;; ret tt
       | KStop => stopListening
       | KSetListener l => modify_sock (fun s => set_listener s l)
       end.
Fixpoint run_calls (react : react_t) (cs : list call) : M unit :=
  match cs with
  | [] => ret tt
  | c :: r => run_call react c ;;; run_calls react r
  end.
Definition fit_call (m : bool) (c : call) : Prop := match c with KSend op => fits m op | _ => True end.
