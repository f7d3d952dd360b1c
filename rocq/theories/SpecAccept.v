(** Specification: what a peer running this library makes of a sequence of sending calls (C44). *)
From Verif Require Import Bytes Frame World WebSocket SpecFrame SpecSend.
Local Open Scope N_scope.

(** What becomes of the sequence. *)
Inductive fate :=
| AllRead                               (* every frame is read, listening goes on *)
| ClosedBy (unread : list sendop)       (* a Close frame ends listening *)
| RefusedAt (op : sendop) (unread : list sendop).  (* the frame of [op] ends listening with an error *)

(** What the listener is told, and the fate. [frag]: a frame with opcode 1 or 2 and without FIN was sent before. Data frames are refused from
    then on for ever and continuation frames before, whatever the FIN bits of continuation frames say (a departure from RFC 6455: C46); control
    frames are refused above 125 bytes; unknown opcodes always. *)
Fixpoint understood (frag : bool) (ops : list sendop) : list obs * fate :=
  match ops with
  | [] => ([], AllRead)
  | op :: r =>
    let m := req_payload op in
    let go (frag' : bool) (now : list obs) := let (later, f) := understood frag' r in (now ++ later, f) in
    let data (t : N) := map (OByte t) m ++ (if req_fin op then [OEnd t] else []) in
    match req_opcode op mod 16 with
    | 0 => if frag then go true (data 0) else ([], RefusedAt op r)
    | 1 => if frag then ([], RefusedAt op r) else go (negb (req_fin op)) (data 1)
    | 2 => if frag then ([], RefusedAt op r) else go (negb (req_fin op)) (data 2)
    | 8 => if lenN m <=? 125 then ([close_obs m], ClosedBy r) else ([], RefusedAt op r)
    | 9 => if lenN m <=? 125 then go frag [OPing m] else ([], RefusedAt op r)
    | 10 => if lenN m <=? 125 then go frag [OPong m] else ([], RefusedAt op r)
    | _ => ([], RefusedAt op r)
    end
  end.

(** The frames of [ops], each with some masking key or none, one after the other. *)
Inductive frames_for : list sendop -> bytes -> Prop :=
| ff_nil : frames_for [] []
| ff_cons op r k b : frames_for r b -> frames_for (op :: r) (sent_wire k op ++ b).

(** A fragmented message was begun. *)
Fixpoint broken_up (ops : list sendop) : bool :=
  match ops with [] => false | op :: r => ((req_opcode op mod 16 =? 1) || (req_opcode op mod 16 =? 2)) && negb (req_fin op) || broken_up r end.
(** A frame no peer running this library accepts after [before]. *)
Definition unacceptable (before : list sendop) (op : sendop) : Prop :=
  (In (req_opcode op mod 16) [8; 9; 10] /\ 125 < lenN (req_payload op)) \/
  In (req_opcode op mod 16) [3; 4; 5; 6; 7; 11; 12; 13; 14; 15] \/
  (In (req_opcode op mod 16) [1; 2] /\ broken_up before = true) \/
  (req_opcode op mod 16 = 0 /\ broken_up before = false).
