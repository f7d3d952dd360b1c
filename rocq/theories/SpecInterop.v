(** Specification: what a peer that keeps strictly to RFC 6455 (and was not written with this library) makes of a sequence of sending calls (C97).
    Written on the calls, without bytes. *)
From Verif Require Import Bytes Frame World WebSocket SpecFrame SpecSend SpecAccept SpecReply.
Local Open Scope N_scope.

(** What the peer is told, and what becomes of the sequence, if [opn] is the type (1 text, 2 binary) of the fragmented message in progress.
    Section 5.4: a fragmented message is one data frame without FIN, any number of continuation frames without FIN and one with FIN; data frames
    do not occur inside it, control frames may. Section 5.5: control frames have FIN and at most 125 bytes. Section 5.2: other opcodes are reserved. *)
Fixpoint rfc_understood (opn : option N) (ops : list sendop) : list obs * fate :=
  match ops with
  | [] => ([], AllRead)
  | op :: r =>
    let m := req_payload op in
    let go (opn' : option N) (now : list obs) := let (later, f) := rfc_understood opn' r in (now ++ later, f) in
    let data (t : N) := map (OByte t) m ++ (if req_fin op then [OEnd t] else []) in
    let control := req_fin op && (lenN m <=? 125) in
    let refused := ([], RefusedAt op r) in
    match req_opcode op mod 16, opn with
    | 0, Some t => go (if req_fin op then None else Some t) (data t)
    | 1, None => go (if req_fin op then None else Some 1) (data 1)
    | 2, None => go (if req_fin op then None else Some 2) (data 2)
    | 8, _ => if control then ([close_obs m], ClosedBy r) else refused
    | 9, _ => if control then go opn [OPing m] else refused
    | 10, _ => if control then go opn [OPong m] else refused
    | _, _ => refused
    end
  end.

(** The frames of [ops], one after the other, all masked or none, as [msk] says. *)
Inductive frames_with (msk : bool) : list sendop -> bytes -> Prop :=
| fw_nil : frames_with msk [] []
| fw_cons op r k b : has_key k = msk -> frames_with msk r b -> frames_with msk (op :: r) (sent_wire k op ++ b).

(** How the peer's reading ends. *)
Definition rfc_ends (msk : bool) (e : rend) (f : fate) : Prop :=
  match f with
  | AllRead => e = Blocked                                             (* everything is read; it waits for more *)
  | ClosedBy r => exists b, e = Closed b /\ frames_with msk r b           (* the frames of [r] follow the Close frame unread *)
  | RefusedAt op r => exists k b, has_key k = msk /\ e = Rejected (masked_opt k (req_payload op) ++ b) /\ frames_with msk r b
  end.

(** * Conversations built with the documented calls: whole messages, messages sent in parts by sendOneFrame, pings and pongs *)
Inductive ctl := Ping (m : bytes) | Pong (m : bytes).
(** Between the parts of a message: a further part, or a ping or pong. *)
Inductive part := Part (m : bytes) | Between (c : ctl).
Inductive item :=
| Whole (t : N) (m : bytes)                                          (* sendOneFrameText / sendOneFrameBinary *)
| InParts (t : N) (first : bytes) (mid : list part) (final : bytes)     (* sendOneFrame(false, t, first), ..., sendOneFrame(true, 0, final) *)
| Control (c : ctl).

Definition ctl_call (c : ctl) : sendop := match c with Ping m => SoPing (Some m) | Pong m => SoPong (Some m) end.
Definition part_call (p : part) : sendop := match p with Part m => SoFrame false 0 (Some m) | Between c => ctl_call c end.
Definition item_calls (i : item) : list sendop :=
  match i with
  | Whole t m => [if t =? 1 then SoText (Some m) else SoBinary (Some m)]
  | InParts t first mid final => SoFrame false t (Some first) :: map part_call mid ++ [SoFrame true 0 (Some final)]
  | Control c => [ctl_call c]
  end.

(** What is to be heard of it: all bytes of a message under its type, the end of the message once, pings and pongs where they stand. *)
Definition ctl_heard (c : ctl) : obs := match c with Ping m => OPing m | Pong m => OPong m end.
Definition part_heard (t : N) (p : part) : list obs := match p with Part m => map (OByte t) m | Between c => [ctl_heard c] end.
Definition item_heard (i : item) : list obs :=
  match i with
  | Whole t m => map (OByte t) m ++ [OEnd t]
  | InParts t first mid final => map (OByte t) first ++ flat_map (part_heard t) mid ++ map (OByte t) final ++ [OEnd t]
  | Control c => [ctl_heard c]
  end.

Definition ctl_ok (c : ctl) : Prop := match c with Ping m | Pong m => lenN m <= 125 end.
Definition part_ok (p : part) : Prop := match p with Part _ => True | Between c => ctl_ok c end.
Definition item_ok (i : item) : Prop :=
  match i with
  | Whole t _ => t = 1 \/ t = 2
  | InParts t _ mid _ => (t = 1 \/ t = 2) /\ Forall part_ok mid
  | Control c => ctl_ok c
  end.

(** Sending calls that are complete messages: everything except sendOneFrame(fin, opcode, message). *)
Definition tidy (op : sendop) : Prop :=
  match op with
  | SoText _ | SoBinary _ | SoClose0 => True
  | SoPing m | SoPong m => lenN (msg_of m) <= 125
  | SoClose _ m => lenN (msg_of m) <= 123
  | SoFrame _ _ _ => False
  end.
(** Listener code that sends only such messages. *)
Definition tidy_react (react : react_t) : Prop := forall l log, Forall tidy (sends_of (react l log)).
(** What is heard of them: everything up to the first Close. *)
Fixpoint tidy_heard (ops : list sendop) : list obs :=
  match ops with
  | [] => []
  | op :: r =>
    match op with
    | SoText m => map (OByte 1) (msg_of m) ++ OEnd 1 :: tidy_heard r
    | SoBinary m => map (OByte 2) (msg_of m) ++ OEnd 2 :: tidy_heard r
    | SoPing m => OPing (msg_of m) :: tidy_heard r
    | SoPong m => OPong (msg_of m) :: tidy_heard r
    | SoClose code m => [OClose (code mod 65536) (msg_of m)]
    | SoClose0 => [OClose 0 []]
    | SoFrame _ _ _ => tidy_heard r
    end
  end.
Definition is_close_call (op : sendop) : bool := match op with SoClose _ _ | SoClose0 => true | _ => false end.

(** The last data frame of [ops] (opcode 0, 1 or 2) has no FIN: a message is in progress. *)
Fixpoint in_progress (now : bool) (ops : list sendop) : bool :=
  match ops with [] => now | op :: r => in_progress (if req_opcode op mod 16 <? 3 then negb (req_fin op) else now) r end.
(** A call whose frame RFC 6455 forbids after [before]. *)
Definition offends (before : list sendop) (op : sendop) : Prop :=
  (In (req_opcode op mod 16) [8; 9; 10] /\ (125 < lenN (req_payload op) \/ req_fin op = false)) \/
  In (req_opcode op mod 16) [3; 4; 5; 6; 7; 11; 12; 13; 14; 15] \/
  (In (req_opcode op mod 16) [1; 2] /\ in_progress false before = true) \/
  (req_opcode op mod 16 = 0 /\ in_progress false before = false).
