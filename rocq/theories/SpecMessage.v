(** Specification of C96: the content of a message object while it is being sent. *)
From Verif Require Import Bytes Frame World WebSocket SpecFrame SpecSend Message.
Local Open Scope N_scope.

(** The message object given to a sending call other than sendClose. *)
Definition message (op : sendop) : option bytes :=
  match op with SoFrame _ _ m | SoPing m | SoPong m | SoText m | SoBinary m => m | SoClose _ _ | SoClose0 => None end.

(** The contents the message object has had: [m] at the time of the call, and those it was given since. *)
Definition given (e : mev) : list bytes := match e with MTick => [] | MOverwrite d | MAssign d => [d] end.
Definition contents (m : bytes) (evs : list mev) : list bytes := m :: flat_map given evs.

(** Only bytes were overwritten, the size (and so the memory) of the string is the same. *)
Definition in_place (n : N) (evs : list mev) : Prop :=
  Forall (fun e => match e with MTick => True | MOverwrite d => lenN d = n | MAssign _ => False end) evs.
Definition only_ticks (evs : list mev) : Prop := Forall (eq MTick) evs.

(** Sizes C++ objects can have and the masking loop can handle. *)
Definition sizes_ok (w : world) (cs : list bytes) : Prop := Forall (fun d => lenN d < 2 ^ 63 /\ size_ok w d) cs.

(** Each byte of [body] is the byte at that place in one of [cs], and [body] is as long as one of them. *)
Definition woven (cs : list bytes) (body : bytes) : Prop :=
  (exists d, In d cs /\ lenN body = lenN d) /\
  forall i b, nth_error body i = Some b -> exists d, In d cs /\ nth_error d i = Some b.

(** A header announcing [n] bytes, followed by the bytes [body] (masked with the key of the header). *)
Definition announced (k : option mask4) (op : sendop) (n : N) (body : bytes) : bytes :=
  rfc_header (lform_min n) (req_fin op) false false false (req_opcode op mod 16) k n ++ masked_opt k body.
(** It is a frame iff [body] is as long as announced. *)
Definition is_frame (bs : bytes) : Prop := exists lf f, f_opcode f < 16 /\ lform_ok lf (lenN (f_payload f)) = true /\ bs = wire lf f.
