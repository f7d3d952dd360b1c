(** Specification of the sending calls: the RFC 6455 frame each call asks for. *)
From Verif Require Import Bytes Frame World WebSocket SpecFrame.
Local Open Scope N_scope.

Definition msg_of (m : option bytes) : bytes := match m with Some b => b | None => [] end.

(** FIN, opcode and payload requested by a sending call. *)
Definition request (op : sendop) : bool * N * bytes :=
  match op with
  | SoFrame fin o m => (fin, o, msg_of m)
  | SoClose code m => (true, 8, be_enc 2 code ++ msg_of m)
  | SoClose0 => (true, 8, [])
  | SoPing m => (true, 9, msg_of m)
  | SoPong m => (true, 10, msg_of m)
  | SoText m => (true, 1, msg_of m)
  | SoBinary m => (true, 2, msg_of m)
  end.

Definition req_fin op := fst (fst (request op)).
Definition req_opcode op := snd (fst (request op)).
Definition req_payload op := snd (request op).

(** The next four bytes of the random source. *)
Definition next_key (w : world) : mask4 :=
  Mask4 (w_rnd w (w_rpos w)) (w_rnd w (w_rpos w + 1)%nat)
        (w_rnd w (w_rpos w + 2)%nat) (w_rnd w (w_rpos w + 3)%nat).

Definition next_key_opt (w : world) : option mask4 :=
  if s_mask (w_sock w) then Some (next_key w) else None.

(** The frame that must appear on the wire if [op] is called in [w]; opcodes have four bits. *)
Definition frame_for (k : option mask4) (op : sendop) : frame :=
  RFrame (req_fin op) false false false (req_opcode op mod 16) k (req_payload op).

Definition sent_wire (k : option mask4) (op : sendop) : bytes :=
  wire (lform_min (lenN (req_payload op))) (frame_for k op).

(** The same for a call with explicit arguments. *)
Definition raw_frame (k : option mask4) (fin : bool) (o : N) (p : bytes) : frame :=
  RFrame fin false false false (o mod 16) k p.
Definition raw_wire (k : option mask4) (fin : bool) (o : N) (p : bytes) : bytes :=
  wire (lform_min (lenN p)) (raw_frame k fin o p).

(** Bytes of randomness used by a call: four iff masking. *)
Definition drawn (w : world) : nat := if s_mask (w_sock w) then 4%nat else 0%nat.

(** A size the masking loop can handle (the code's loop counter is a v_int32). *)
Definition size_ok (w : world) (p : bytes) : Prop :=
  s_mask (w_sock w) = true -> lenN p < 2 ^ 31.

(** Sizes that exist in C++ and that the masking loop can handle. *)
Definition fits (msk : bool) (op : sendop) : Prop :=
  lenN (req_payload op) < 2 ^ 63 /\ (msk = true -> lenN (req_payload op) < 2 ^ 31).
