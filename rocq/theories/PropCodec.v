(** Property theorems about frame headers and sending (C01, C02, C03, C10, C23, C26). *)
From Verif Require Import Bytes Frame World WebSocket SpecFrame SpecSend SpecListen
  ProofFrame ProofStream ProofSend ProofHeader ProofReading ProofCodec.
Local Open Scope N_scope.

(** The 7-bit length field a payload length calls for (RFC 6455 5.2). *)
Definition field7 (n : Z) : N :=
  if (n <? 126)%Z then Z.to_N n else if (n <? 65536)%Z then 126 else 127.

(** * C01 *)
Theorem C01_pack_unpack : forall h h0 bits scenario h' l7,
  (0 <= h_len h < 2 ^ 63)%Z -> h_opcode h < 256 ->
  packHeaderBits h = (bits, scenario) -> unpackHeaderBits bits h0 = (h', l7) ->
  bits < 65536 /\
  h_fin h' = h_fin h /\ h_rsv1 h' = h_rsv1 h /\ h_rsv2 h' = h_rsv2 h /\ h_rsv3 h' = h_rsv3 h /\
  h_opcode h' = h_opcode h mod 16 /\ h_hasMask h' = h_hasMask h /\ l7 = field7 (h_len h).
Proof. exact pack_unpack. Qed.
Print Assumptions C01_pack_unpack.

Theorem C01_unpack_pack : forall bits h0 h l7 n,
  bits < 65536 -> unpackHeaderBits bits h0 = (h, l7) ->
  (0 <= n)%Z -> field7 n = l7 -> fst (packHeaderBits (set_len h n)) = bits.
Proof. exact unpack_pack. Qed.
Print Assumptions C01_unpack_pack.

(** Every 7-bit field is the field of some length, so [C01_unpack_pack] covers all 16-bit values. *)
Theorem C01_field7_onto : forall bits h0, bits < 65536 ->
  exists n, (0 <= n)%Z /\ field7 n = snd (unpackHeaderBits bits h0).
Proof. exact field7_onto. Qed.

Example C01_nonvacuous :
  packHeaderBits (Header true false true false 9 true 70000 mask0) = (43519, 3) /\
  unpackHeaderBits 43519 header_init = (Header true false true false 9 true 0 mask0, 127).
Proof. vm_compute. auto. Qed.

(** * C02 *)
Definition header_wire (h : header) : bytes :=
  rfc_header (lform_min (Z.to_N (h_len h))) (h_fin h) (h_rsv1 h) (h_rsv2 h) (h_rsv3 h) (h_opcode h)
             (if h_hasMask h then Some (h_mask h) else None) (Z.to_N (h_len h)).

Theorem C02_header_written : forall h w o w',
  (0 <= h_len h < 2 ^ 63)%Z -> h_opcode h < 16 -> healthy (w_wr w) ->
  writeFrameHeader h w = (o, w') ->
  o = Ret tt /\ w_out w' = w_out w ++ header_wire h /\ w_sock w' = w_sock w.
Proof. exact header_written. Qed.
Print Assumptions C02_header_written.

Theorem C02_header_read : forall h h0 rest w o w',
  (0 <= h_len h < 2 ^ 63)%Z -> h_opcode h < 16 -> clean (w_in w) ->
  bytes_of (w_in w) = header_wire h ++ rest ->
  readFrameHeader h0 w = (o, w') ->
  exists h', o = Ret h' /\ bytes_of (w_in w') = rest /\
    h_fin h' = h_fin h /\ h_rsv1 h' = h_rsv1 h /\ h_rsv2 h' = h_rsv2 h /\ h_rsv3 h' = h_rsv3 h /\
    h_opcode h' = h_opcode h /\ h_hasMask h' = h_hasMask h /\ h_len h' = h_len h /\
    (h_hasMask h = true -> h_mask h' = h_mask h) /\
    w_sock w' = w_sock w /\ w_log w' = w_log w /\ w_out w' = w_out w.
Proof. exact header_read. Qed.
Print Assumptions C02_header_read.

(** The round trip, write and read composed. *)
Theorem C02_round_trip : forall h h0 rest ws os ws' wr or wr',
  (0 <= h_len h < 2 ^ 63)%Z -> h_opcode h < 16 ->
  healthy (w_wr ws) -> writeFrameHeader h ws = (os, ws') ->
  clean (w_in wr) -> w_out ws ++ bytes_of (w_in wr) = w_out ws' ++ rest ->
  readFrameHeader h0 wr = (or, wr') ->
  exists h', or = Ret h' /\ bytes_of (w_in wr') = rest /\
    h_fin h' = h_fin h /\ h_rsv1 h' = h_rsv1 h /\ h_rsv2 h' = h_rsv2 h /\ h_rsv3 h' = h_rsv3 h /\
    h_opcode h' = h_opcode h /\ h_hasMask h' = h_hasMask h /\ h_len h' = h_len h /\
    (h_hasMask h = true -> h_mask h' = h_mask h).
Proof. exact header_round_trip. Qed.
Print Assumptions C02_round_trip.

Example C02_nonvacuous :
  let h := Header true false false false 2 true 300 (Mask4 x01 x02 x03 x04) in
  let w := World [RData x82 []; RIo IoRetry; RData xfe [x01; x2c; x01]; RData x02 [x03; x04; x55]] [] [] (fun _ => x00) 0 [] (sock_new false) in
  bytes_of (w_in w) = header_wire h ++ [x55] /\ clean (w_in w) /\
  fst (readFrameHeader header_init w) = Ret h.
Proof. vm_compute. repeat split; repeat constructor. Qed.

(** * C03 *)
Theorem C03_sent_frame : forall op w o w',
  healthy (w_wr w) -> lenN (req_payload op) < 2 ^ 63 -> size_ok w (req_payload op) ->
  send op w = (o, w') ->
  o = Ret tt /\
  w_out w' = w_out w ++
    wire (lform_min (lenN (req_payload op)))
         (RFrame (req_fin op) false false false (req_opcode op mod 16)
                 (if s_mask (w_sock w) then Some (next_key w) else None) (req_payload op)) /\
  w_rpos w' = (w_rpos w + (if s_mask (w_sock w) then 4 else 0))%nat /\ w_sock w' = w_sock w.
Proof. exact sent_frame. Qed.
Print Assumptions C03_sent_frame.

Theorem C03_sendOneFrame_true : forall fin opcode m w o w',
  healthy (w_wr w) -> lenN (msg_of m) < 2 ^ 63 -> size_ok w (msg_of m) ->
  sendOneFrame fin opcode m w = (o, w') ->
  o = Ret true /\
  w_out w' = w_out w ++
    wire (lform_min (lenN (msg_of m)))
         (RFrame fin false false false (opcode mod 16)
                 (if s_mask (w_sock w) then Some (next_key w) else None) (msg_of m)).
Proof. exact sendOneFrame_true. Qed.
Print Assumptions C03_sendOneFrame_true.

(** A null message is sent exactly as an empty one. *)
Theorem C03_null_is_empty : forall w,
  (forall fin opcode, send (SoFrame fin opcode None) w = send (SoFrame fin opcode (Some [])) w) /\
  (forall code, send (SoClose code None) w = send (SoClose code (Some [])) w) /\
  send (SoPing None) w = send (SoPing (Some [])) w /\ send (SoPong None) w = send (SoPong (Some [])) w /\
  send (SoText None) w = send (SoText (Some [])) w /\ send (SoBinary None) w = send (SoBinary (Some [])) w.
Proof. intros w. repeat split. Qed.
Print Assumptions C03_null_is_empty.

Example C03_nonvacuous :
  let w := World [] [WAccept 1; WIo IoRetry; WAccept 2; WAccept 4] [x99] (fun i => n2b (N.of_nat i)) 5 [] (sock_new true) in
  healthy (w_wr w) /\ size_ok w [x61; x62] /\
  w_out (snd (send (SoText (Some [x61; x62])) w)) = [x99; x81; x82; x05; x06; x07; x08; x64; x64].
Proof. vm_compute. repeat split; repeat constructor. Qed.

(** * C23: what a failing send leaves behind *)

(** The outcome of a send and the bytes it put on the wire, for every write behaviour:
    they are a prefix of the frame; the whole frame iff success was reported. *)
Theorem C23_send_reported_and_prefix : forall op w o w',
  lenN (req_payload op) < 2 ^ 63 -> send op w = (o, w') ->
  exists p, w_out w' = w_out w ++ p /\ prefix p (sent_wire (next_key_opt w) op) /\
    (forall e, o = Throw e -> p <> sent_wire (next_key_opt w) op) /\
    (o = Ret tt -> (forall fin c m, op <> SoFrame fin c m) -> p = sent_wire (next_key_opt w) op).
Proof. exact send_reported. Qed.
Print Assumptions C23_send_reported_and_prefix.

Theorem C23_sendOneFrame_reported_and_prefix : forall fin c m w o w',
  lenN (msg_of m) < 2 ^ 63 -> sendOneFrame fin c m w = (o, w') ->
  exists p, w_out w' = w_out w ++ p /\ prefix p (raw_wire (next_key_opt w) fin c (msg_of m)) /\
    match o with
    | Ret true => p = raw_wire (next_key_opt w) fin c (msg_of m)
    | Ret false | Throw _ => p <> raw_wire (next_key_opt w) fin c (msg_of m)
    | _ => True
    end.
Proof. exact sendOneFrame_reported. Qed.
Print Assumptions C23_sendOneFrame_reported_and_prefix.

(** "The socket stops listening" is true only when it is the payload write that fails
    (the exception of the convenience calls). *)
Theorem C23_stops_listening_partial : forall op w w',
  lenN (req_payload op) < 2 ^ 63 -> send op w = (Throw ExSend, w') -> s_listening (w_sock w') = false.
Proof. exact send_stops. Qed.
Print Assumptions C23_stops_listening_partial.

(** Exactly when it does: PropFail.v. *)

Example C23_nonvacuous :
  let w := World [] [WAccept 2; WAccept 1; WIo IoBroken] [] (fun _ => x00) 0 [] (set_listening (sock_new false) true) in
  exists w', send (SoText (Some [x61; x62; x63])) w = (Throw ExSend, w') /\ w_out w' = [x81; x03; x61].
Proof. eexists. vm_compute. auto. Qed.

(** * C26: undefined behaviour in sending *)
Theorem C26_send_no_ub_partial : forall op w o w' u,
  lenN (req_payload op) < 2 ^ 63 -> (s_mask (w_sock w) = true -> lenN (req_payload op) < 2 ^ 31) ->
  send op w = (o, w') -> o <> Ub u.
Proof. exact send_no_ub. Qed.
Print Assumptions C26_send_no_ub_partial.

(** Masking a message of 2^31 bytes or more overflows the loop counter: always, on a healthy connection. *)
Theorem C26_send_ub_refuted : forall op w,
  healthy (w_wr w) -> s_mask (w_sock w) = true -> 2 ^ 31 <= lenN (req_payload op) < 2 ^ 63 ->
  exists w', send op w = (Ub UbSigned, w').
Proof. exact send_ub. Qed.
Print Assumptions C26_send_ub_refuted.

Example C26_nonvacuous : lenN (req_payload (SoText (Some (repeat x00 (N.to_nat (2 ^ 31)))))) = 2 ^ 31.
Proof. exact big_message. Qed.
