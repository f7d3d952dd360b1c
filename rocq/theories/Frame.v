(** Model of Frame.hpp / Frame.cpp. *)
From Verif Require Import Bytes.
Local Open Scope N_scope.

(** Frame.hpp:112  v_uint8 mask[4]. *)
Record mask4 := Mask4 { mk0 : byte; mk1 : byte; mk2 : byte; mk3 : byte }.

Definition mask0 : mask4 := Mask4 x00 x00 x00 x00.

(** The subscript expression [mask[i % 4]]; WebSocket.cpp:170, 326, AsyncWebSocket.cpp:292, 522. *)
Definition mask_at (m : mask4) (i : N) : byte :=
  match i mod 4 with
  | 0 => mk0 m
  | 1 => mk1 m
  | 2 => mk2 m
  | _ => mk3 m
  end.

Definition mask_bytes (m : mask4) : bytes := [mk0 m; mk1 m; mk2 m; mk3 m].

(** Four bytes read into [frameHeader.mask]; other lengths are not used by the code. *)
Definition mask_of (l : bytes) : mask4 :=
  match l with
  | [a; b; c; d] => Mask4 a b c d
  | _ => mask0
  end.

(** Frame.hpp:73-113  struct Frame::Header. [h_opcode] is v_uint8 (N, < 256 in use),
    [h_len] is v_int64 (Z, signed). *)
Record header := Header {
  h_fin : bool;
  h_rsv1 : bool;
  h_rsv2 : bool;
  h_rsv3 : bool;
  h_opcode : N;
  h_hasMask : bool;
  h_len : Z;
  h_mask : mask4
}.

(** Frame.hpp:41-66 opcodes. *)
Definition OPCODE_CONTINUATION : N := 0.
Definition OPCODE_TEXT : N := 1.
Definition OPCODE_BINARY : N := 2.
Definition OPCODE_CLOSE : N := 8.
Definition OPCODE_PING : N := 9.
Definition OPCODE_PONG : N := 10.

(** Frame.cpp:29-53  Frame::packHeaderBits; returns (bits, messageLengthScenario).
    [bits] is v_uint16; all values or-ed in are below 2^16 so no truncation occurs
    (lemma [packHeaderBits_lt]). *)
Definition packHeaderBits (h : header) : N * N :=
  let bits := 0 in
  let bits := if h_fin h then N.lor bits 32768 else bits in
  let bits := if h_rsv1 h then N.lor bits 16384 else bits in
  let bits := if h_rsv2 h then N.lor bits 8192 else bits in
  let bits := if h_rsv3 h then N.lor bits 4096 else bits in
  let bits := N.lor bits (N.shiftl (N.land (h_opcode h) 15) 8) in
  let bits := if h_hasMask h then N.lor bits 128 else bits in
  if (h_len h <? 126)%Z then (N.lor bits (Z.to_N (Z.land (h_len h) 127)), 1)
  else if (h_len h <? 65536)%Z then (N.lor bits 126, 2)
  else (N.lor bits 127, 3).

(** Frame.cpp:55-63  Frame::unpackHeaderBits; [h] is the header passed by reference, of which
    [payloadLength] and [mask] are left untouched. Returns (frameHeader, messageLen1). *)
Definition unpackHeaderBits (bits : N) (h : header) : header * N :=
  (Header
     (0 <? N.land bits 32768)
     (0 <? N.land bits 16384)
     (0 <? N.land bits 8192)
     (0 <? N.land bits 4096)
     (N.shiftr (N.land bits 3840) 8)
     (0 <? N.land bits 128)
     (h_len h)
     (h_mask h),
   N.land bits 127).

Definition set_len (h : header) (n : Z) : header :=
  Header (h_fin h) (h_rsv1 h) (h_rsv2 h) (h_rsv3 h) (h_opcode h) (h_hasMask h) n (h_mask h).
Definition set_mask (h : header) (m : mask4) : header :=
  Header (h_fin h) (h_rsv1 h) (h_rsv2 h) (h_rsv3 h) (h_opcode h) (h_hasMask h) (h_len h) m.

(** Conversion v_uint64 -> v_int64 (modular; WebSocket.cpp:97, AsyncWebSocket.cpp:129). *)
Definition to_i64 (n : N) : Z :=
  let m := (n mod 2 ^ 64) in
  if m <? 2 ^ 63 then Z.of_N m else (Z.of_N m - 2 ^ 64)%Z.

(** Conversion v_int64 -> v_uint32 / v_uint16 (modular), as in the arguments of htonl/htons. *)
Definition i64_to_u32 (z : Z) : N := Z.to_N (z mod 2 ^ 32)%Z.
Definition i64_to_u16 (z : Z) : N := Z.to_N (z mod 2 ^ 16)%Z.
