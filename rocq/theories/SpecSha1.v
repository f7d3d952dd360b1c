(** FIPS 180-4, SHA-1 (sections 2.2.2, 3.2, 4.1.1, 4.2.1, 5.1.1, 5.2.1, 5.3.1, 6.1.2), for messages that
    are a whole number of bytes.  Written from the standard, without reference to the code. *)
From Verif Require Import Bytes.
Local Open Scope N_scope.

(** Words are numbers below 2^32; addition is modulo 2^32. *)
Definition W32 : N := 2 ^ 32.

(** 3.2: rotation to the left by n. *)
Definition ROTL (n x : N) : N := (x * 2 ^ n) mod W32 + x / 2 ^ (32 - n).

(** 4.1.1 *)
Definition Not32 (x : N) : N := W32 - 1 - x.
Definition Ch (x y z : N) : N := N.lxor (N.land x y) (N.land (Not32 x) z).
Definition Parity (x y z : N) : N := N.lxor x (N.lxor y z).
Definition Maj (x y z : N) : N := N.lxor (N.lxor (N.land x y) (N.land x z)) (N.land y z).

Definition f_t (t : nat) (x y z : N) : N :=
  if Nat.ltb t 20 then Ch x y z
  else if Nat.ltb t 40 then Parity x y z
  else if Nat.ltb t 60 then Maj x y z
  else Parity x y z.

(** 4.2.1 *)
Definition K_t (t : nat) : N :=
  if Nat.ltb t 20 then 0x5a827999
  else if Nat.ltb t 40 then 0x6ed9eba1
  else if Nat.ltb t 60 then 0x8f1bbcdc
  else 0xca62c1d6.

(** 5.1.1: one bit 1, then the smallest number of zero bits that makes the length 448 modulo 512, then
    the length in bits as a 64-bit big-endian number. *)
Definition pad_zeros (len : N) : N := (55 + 64 - len mod 64) mod 64.
Definition pad (m : bytes) : bytes :=
  m ++ [x80] ++ repeat x00 (N.to_nat (pad_zeros (lenN m))) ++ be_enc 8 (8 * lenN m).

(** 5.2.1: blocks of 512 bits, and the 16 words of a block. *)
Fixpoint blocks (n : nat) (m : bytes) : list bytes :=
  match n with O => [] | S n' => takeN 64 m :: blocks n' (dropN 64 m) end.
Definition word (b : bytes) (i : nat) : N := be_dec (takeN 4 (dropN (4 * N.of_nat i) b)).

(** 6.1.2 step 1: the message schedule. *)
Fixpoint schedule (n : nat) (w : list N) : list N :=
  match n with
  | O => w
  | S n' =>
      let t := length w in
      let W i := nth i w 0 in
      schedule n' (w ++ [ROTL 1 (N.lxor (W (t - 3)%nat) (N.lxor (W (t - 8)%nat) (N.lxor (W (t - 14)%nat) (W (t - 16)%nat))))])
  end.
Definition message_schedule (b : bytes) : list N := schedule 64 (map (word b) (seq 0 16)).

(** 6.1.2 step 3, for one t. *)
Definition round (Ws : list N) (v : N * N * N * N * N) (t : nat) : N * N * N * N * N :=
  let '(a, b, c, d, e) := v in
  let T := (ROTL 5 a + f_t t b c d + e + K_t t + nth t Ws 0) mod W32 in
  (T, a, ROTL 30 b, c, d).

(** 6.1.2 for one block. *)
Definition compress (H : N * N * N * N * N) (b : bytes) : N * N * N * N * N :=
  let '(a, b', c, d, e) := fold_left (round (message_schedule b)) (seq 0 80) H in
  let '(h0, h1, h2, h3, h4) := H in
  ((a + h0) mod W32, (b' + h1) mod W32, (c + h2) mod W32, (d + h3) mod W32, (e + h4) mod W32).

(** 5.3.1 *)
Definition H_init : N * N * N * N * N := (0x67452301, 0xefcdab89, 0x98badcfe, 0x10325476, 0xc3d2e1f0).

(** 6.1.2: the digest. *)
Definition SHA1 (m : bytes) : bytes :=
  let p := pad m in
  let '(h0, h1, h2, h3, h4) := fold_left compress (blocks (Nat.div (length p) 64) p) H_init in
  be_enc 4 h0 ++ be_enc 4 h1 ++ be_enc 4 h2 ++ be_enc 4 h3 ++ be_enc 4 h4.

(** Test vectors of FIPS 180 (sanity of the specification, not of the code). *)
Definition ascii_abc : bytes := [x61; x62; x63].
Example SHA1_abc : SHA1 ascii_abc =
  [xa9; x99; x3e; x36; x47; x06; x81; x6a; xba; x3e; x25; x71; x78; x50; xc2; x6c; x9c; xd0; xd8; x9d].
Proof. vm_compute. reflexivity. Qed.
Example SHA1_empty : SHA1 [] =
  [xda; x39; xa3; xee; x5e; x6b; x4b; x0d; x32; x55; xbf; xef; x95; x60; x18; x90; xaf; xd8; x07; x09].
Proof. vm_compute. reflexivity. Qed.
