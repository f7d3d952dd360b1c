(** Model of src/oatpp-websocket/SHA1.cpp (and the class in SHA1.hpp:49-117).

    uint32_t values are [N]s below 2^32; every C++ operation that can overflow is followed by an
    explicit reduction.  An [oatpp::String] argument is a list of bytes (the null string, on which
    the code dereferences a null pointer, is not modelled). *)
From Verif Require Import Bytes.
Local Open Scope N_scope.

Definition M32 : N := 4294967296.

(** uint32_t addition. *)
Definition add32 (x y : N) : N := (x + y) mod M32.

(** SHA1.cpp:53-55 [rol]: [(value << bits) | (value >> (32 - bits))] on uint32_t. *)
Definition rol (value bits : N) : N :=
  N.lor ((N.shiftl value bits) mod M32) (N.shiftr value (32 - bits)).

(** uint32_t block[BLOCK_INTS]: reading and writing one element.  Every index used by the code is a
    literal below 16 or masked with [&15]. *)
Definition bget (block : list N) (i : nat) : N := nth i block 0.
Fixpoint bset (block : list N) (i : nat) (v : N) : list N :=
  match block, i with
  | [], _ => []
  | _ :: r, O => v :: r
  | x :: r, S i' => x :: bset r i' v
  end.

(** SHA1.cpp:58-60 [blk]. *)
Definition blk (block : list N) (i : nat) : N :=
  rol (N.lxor (N.lxor (N.lxor (bget block (Nat.land (i + 13) 15)) (bget block (Nat.land (i + 8) 15)))
                      (bget block (Nat.land (i + 2) 15)))
              (bget block i)) 1.

(** The local variables a..e of [transform] (SHA1.cpp:107-111); [R0]..[R4] take them by value or by
    reference. *)
Inductive reg := A | B | C | D | E.
Record regs := Regs { ra : N; rb : N; rc : N; rd : N; re : N }.
Definition rget (r : reg) (s : regs) : N :=
  match r with A => ra s | B => rb s | C => rc s | D => rd s | E => re s end.
Definition rset (r : reg) (v : N) (s : regs) : regs :=
  match r with
  | A => Regs v (rb s) (rc s) (rd s) (re s)
  | B => Regs (ra s) v (rc s) (rd s) (re s)
  | C => Regs (ra s) (rb s) v (rd s) (re s)
  | D => Regs (ra s) (rb s) (rc s) v (re s)
  | E => Regs (ra s) (rb s) (rc s) (rd s) v
  end.

(** Which of the five round functions a line of [transform] calls. *)
Inductive rkind := R0 | R1 | R2 | R3 | R4.

(** One line [Rk(block, v, w, x, y, z, i);] of [transform]. *)
Inductive instr := Ln (k : rkind) (v w x y z : reg) (i : nat).

(** The Boolean expression of each round function (SHA1.cpp:68, 75, 82, 89, 96). *)
Definition fexpr (k : rkind) (w x y : N) : N :=
  match k with
  | R0 | R1 => N.lxor (N.land w (N.lxor x y)) y
  | R2 | R4 => N.lxor (N.lxor w x) y
  | R3 => N.lor (N.land (N.lor w x) y) (N.land w x)
  end.

(** The additive constant of each round function (SHA1.cpp:68, 75, 82, 89, 96). *)
Definition kexpr (k : rkind) : N :=
  match k with
  | R0 | R1 => 0x5a827999
  | R2 => 0x6ed9eba1
  | R3 => 0x8f1bbcdc
  | R4 => 0xca62c1d6
  end.

(** [block[i] = blk(block, i)]: done by R1..R4 but not by R0 (SHA1.cpp:67, 74, 81, 88, 95). *)
Definition upd_block (k : rkind) (block : list N) (i : nat) : list N :=
  match k with R0 => block | _ => bset block i (blk block i) end.

(** SHA1.cpp:67-98 R0..R4: [z += f(w,x,y) + block[i] + K + rol(v, 5); w = rol(w, 30);] *)
Definition exec (ins : instr) (st : regs * list N) : regs * list N :=
  match ins with
  | Ln k v w x y z i =>
      let s := fst st in
      let block := upd_block k (snd st) i in
      let s1 := rset z (add32 (rget z s)
                         (add32 (add32 (add32 (fexpr k (rget w s) (rget x s) (rget y s)) (bget block i))
                                       (kexpr k))
                                (rol (rget v s) 5))) s in
      (rset w (rol (rget w s1) 30) s1, block)
  end.

(** SHA1.cpp:114-193, line by line. *)
Definition transform_lines : list instr :=
  [
   Ln R0 A B C D E 0;
   Ln R0 E A B C D 1;
   Ln R0 D E A B C 2;
   Ln R0 C D E A B 3;
   Ln R0 B C D E A 4;
   Ln R0 A B C D E 5;
   Ln R0 E A B C D 6;
   Ln R0 D E A B C 7;
   Ln R0 C D E A B 8;
   Ln R0 B C D E A 9;
   Ln R0 A B C D E 10;
   Ln R0 E A B C D 11;
   Ln R0 D E A B C 12;
   Ln R0 C D E A B 13;
   Ln R0 B C D E A 14;
   Ln R0 A B C D E 15;
   Ln R1 E A B C D 0;
   Ln R1 D E A B C 1;
   Ln R1 C D E A B 2;
   Ln R1 B C D E A 3;
   Ln R2 A B C D E 4;
   Ln R2 E A B C D 5;
   Ln R2 D E A B C 6;
   Ln R2 C D E A B 7;
   Ln R2 B C D E A 8;
   Ln R2 A B C D E 9;
   Ln R2 E A B C D 10;
   Ln R2 D E A B C 11;
   Ln R2 C D E A B 12;
   Ln R2 B C D E A 13;
   Ln R2 A B C D E 14;
   Ln R2 E A B C D 15;
   Ln R2 D E A B C 0;
   Ln R2 C D E A B 1;
   Ln R2 B C D E A 2;
   Ln R2 A B C D E 3;
   Ln R2 E A B C D 4;
   Ln R2 D E A B C 5;
   Ln R2 C D E A B 6;
   Ln R2 B C D E A 7;
   Ln R3 A B C D E 8;
   Ln R3 E A B C D 9;
   Ln R3 D E A B C 10;
   Ln R3 C D E A B 11;
   Ln R3 B C D E A 12;
   Ln R3 A B C D E 13;
   Ln R3 E A B C D 14;
   Ln R3 D E A B C 15;
   Ln R3 C D E A B 0;
   Ln R3 B C D E A 1;
   Ln R3 A B C D E 2;
   Ln R3 E A B C D 3;
   Ln R3 D E A B C 4;
   Ln R3 C D E A B 5;
   Ln R3 B C D E A 6;
   Ln R3 A B C D E 7;
   Ln R3 E A B C D 8;
   Ln R3 D E A B C 9;
   Ln R3 C D E A B 10;
   Ln R3 B C D E A 11;
   Ln R4 A B C D E 12;
   Ln R4 E A B C D 13;
   Ln R4 D E A B C 14;
   Ln R4 C D E A B 15;
   Ln R4 B C D E A 0;
   Ln R4 A B C D E 1;
   Ln R4 E A B C D 2;
   Ln R4 D E A B C 3;
   Ln R4 C D E A B 4;
   Ln R4 B C D E A 5;
   Ln R4 A B C D E 6;
   Ln R4 E A B C D 7;
   Ln R4 D E A B C 8;
   Ln R4 C D E A B 9;
   Ln R4 B C D E A 10;
   Ln R4 A B C D E 11;
   Ln R4 E A B C D 12;
   Ln R4 D E A B C 13;
   Ln R4 C D E A B 14;
   Ln R4 B C D E A 15
  ].

Definition execs (l : list instr) (st : regs * list N) : regs * list N :=
  fold_left (fun st ins => exec ins st) l st.

(** SHA1.cpp:105-204 [transform], without the counter: the new digest. *)
Definition transform_digest (digest : list N) (block : list N) : list N :=
  let r := fst (execs transform_lines
                  (Regs (nth 0 digest 0) (nth 1 digest 0) (nth 2 digest 0) (nth 3 digest 0) (nth 4 digest 0),
                   block)) in
  [ add32 (nth 0 digest 0) (ra r); add32 (nth 1 digest 0) (rb r); add32 (nth 2 digest 0) (rc r);
    add32 (nth 3 digest 0) (rd r); add32 (nth 4 digest 0) (re r) ].

(** The members of the class (SHA1.hpp:60-63): [digest], [buffer] (its bytes up to the current
    position), [transforms]. *)
Record sha := Sha { s_digest : list N; s_buffer : bytes; s_transforms : N }.

(** SHA1.cpp:37-50 [reset], applied to any state of the three members. *)
Definition sha_reset (s : sha) : sha :=
  match s with
  | Sha _ _ _ => Sha [0x67452301; 0xefcdab89; 0x98badcfe; 0x10325476; 0xc3d2e1f0] [] 0
  end.

(** The members before the constructor body runs; their values are indeterminate, [junk] is any. *)
(** SHA1.cpp:229-231 constructor. *)
Definition sha_new (junk : sha) : sha := sha_reset junk.

(** SHA1.cpp:105-204 [transform] on the members. *)
Definition transform (block : list N) (s : sha) : sha :=
  Sha (transform_digest (s_digest s) block) (s_buffer s) ((s_transforms s + 1) mod 2 ^ 64).

(** memcpy of bytes into uint32_t words followed by ntohl on each (SHA1.cpp:222-225): groups of four
    bytes read big-endian, whatever the byte order of the host. *)
Fixpoint words_be (l : bytes) : list N :=
  match l with
  | b0 :: b1 :: b2 :: b3 :: r => be_dec [b0; b1; b2; b3] :: words_be r
  | _ => []
  end.

(** SHA1.cpp:207-226 [buffer_to_block] into an uninitialised block.  [None]: fewer than 64 bytes were
    copied, so that uninitialised memory is read. *)
Definition buffer_to_block (buffer : bytes) : option (list N) :=
  let readSize := if 64 <? lenN buffer then 64 else lenN buffer in
  if readSize =? 64 then Some (words_be (takeN readSize buffer)) else None.

(** SHA1.cpp:234-256 [update(const oatpp::String&)].  [s] is what is left of the argument
    ([s->data()[progress]] on).  [None]: out of fuel, or uninitialised memory read; the proofs show
    that neither happens.  Also SHA1.cpp:259-277 [update(std::istream&)], where [s] is what is left in
    the stream: [is.read(sbuf, n)] followed by [is.gcount()] delivers the next min(n, rest) bytes. *)
Fixpoint update_loop (fuel : nat) (s : bytes) (st : sha) : option sha :=
  match fuel with
  | O => None
  | S fuel' =>
      let room := 64 - lenN (s_buffer st) in
      let readSize := if lenN s <? room then lenN s else room in
      let st1 := Sha (s_digest st) (s_buffer st ++ takeN readSize s) (s_transforms st) in
      let rest := dropN readSize s in
      if negb (lenN (s_buffer st1) =? 64) then Some st1
      else match buffer_to_block (s_buffer st1) with
           | None => None
           | Some block =>
               let st2 := transform block st1 in
               update_loop fuel' rest (Sha (s_digest st2) [] (s_transforms st2))
           end
  end.
Definition sha_update (s : bytes) (st : sha) : option sha := update_loop (S (length s)) s st.

(** SHA1.cpp:284-322 [finalBinary]: the digest string and the object afterwards. *)
Definition sha_final (st : sha) : option (bytes * sha) :=
  let total_bits := ((s_transforms st * 64 + lenN (s_buffer st)) * 8) mod 2 ^ 64 in
  let buf1 := s_buffer st ++ [x80] in
  let orig_size := lenN buf1 in
  let buf2 := buf1 ++ repeat x00 (N.to_nat (64 - lenN buf1)) in
  match buffer_to_block buf2 with
  | None => None
  | Some block =>
      let st1 := Sha (s_digest st) buf2 (s_transforms st) in
      let '(st2, block2) :=
        if 56 <? orig_size
        then (transform block st1, repeat 0 14 ++ skipn 14 block)
        else (st1, block) in
      let block3 := bset (bset block2 15 (total_bits mod M32)) 14 ((N.shiftr total_bits 32) mod M32) in
      let st3 := transform block3 st2 in
      Some (flat_map (be_enc 4) (s_digest st3), sha_reset st3)
  end.

(** SHA1.cpp:324-329 [fromFile], as a function of the content of the file (a file that cannot be opened
    has the content []). *)
Definition sha_from_content (junk : sha) (content : bytes) : option bytes :=
  match sha_update content (sha_new junk) with
  | None => None
  | Some s => match sha_final s with None => None | Some (d, _) => Some d end
  end.
