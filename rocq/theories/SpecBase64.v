(** RFC 4648 section 4 (Base64), written from the text of the RFC: the octets as one string of bits, cut into groups of six
    (the last one filled with zero bits), each group a character of table 1; '=' up to a multiple of four characters. *)
From Verif Require Import Bytes.
Local Open Scope N_scope.

(** The bits of an octet, most significant first. *)
Definition bits_of (b : byte) : list bool := map (N.testbit (b2n b)) [7; 6; 5; 4; 3; 2; 1; 0].
(** Value of a group of bits, most significant first. *)
Definition value (g : list bool) : N := fold_left (fun n (b : bool) => 2 * n + (if b then 1 else 0)) g 0.
Fixpoint sextets (l : list bool) : list (list bool) :=
  match l with
  | [] => []
  | a :: b :: c :: d :: e :: f :: r => [a; b; c; d; e; f] :: sextets r
  | _ => [firstn 6 (l ++ [false; false; false; false; false])]
  end.
(** Table 1: 0-25 A-Z, 26-51 a-z, 52-61 0-9, 62 +, 63 /. *)
Definition table1 (v : N) : byte :=
  n2b (if v <? 26 then 65 + v else if v <? 52 then 97 + (v - 26) else if v <? 62 then 48 + (v - 52) else if v =? 62 then 43 else 47).
Definition rfc_base64 (l : bytes) : bytes :=
  let chars := map (fun g => table1 (value g)) (sextets (flat_map bits_of l)) in
  chars ++ repeat x3d ((4 - length chars mod 4) mod 4)%nat.
