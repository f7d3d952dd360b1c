(** oatpp core, contract: oatpp::encoding::Base64::encode(data) is RFC 4648 section 4 Base64 (standard
    alphabet, with padding).  Not part of /repo; the handshake (Handshaker.cpp:55,107) and
    Utils::generateKey (Utils.cpp:38) call it. *)
From Verif Require Import Bytes.
From Coq Require Import ZifyBool ZifyNat ZifyN String.
Local Open Scope N_scope.

(** String literals as bytes. *)
Definition str (s : string) : bytes := list_byte_of_string s.

(** RFC 4648 table 1. *)
Definition alphabet : bytes := str "ABCDEFGHIJKLMNOPQRSTUVWXYZabcdefghijklmnopqrstuvwxyz0123456789+/".
Definition pad_char : byte := x3d.
Definition b64char (v : N) : byte := nth (N.to_nat v) alphabet x00.

(** RFC 4648 section 4: 24-bit groups as four 6-bit values; the last group is filled with zero bits and
    padded with one or two '='. *)
Fixpoint base64 (l : bytes) : bytes :=
  match l with
  | [] => []
  | [a] =>
      let n := b2n a * 65536 in
      [b64char (n / 262144); b64char (n / 4096 mod 64); pad_char; pad_char]
  | [a; b] =>
      let n := b2n a * 65536 + b2n b * 256 in
      [b64char (n / 262144); b64char (n / 4096 mod 64); b64char (n / 64 mod 64); pad_char]
  | a :: b :: c :: r =>
      let n := b2n a * 65536 + b2n b * 256 + b2n c in
      [b64char (n / 262144); b64char (n / 4096 mod 64); b64char (n / 64 mod 64); b64char (n mod 64)]
      ++ base64 r
  end.

(** Specification: decoding (used to say what an encoded string stands for). *)
Fixpoint index_of (c : byte) (l : bytes) : option N :=
  match l with
  | [] => None
  | x :: r => if Byte.eqb c x then Some 0 else option_map N.succ (index_of c r)
  end.
Definition b64value (c : byte) : option N := index_of c alphabet.

Fixpoint b64decode (l : bytes) : option bytes :=
  match l with
  | [] => Some []
  | c0 :: c1 :: c2 :: c3 :: r =>
      match b64value c0, b64value c1 with
      | Some v0, Some v1 =>
          let n := v0 * 262144 + v1 * 4096 in
          match b64value c2, b64value c3 with
          | Some v2, Some v3 =>
              let n := n + v2 * 64 + v3 in
              match b64decode r with
              | Some t => Some (n2b (n / 65536) :: n2b (n / 256) :: n2b n :: t)
              | None => None
              end
          | Some v2, None =>
              if Byte.eqb c3 pad_char then
                match r with [] => Some [n2b (n / 65536); n2b ((n + v2 * 64) / 256)] | _ => None end
              else None
          | None, _ =>
              if Byte.eqb c2 pad_char && Byte.eqb c3 pad_char then
                match r with [] => Some [n2b (n / 65536)] | _ => None end
              else None
          end
      | _, _ => None
      end
  | _ => None
  end.

(* ------------------------------------------------------------------------------------- *)

Lemma b64value_char v : v < 64 -> b64value (b64char v) = Some v.
Proof.
  intros Hv.
  assert (forallb (fun i => match b64value (b64char (N.of_nat i)) with Some w => w =? N.of_nat i | None => false end)
                  (seq 0 64) = true) as H by (vm_compute; reflexivity).
  rewrite forallb_forall in H. specialize (H (N.to_nat v)). rewrite N2Nat.id in H.
  destruct (b64value (b64char v)) as [w|].
  - f_equal. apply N.eqb_eq. apply H. apply in_seq. lia.
  - discriminate H. apply in_seq. lia.
Qed.

Lemma b64value_pad : b64value pad_char = None.
Proof. reflexivity. Qed.

Lemma three_ind (P : bytes -> Prop) :
  P [] -> (forall a, P [a]) -> (forall a b, P [a; b]) ->
  (forall a b c r, P r -> P (a :: b :: c :: r)) -> forall l, P l.
Proof.
  intros H0 H1 H2 H3.
  assert (forall n l, (List.length l <= n)%nat -> P l) as H.
  { induction n as [|n IH]; intros l Hl.
    - destruct l; [assumption|cbn in Hl; lia].
    - destruct l as [|a [|b [|c r]]]; auto. apply H3. apply IH. cbn in Hl. lia. }
  intros l. eapply H. apply le_n.
Qed.

Lemma b2n_n2b_eq n a : n mod 256 = b2n a -> n2b n = a.
Proof. intros H. apply b2n_inj. rewrite b2n_n2b. assumption. Qed.

Lemma b64_decode_encode l : b64decode (base64 l) = Some l.
Proof.
  induction l as [|a|a b|a b c r IH] using three_ind.
  - reflexivity.
  - pose proof (b2n_lt a) as Ha. cbn [base64 b64decode].
    rewrite !b64value_char, b64value_pad by lia. cbn [Byte.eqb pad_char andb].
    change (Byte.eqb pad_char pad_char) with true. cbn [andb].
    do 2 f_equal. apply b2n_n2b_eq. lia.
  - pose proof (b2n_lt a) as Ha. pose proof (b2n_lt b) as Hb. cbn [base64 b64decode].
    rewrite !b64value_char, b64value_pad by lia.
    change (Byte.eqb pad_char pad_char) with true. cbv beta zeta iota.
    do 2 f_equal; [|f_equal]; apply b2n_n2b_eq; lia.
  - pose proof (b2n_lt a) as Ha. pose proof (b2n_lt b) as Hb. pose proof (b2n_lt c) as Hc.
    cbn [base64 b64decode app]. rewrite !b64value_char by lia. rewrite IH. cbv beta zeta.
    do 2 f_equal; [|f_equal; [|f_equal]]; apply b2n_n2b_eq; lia.
Qed.

Lemma base64_inj l l' : base64 l = base64 l' -> l = l'.
Proof.
  intros H. assert (Some l = Some l') as E.
  { rewrite <- !b64_decode_encode. now rewrite H. }
  now injection E.
Qed.

Lemma base64_length l : lenN (base64 l) = 4 * ((lenN l + 2) / 3).
Proof.
  induction l as [|a|a b|a b c r IH] using three_ind; try reflexivity.
  cbn [base64]. rewrite lenN_app, IH, !lenN_cons.
  replace (1 + (1 + (1 + lenN r)) + 2) with (lenN r + 2 + 1 * 3) by lia.
  rewrite N.div_add by lia. rewrite lenN_nil. lia.
Qed.

Lemma base64_chars l c : In c (base64 l) -> In c alphabet \/ c = pad_char.
Proof.
  assert (forall v, v < 64 -> In (b64char v) alphabet) as Hin.
  { intros v Hv. unfold b64char. apply nth_In. change (List.length alphabet) with 64%nat. lia. }
  induction l as [|a|a b|a b d r IH] using three_ind; cbn [base64].
  - intros [].
  - pose proof (b2n_lt a). intros [<-|[<-|[<-|[<-|[]]]]]; auto; left; apply Hin; lia.
  - pose proof (b2n_lt a). pose proof (b2n_lt b).
    intros [<-|[<-|[<-|[<-|[]]]]]; auto; left; apply Hin; lia.
  - pose proof (b2n_lt a). pose proof (b2n_lt b). pose proof (b2n_lt d).
    intros H'. apply in_app_iff in H' as [[<-|[<-|[<-|[<-|[]]]]]|H']; auto; left; apply Hin; lia.
Qed.

(** RFC 4648 section 10 test vectors. *)
Example b64_vectors :
  map base64 [str ""; str "f"; str "fo"; str "foo"; str "foob"; str "fooba"; str "foobar"] =
  [str ""; str "Zg=="; str "Zm8="; str "Zm9v"; str "Zm9vYg=="; str "Zm9vYmE="; str "Zm9vYmFy"].
Proof. vm_compute. reflexivity. Qed.
