(** Vocabulary for C94: header fields and message heads (RFC 7230 section 3), and the Base64 alphabet. *)
From Coq Require Import String.
From Verif Require Import Bytes Base64 Handshake.
Local Open Scope N_scope.

Definition CR : byte := x0d.
Definition LF : byte := x0a.
(** A-Z, a-z, 0-9, +, / and =. *)
Definition base64_char (b : byte) : Prop := In b (str "ABCDEFGHIJKLMNOPQRSTUVWXYZabcdefghijklmnopqrstuvwxyz0123456789+/=").
(** Text that can not end a line. *)
Definition one_line (v : bytes) : Prop := ~ In CR v /\ ~ In LF v.
Definition clean_field (e : bytes * bytes) : Prop := one_line (fst e) /\ one_line (snd e).

(** The head of an HTTP message: start line, header fields, empty line. *)
Definition head (start : bytes) (h : headers) : bytes :=
  start ++ [CR; LF] ++ flat_map (fun e => fst e ++ str ": " ++ snd e ++ [CR; LF]) h ++ [CR; LF].
