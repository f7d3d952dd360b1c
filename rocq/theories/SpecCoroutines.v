(** Vocabulary for C79-C81: several coroutines on one asynchronous socket (Coroutines.v). *)
From Verif Require Import Bytes Frame World WebSocket AsyncWebSocket SpecFrame SpecSend SpecListen SpecApi SpecReply SpecAsync SpecThreads Concurrent SpecConcurrent
  SpecProcess Coroutines.
Local Open Scope N_scope.

Definition status_of (s : crowd_t) (i : nat) : status := k_status (fst s i).
(** The bytes written to the connection; the calls the listeners have received. *)
Definition written (s : crowd_t) : bytes := w_out (snd s).
Definition notified (s : crowd_t) : list (nat * event) := w_log (snd s).
(** Everything that has arrived. *)
Fixpoint arrived (evs : list cev) : list rev :=
  match evs with [] => [] | CTick _ :: r => arrived r | CArrive s :: r => s ++ arrived r end.

(** [b] are the bytes written by a coroutine that has begun to send [begun] and is to send [total]: of every frame a beginning. *)
Definition frames_begun (b : bytes) (begun : list sent) (total : list sendop) : Prop :=
  prefix (map sent_op begun) total /\
  exists pieces, b = concat pieces /\ Forall2 (fun p x => prefix p (sent_bytes x)) pieces begun.
(** All of them, whole. *)
Definition frames_sent (b : bytes) (begun : list sent) (total : list sendop) : Prop :=
  map sent_op begun = total /\ b = concat (map sent_bytes begun).

(** What coroutine [i] is to send. *)
Definition to_send (react : react_t) (work : nat -> list cmd) (log new : list (nat * event)) (i : nat) : list sendop :=
  match i with O => replies react log new | _ => sends_of (work i) end.

(** Every coroutine is iterated again and again. *)
Definition kafter (react : react_t) (f : nat -> nat) (n : nat) (s : crowd_t) : crowd_t := krun react (map (fun k => CTick (f k)) (seq 0 n)) s.
(** Number of method calls the executor makes, for all coroutines together, that neither wait for the connection nor end the coroutine. *)
Fixpoint kbusy (react : react_t) (evs : list cev) (s : crowd_t) : nat :=
  match evs with
  | [] => 0
  | e :: r =>
    let s' := kstep react e s in
    (match e with CTick i => match status_of s' i with ARun => 1 | _ => 0 end | CArrive _ => 0 end) + kbusy react r s'
  end.
(** The schedule iterates coroutines 0, ..., n - 1 only. *)
Definition first_n (n : nat) (evs : list cev) : Prop := Forall (fun e => match e with CTick i => (i < n)%nat | _ => True end) evs.
