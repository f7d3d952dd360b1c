(** Vocabulary for concurrent senders. *)
From Verif Require Import Bytes Frame World WebSocket AsyncWebSocket SpecFrame SpecSend Concurrent.
Local Open Scope N_scope.

(** Sends that have been made: by whom, which call, with which masking key. *)
Definition sent := (nat * sendop * option mask4)%type.
Definition sent_op (x : sent) : sendop := snd (fst x).
Definition sent_bytes (x : sent) : bytes := sent_wire (snd x) (sent_op x).
Definition sent_by (i : nat) (x : sent) : bool := Nat.eqb (fst (fst x)) i.

(** [l] is an order of all the calls in [todo] that keeps the order of each caller. *)
Definition merge_of (todo : nat -> list sendop) (l : list sent) : Prop :=
  forall i, map sent_op (filter (sent_by i) l) = todo i.

(** Nobody is inside a call and nothing is left to send. *)
Definition all_done (f : nat -> sender) : Prop := forall i, d_now (f i) = [] /\ d_todo (f i) = [].
Definition all_done_async (f : nat -> asender) : Prop := forall i, a_stack (f i) = [] /\ a_todo (f i) = [].

(** Schedules in which no caller moves while another one is inside a sending call, as with a lock around every call. *)
Fixpoint locked (sch : list nat) (s : (nat -> sender) * world) : Prop :=
  match sch with
  | [] => True
  | i :: r => (forall j, j <> i -> d_now (fst s j) = []) /\ locked r (cstep i s)
  end.
Fixpoint locked_async (sch : list nat) (s : (nat -> asender) * world) : Prop :=
  match sch with
  | [] => True
  | i :: r => (forall j, j <> i -> a_stack (fst s j) = []) /\ locked_async r (astep i s)
  end.

(** Bytes labelled with their origin. *)
Definition from (i : nat) (l : list (nat * byte)) : bytes := map snd (filter (fun x => Nat.eqb (fst x) i) l).

(** All sizes exist in C++ and can be masked. *)
Definition all_fit (todo : nat -> list sendop) : Prop := forall i, Forall (fits true) (todo i).

(** The writes [cs] one after the other, until one is incomplete; reports whether all were complete. *)
Local Open Scope m_scope.
Fixpoint issue (cs : list bytes) : M bool :=
  match cs with
  | [] => ret true
  | c :: r => n <- writeExactSizeDataSimple c ;; if n =? lenN c then issue r else ret false
  end.

(** The same report; an exception reports failure. *)
Definition same_report (o : outcome bool) (r : outcome bool) : Prop :=
  match o, r with
  | Ret b, Ret b' => b = b'
  | Throw _, Ret false => True
  | Wait, Wait => True
  | _, _ => False
  end.

(** Text of 1 to 125 ASCII characters. *)
Definition short_ascii (p : bytes) : Prop := p <> [] /\ lenN p <= 125 /\ Forall (fun b => b2n b < 128) p.

(** Caller 0 has [a] to send, caller 1 has [b]. *)
Definition two (a b : sendop) (i : nat) : list sendop :=
  match i with O => [a] | S O => [b] | _ => [] end.

(** How many of the connection's answers are failures. *)
Definition failing (e : wev) : bool := match e with WIo IoZero | WIo IoBroken => true | _ => false end.
Definition failures (q : list wev) : nat := length (filter failing q).
