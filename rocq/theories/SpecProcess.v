(** Vocabulary for C76-C78: several threads on one blocking socket (Process.v). *)
From Verif Require Import Bytes Frame World WebSocket SpecFrame SpecSend SpecListen SpecApi SpecAsync SpecReply Threads SpecThreads Concurrent SpecConcurrent Process.
Local Open Scope N_scope.

(** The state of thread [i]: whether it has finished, and how; the calls its listeners have received. *)
Definition finished (s : system) (i : nat) (o : outcome unit) : Prop := fst (fst s i) = PDone o.
Definition told (s : system) : list (nat * event) := v_log (snd (fst s 0%nat)).
(** Bytes written to the connection. *)
Definition wire_out (s : system) : bytes := g_out (snd s).

(** Code that changes nothing about receiving but who is told: no setConfig, no setListener(nullptr). *)
Definition kind_cmd (c : cmd) : Prop :=
  match c with CSetConfig _ _ => False | CSetListener None => False | _ => True end.
(** Such code that cannot fail as long as writes make progress. *)
Definition gentle_cmd (c : cmd) : Prop := kind_cmd c /\ harmless_cmd c.

(** [k] is a masking key or its absence, as the configuration [m] wants it. *)
Definition keyed_as (m : bool) (k : option mask4) : Prop := match k with Some _ => m = true | None => m = false end.
(** The masking keys [l] are taken from the random source one after the other, from position [pos] on. *)
Fixpoint fresh_keys (rnd : nat -> byte) (pos : nat) (l : list (option mask4)) : Prop :=
  match l with
  | [] => True
  | None :: r => fresh_keys rnd pos r
  | Some k :: r => key_at true rnd pos = Some k /\ fresh_keys rnd (pos + 4) r
  end.

(** [b] is what sending [ops] has put on the wire: of every frame a beginning; if [whole], all of it. [m]: the configuration, if it is fixed; [rnd]: the random bytes the sender draws. *)
Definition put (m : option bool) (whole : Prop) (sent : option mask4 * bytes) (op : sendop) : Prop :=
  let (k, piece) := sent in prefix piece (sent_wire k op) /\ (whole -> piece = sent_wire k op) /\ (forall b, m = Some b -> keyed_as b k).
Definition put_all (m : option bool) (whole : Prop) (rnd : nat -> byte) (b : bytes) (ops : list sendop) : Prop :=
  exists sent, b = concat (map snd sent) /\ fresh_keys rnd 0 (map fst sent) /\ Forall2 (put m whole) sent ops.
(** [drawn]: who has drawn each of the bytes of the random source [rnd] from position [pos] on, in order. The random bytes of thread [i]: those it has drawn, after these [later]. *)
Definition own_random (rnd : nat -> byte) (pos : nat) (drawn : list nat) (later : nat -> byte) (i : nat) : nat -> byte :=
  fun n => nth n (from i (combine drawn (map rnd (seq pos (length drawn))))) (later n).

(** Nobody changes whether outgoing frames are masked. *)
Definition mask_cmd (b : bool) (c : cmd) : Prop := match c with CSetConfig m _ => m = b | _ => True end.
Definition masks_as (m : option bool) (react : react_t) (work : nat -> list cmd) (w : world) : Prop :=
  forall b, m = Some b ->
    s_mask (w_sock w) = b /\ (forall l log, Forall (mask_cmd b) (react l log)) /\ forall i, Forall (mask_cmd b) (work i).
(** All messages have less than 2^31 bytes. *)
Definition small_work (work : nat -> list cmd) : Prop := forall i, Forall small_cmd (work i).
(** Nobody calls stopListening. *)
Definition no_stop (work : nat -> list cmd) : Prop := forall i, existsb is_stop_cmd (work i) = false.
(** Only thread [j] sends anything. *)
Definition only_sender (j : nat) (react : react_t) (work : nat -> list cmd) : Prop :=
  (j <> 0%nat -> forall l log, sends_of (react l log) = []) /\ forall i, i <> j -> i <> 0%nat -> sends_of (work i) = [].

(** Every thread gets to run again and again; the state after the first [n] moves. *)
Definition everybody (f : nat -> nat) : Prop := forall i n, exists k, (n <= k)%nat /\ f k = i.
Definition after (f : nat -> nat) (n : nat) (s : system) : system := srun (map f (seq 0 n)) s.
(** Writes may fail but do not block for ever. *)
Definition no_block (q : list wev) : Prop := Forall (fun e => e <> WBlock) q.
(** Everything ends as [o] says and stays so. *)
Definition ends_with (f : nat -> nat) (s : system) (i : nat) (o : outcome unit) : Prop :=
  exists n, forall n', (n <= n')%nat -> finished (after f n' s) i o.
