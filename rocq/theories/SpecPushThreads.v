(** Vocabulary for C89: what concerns one connection of a server whose application sends from threads of its own (PushThreads.v). *)
From Verif Require Import Bytes Frame World WebSocket SpecFrame SpecSend Lifecycle Server SpecServer ThreadServer Threads Process SpecProcess PushThreads.

(** What the application sees of a connection; what its peer has been sent; the threads the application has started on its socket; how they fare; whether its socket is gone. *)
Definition uview (i : nat) (s : userver) : list seen_ev := map snd (filter (fun e => Nat.eqb (fst e) i) (u_log s)).
Definition usent (i : nat) (s : userver) : bytes := match u_phase s i with UNew w | UOver w | UStuck w => w_out w | UOn _ _ _ c => wire_out c end.
Definition uthreads (i : nat) (s : userver) : list (list cmd) := match u_phase s i with UOn _ _ ths _ => ths | _ => [] end.
Definition ufinished (i j : nat) (s : userver) (o : outcome unit) : Prop := match u_phase s i with UOn _ _ _ c => finished c j o | _ => False end.
Definition ugone (i : nat) (s : userver) : Prop := match u_phase s i with UOn _ StGone _ _ => True | _ => False end.
(** listen() has returned, onBeforeDestroy has not been called yet. *)
Definition ureturned (i : nat) (s : userver) : Prop := match u_phase s i with UOn _ StListen _ c => finished c 0 (Ret tt) | _ => False end.
Definition uinstance_of (i : nat) (s : userver) : option nat := match u_phase s i with UOn L _ _ _ => L | _ => None end.

(** The events about connection [i], the socket instance listener installed after [evs], the threads the application wants to start on connection [i]. *)
Definition uconcerns (i : nat) (e : uev) : bool := match e with USet _ => true | UConn j _ | UStart j _ | UTurn j _ => Nat.eqb j i end.
Definition uown (i : nat) (evs : list uev) : list uev := filter (uconcerns i) evs.
Definition uinstance (evs : list uev) : option nat := fold_left (fun l e => match e with USet l' => l' | _ => l end) evs None.
Definition uasked (i : nat) (evs : list uev) : list (list cmd) :=
  flat_map (fun e => match e with UStart j cs => if Nat.eqb j i then [cs] else [] | _ => [] end) evs.
Definition uno_conn (i : nat) (evs : list uev) : Prop := Forall (fun e => forall p, e <> UConn i p) evs.
(** What thread [j] does, if [ths] are the threads started. *)
Definition uwork (ths : list (list cmd)) (j : nat) : list cmd := match j with O => [] | S k => nth k ths [] end.

(** The turns the threads of connection [i] take in [evs]; the application has asked for [n] threads before. *)
Fixpoint uturns (i n : nat) (evs : list uev) : list nat :=
  match evs with
  | [] => []
  | UTurn k j :: r => (if Nat.eqb k i && (j <=? n) then [j] else []) ++ uturns i n r
  | UStart k _ :: r => uturns i (if Nat.eqb k i then S n else n) r
  | _ :: r => uturns i n r
  end.

(** [g] is an infinite schedule in which, on connection [i], only turns happen, and the handler's thread and the application's [n] threads get one again and again. *)
Definition uturns_only (i : nat) (e : uev) : Prop := match e with UConn k _ | UStart k _ => k <> i | USet _ | UTurn _ _ => True end.
Definition userves (i n : nat) (g : nat -> uev) : Prop :=
  (forall k, uturns_only i (g k)) /\ forall j k, j <= n -> exists k', k <= k' /\ g k' = UTurn i j.
(** The RFC 6455 frames of [ops], unmasked, one after the other. *)
Definition plain_frames (ops : list sendop) : bytes := flat_map (sent_wire None) ops.
