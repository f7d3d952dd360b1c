(** Vocabulary for C88: what concerns one connection of a server whose application sends from coroutines of its own (PushServer.v). *)
From Verif Require Import Bytes Frame World WebSocket AsyncWebSocket Lifecycle Server SpecServer Coroutines SpecCoroutines PushServer.

(** What the application sees of a connection; what its peer has been sent; how the [j]-th coroutine the application has started on it fares. *)
Definition pview (i : nat) (s : pserver) : list seen_ev := flat_map (seen_of i) (p_log s).
Definition psent (i : nat) (s : pserver) : bytes := w_out (snd (p_crowd s i)).
Definition pstatus (i j : nat) (s : pserver) : status := k_status (fst (p_crowd s i) j).

(** The connection an event concerns; [None]: all. *)
Definition conn_of (e : pev) : option nat :=
  match e with PSet _ => None | PConn i _ | PStep i | PArrive i _ | PDrop i | PStart i _ | PTask i _ => Some i end.
Definition pconcerns (i : nat) (e : pev) : bool := match conn_of e with Some j => Nat.eqb j i | None => true end.
Definition pown (i : nat) (evs : list pev) : list pev := filter (pconcerns i) evs.

(** The socket instance listener installed after [evs]; what has arrived on connection [i]; the work of the coroutines the application has started on it. *)
Definition pinstance (evs : list pev) : option nat := fold_left (fun l e => match e with PSet l' => l' | _ => l end) evs None.
Definition parrived (i : nat) (evs : list pev) : list rev :=
  flat_map (fun e => match e with PArrive j s => if Nat.eqb j i then s else [] | _ => [] end) evs.
Definition pstarted (i : nat) (evs : list pev) : list (list cmd) :=
  flat_map (fun e => match e with PStart j cs => if Nat.eqb j i then [cs] else [] | _ => [] end) evs.
Definition pdropped (i : nat) (evs : list pev) : Prop := In (PDrop i) evs.
Definition pwork (i : nat) (evs : list pev) (j : nat) : list cmd := match j with O => [] | S n => nth n (pstarted i evs) [] end.

(** Connection [i] is handed over once, and the handler's coroutine for it is iterated for the first time at [PStep i] in
    [before ++ PConn i p :: mid ++ PStep i :: after]. *)
Definition never (P : pev -> Prop) (evs : list pev) : Prop := Forall (fun e => ~ P e) evs.
Definition is_conn (i : nat) (e : pev) : Prop := exists p, e = PConn i p.
Definition handed_over (i : nat) (before mid after : list pev) : Prop :=
  never (is_conn i) before /\ never (is_conn i) mid /\ never (is_conn i) after /\ never (fun e => e = PStep i \/ e = PDrop i) mid.

(** The turns the coroutines of connection [i] get in [evs], and what arrives in between. [gone]: the handler's coroutine is gone; [n]: the number of
    coroutines the application has started. *)
Fixpoint turns (i : nat) (gone : bool) (n : nat) (evs : list pev) : list cev :=
  match evs with
  | [] => []
  | e :: r =>
    if pconcerns i e then
      match e with
      | PStep _ => (if gone then [] else [CTick 0]) ++ turns i gone n r
      | PDrop _ => turns i true n r
      | PArrive _ s => CArrive s :: turns i gone n r
      | PStart _ _ => turns i gone (S n) r
      | PTask _ j => (if (1 <=? j) && (j <=? n) then [CTick j] else []) ++ turns i gone n r
      | _ => turns i gone n r
      end
    else turns i gone n r
  end.

(** Nothing more arrives on connection [i], is started on it or ends it from outside. *)
Definition only_turns (i : nat) (e : pev) : Prop := match e with PConn j _ | PArrive j _ | PDrop j | PStart j _ => j <> i | PSet _ | PStep _ | PTask _ _ => True end.
(** [g] is an infinite schedule in which, on connection [i], only turns happen, and the handler's coroutine and the application's [n] coroutines get one again and again. *)
Definition serves (i n : nat) (g : nat -> pev) : Prop :=
  (forall k, only_turns i (g k)) /\ (forall k, exists k', k <= k' /\ g k' = PStep i) /\ forall j k, 0 < j <= n -> exists k', k <= k' /\ g k' = PTask i j.

(** What socket instance listener [l], if there is one, does in onAfterCreate_NonBlocking: setListener and setConfig calls, and whether it then throws. *)
Definition pplan (setup : nat -> nat -> list ext * bool) (l : option nat) (p : nat) : list ext * bool := match l with Some l => setup l p | None => ([], false) end.
