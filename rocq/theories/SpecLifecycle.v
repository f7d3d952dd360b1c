(** What a conforming C++ runtime and executor may do, and what the callbacks must look like. *)
From Verif Require Import Bytes Lifecycle.

(** ** Blocking handler *)

(** The life of an object, seen from outside: it holds connection number k, or has been moved from. *)
Inductive ost := Absent | Holds (k : nat) | MovedFrom.

(** The rules of C++ for objects of any movable type: an object is constructed where there is none, only objects
    that hold a value are moved or run, only existing objects are destroyed, assignment goes to a moved-from
    object.  [n] counts the handled connections.  A construction that throws leaves no object. *)
Definition legal1 (listening : bool) (o : hop) (st : nat -> ost) (n : nat) : option ((nat -> ost) * nat) :=
  match o with
  | OSetListener _ => Some (st, n)
  | OHandle i _ _ throws =>
      match st i with
      | Absent => Some (if throws && listening then st else upd st i (Holds n), S n)
      | _ => None
      end
  | OMove i j =>
      match st i, st j with
      | Holds k, Absent => Some (upd (upd st j (Holds k)) i MovedFrom, n)
      | _, _ => None
      end
  | OAssign i j =>
      match st i, st j with
      | Holds k, MovedFrom => Some (upd (upd st j (Holds k)) i MovedFrom, n)
      | _, _ => None
      end
  | ORun i => match st i with Holds _ => Some (st, n) | _ => None end
  | ODestroy i => match st i with Absent => None | _ => Some (upd st i Absent, n) end
  end.

(** The listener installed after a history. *)
Fixpoint last_listener (l : option nat) (ops : list hop) : option nat :=
  match ops with
  | [] => l
  | OSetListener l' :: r => last_listener l' r
  | _ :: r => last_listener l r
  end.

Fixpoint legal (l : option nat) (ops : list hop) (st : nat -> ost) (n : nat) : option ((nat -> ost) * nat) :=
  match ops with
  | [] => Some (st, n)
  | o :: r =>
      match legal1 (match l with Some _ => true | None => false end) o st n with
      | Some (st', n') => legal (last_listener l [o]) r st' n'
      | None => None
      end
  end.

(** Number of connections handled in a history. *)
Definition is_handle (o : hop) : bool := match o with OHandle _ _ _ _ => true | _ => false end.
Definition handled (ops : list hop) : nat := length (filter is_handle ops).

(** The calls that concern socket number k. *)
Definition about (k : nat) (e : lev) : bool :=
  match e with
  | EvAfterCreate _ s _ => Nat.eqb (k_id s) k
  | EvListen s => Nat.eqb (k_id s) k
  | EvBeforeDestroy _ s => Nat.eqb (k_id s) k
  end.
Definition calls_about (k : nat) (log : list lev) : list lev := filter (about k) log.

(** ** Asynchronous handler *)

(** The life of a coroutine: not started (act not called), started. *)
Inductive cst := CAbsent | CNew | CStarted (k : nat).

(** The executor calls act at most once on a coroutine, and destroys it at any time. *)
Definition alegal1 (o : aop) (st : nat -> cst) (n : nat) : option ((nat -> cst) * nat) :=
  match o with
  | ASetListener _ => Some (st, n)
  | AHandle i _ _ => match st i with CAbsent => Some (upd st i CNew, n) | _ => None end
  | AAct i _ => match st i with CNew => Some (upd st i (CStarted n), S n) | _ => None end
  | ADestroy i => match st i with CAbsent => None | _ => Some (upd st i CAbsent, n) end
  end.
Fixpoint alegal (ops : list aop) (st : nat -> cst) (n : nat) : option ((nat -> cst) * nat) :=
  match ops with
  | [] => Some (st, n)
  | o :: r => match alegal1 o st n with Some (st', n') => alegal r st' n' | None => None end
  end.

(** The connection, parameters and listener of the coroutine most recently created at address i. *)
Fixpoint creation (i : nat) (l : option nat) (cur : option (nat * nat * option nat)) (ops : list aop)
  : option (nat * nat * option nat) :=
  match ops with
  | [] => cur
  | ASetListener l' :: r => creation i l' cur r
  | AHandle j conn p :: r => creation i l (if Nat.eqb j i then Some (conn, p, l) else cur) r
  | _ :: r => creation i l cur r
  end.

(** Number of coroutines started in a history. *)
Definition is_act (o : aop) : bool := match o with AAct _ _ => true | _ => false end.
Definition started (ops : list aop) : nat := length (filter is_act ops).
