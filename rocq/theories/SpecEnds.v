(** Vocabulary for C15_threads and C79_causes: what each kind of undefined behaviour takes (Process.v: a listening thread and any number of others). *)
From Verif Require Import Bytes Frame World WebSocket SpecFrame SpecListen SpecConfig SpecThreads Process.
Local Open Scope N_scope.

Definition no_null_cmd (c : cmd) : Prop := match c with CSetListener None => False | _ => True end.
(** No other thread calls setListener(nullptr). What callbacks do does not matter: they run between the listening thread's own reads. *)
Definition nobody_unsets (work : nat -> list cmd) : Prop := forall i, Forall no_null_cmd (work i).
(** Nobody calls setConfig. *)
Definition nobody_configures (react : react_t) (work : nat -> list cmd) : Prop :=
  (forall l log, Forall no_config_cmd (react l log)) /\ forall i, Forall no_config_cmd (work i).
(** Nobody sends a message of 2^31 bytes or more. *)
Definition nobody_huge (react : react_t) (work : nat -> list cmd) : Prop := small_react react /\ forall i, Forall small_cmd (work i).

(** What must have happened for [u] to happen. *)
Definition cause (react : react_t) (work : nat -> list cmd) (u : ub) : Prop :=
  match u with
  | UbNull => ~ nobody_unsets work
  | UbOverflow | UbNegativeCount => ~ nobody_configures react work
  | UbSigned => ~ nobody_huge react work
  | UbDangling => False
  end.

(** The same for coroutines on one asynchronous socket (C79_causes); [script]: everything that arrives. *)
Definition coroutine_cause (react : react_t) (work : nat -> list cmd) (script : list rev) (u : ub) : Prop :=
  match u with
  | UbDangling => exists l log, In CUseData (react l log)
  | UbOverflow => ~ (nobody_configures react work /\ script_ok no_config any_err script)
  | UbSigned => ~ nobody_huge react work
  | UbNegativeCount | UbNull => False
  end.
