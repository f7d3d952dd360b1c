(** Vocabulary for C86: data races on the fields of a socket used by several threads (Process.v). *)
From Verif Require Import Bytes Frame World WebSocket Threads Process.
Local Open Scope N_scope.

(** The fields: m_config, m_listener, m_listening (WebSocket.hpp:107-111); m_connection is never assigned, m_lastOpcode is used by the
    listening thread only. *)
Inductive field := FConfig | FListener | FListening.
(** Nothing but field [f] differs. *)
Definition differ_in (f : field) (s s' : shf) : Prop :=
  match f with
  | FConfig => k_listener s = k_listener s' /\ k_listening s = k_listening s'
  | FListener => k_mask s = k_mask s' /\ k_buf s = k_buf s' /\ k_listening s = k_listening s'
  | FListening => k_mask s = k_mask s' /\ k_buf s = k_buf s' /\ k_listener s = k_listener s'
  end.
(** The next thing the thread does is to assign field [f]; to read field [f] (what it does then depends on what it finds there). *)
Definition assigns (p : prog unit) (f : field) : Prop :=
  match p with
  | PExt XStop _ | PStop _ | PBegin _ => f = FListening
  | PExt (XSetListener _) _ => f = FListener
  | PExt (XSetConfig _ _) _ => f = FConfig
  | _ => False
  end.
Definition reads (p : prog unit) (f : field) : Prop :=
  match p with PAcc k => exists s s', differ_in f s s' /\ k s <> k s' | _ => False end.
(** Two threads are about to access field [f], one of them to assign it. *)
Definition race_on (f : field) (s : system) : Prop :=
  exists i j, i <> j /\ assigns (fst (fst s i)) f /\ (assigns (fst (fst s j)) f \/ reads (fst (fst s j)) f).

(** Code that calls none of setConfig, setListener and stopListening; code that does not call setConfig. *)
Definition only_sends (c : cmd) : Prop := match c with CStop | CSetListener _ | CSetConfig _ _ => False | _ => True end.
Definition no_config (c : cmd) : Prop := match c with CSetConfig _ _ => False | _ => True end.
