(** Specification vocabulary: listener code that reconfigures its socket; a caller's own loop around iterateFrame. *)
From Verif Require Import Bytes Frame World WebSocket SpecFrame SpecSend SpecListen SpecReply.
Local Open Scope N_scope.
Local Open Scope m_scope.

(** What a callback does: its commands, up to a throw. *)
Fixpoint until_throw (cs : list cmd) : list cmd :=
  match cs with
  | [] => []
  | CThrow :: _ => []
  | c :: r => c :: until_throw r
  end.
(** What the calls [new], made after [log], do. *)
Fixpoint done_by (react : react_t) (log new : list (nat * event)) : list cmd :=
  match new with
  | [] => []
  | e :: r => until_throw (react (fst e) (log ++ [e])) ++ done_by react (log ++ [e]) r
  end.

(** The frames that commands must put on the wire: every frame is masked iff the configuration in force when it is sent
    says so, with a fresh key. *)
Fixpoint written (m : bool) (rnd : nat -> byte) (pos : nat) (cs : list cmd) : bytes :=
  match cs with
  | [] => []
  | CSend _ op :: r => sent_wire (key_at m rnd pos) op ++ written m rnd (pos + used m) r
  | CDemand fin o d :: r => sent_wire (key_at m rnd pos) (SoFrame fin o d) ++ written m rnd (pos + used m) r
  | CSetConfig m' _ :: r => written m' rnd pos r
  | _ :: r => written m rnd pos r
  end.
(** The configuration after commands. *)
Fixpoint config_after (c : bool * Z) (cs : list cmd) : bool * Z :=
  match cs with
  | [] => c
  | CSetConfig m b :: r => config_after (m, b) r
  | _ :: r => config_after c r
  end.

(** Every readMessage call with data carries between 1 and as many bytes as the configuration in force at that call says. *)
Fixpoint sized (react : react_t) (c : bool * Z) (log new : list (nat * event)) : Prop :=
  match new with
  | [] => True
  | e :: r => ev_size (snd c) e /\ sized react (config_after c (until_throw (react (fst e) (log ++ [e])))) (log ++ [e]) r
  end.

Definition no_config (x : ext) : Prop := match x with XSetConfig _ _ => False | _ => True end.

(** * Driving the socket with iterateFrame: until a Close frame has been handled *)
Fixpoint pump (react : react_t) (fuel : nat) (h : header) : M unit :=
  match fuel with
  | O => out_of_fuel
  | S fuel' => h' <- iterateFrame react h ;; if h_opcode h' =? 8 then ret tt else pump react fuel' h'
  end.
Definition no_stop_ext (x : ext) : Prop := x <> XStop.
(** Equal up to the flag that stopListening clears. *)
Definition same_but_flag (w w' : world) : Prop :=
  set_sock w (set_listening (w_sock w) false) = set_sock w' (set_listening (w_sock w') false).
