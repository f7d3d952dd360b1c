(** Specification vocabulary for listening: classes of listener behaviour, what is visible. *)
From Verif Require Import Bytes Frame World WebSocket SpecFrame SpecSend.
Local Open Scope N_scope.

(** * Listener behaviour *)

(** Does not change listener or configuration. *)
Definition tame_cmd (c : cmd) : Prop :=
  match c with CSetListener _ | CSetConfig _ _ => False | _ => True end.
Definition tame_react (react : react_t) : Prop := forall l log, Forall tame_cmd (react l log).

(** Sends (of sizes the code can mask), stops, uses its data. *)
Definition polite_cmd (c : cmd) : Prop :=
  match c with
  | CStop | CUseData => True
  | CSend _ op => lenN (req_payload op) < 2 ^ 31
  | CDemand _ _ m => lenN (msg_of m) < 2 ^ 31
  | _ => False
  end.
Definition polite_react (react : react_t) : Prop := forall l log, Forall polite_cmd (react l log).

Definition is_stop_cmd (c : cmd) : bool := match c with CStop => true | _ => false end.

(** Some reaction to one of the calls [new], made after [log], contains stopListening. *)
Fixpoint stops (react : react_t) (log new : list (nat * event)) : bool :=
  match new with
  | [] => false
  | e :: r => existsb is_stop_cmd (react (fst e) (log ++ [e])) || stops react (log ++ [e]) r
  end.

(** Only the listener's presence matters for what is seen. *)
Definition seen (k : sock) (os : list obs) : list obs :=
  match s_listener k with Some _ => os | None => [] end.

(** The code's state "a fragmented message was started". *)
Definition open_of (k : sock) : bool := (0 <=? s_last k)%Z.

(** Values of the last-opcode field a socket can have (fresh: -1; see [last_ok_new]). *)
Definition last_ok (k : sock) : Prop := (s_last k = -1 \/ s_last k = 1 \/ s_last k = 2)%Z.

(** Everything goes well from here on: no connection failure, the listener only sends messages
    the code can mask, uses its data and possibly stops; the read buffer is not empty. *)
Definition calm (react : react_t) (w : world) : Prop :=
  steady (w_in w) /\ healthy (w_wr w) /\ polite_react react /\ (0 < s_buf (w_sock w))%Z.

(** Reactions that never call stopListening. *)
Definition never_stops (react : react_t) : Prop := forall l log, existsb is_stop_cmd (react l log) = false.

(** The good case: data in any segmentation with transient retries, writes that make progress, a
    listener that only sends (sizes below 2^31) and uses its data, a non-empty read buffer. *)
Definition good (react : react_t) (w : world) : Prop :=
  clean (w_in w) /\ healthy (w_wr w) /\ polite_react react /\ never_stops react /\
  (0 < s_buf (w_sock w))%Z /\ last_ok (w_sock w).

(** * Frames on the wire *)

Definition rsv_of (r1 r2 r3 : bool) : N := bitv r1 4 + bitv r2 2 + bitv r3 1.
Definition finfo_of (f : frame) : finfo :=
  FInfo (f_fin f) (rsv_of (f_rsv1 f) (f_rsv2 f) (f_rsv3 f)) (f_opcode f) (f_key f) (lenN (f_payload f)).

(** What a complete accepted frame shows. *)
Definition frame_shown (f : frame) : list obs := shown (f_opcode f) (f_fin f) (f_payload f) true.

(** A sequence of frames, each with a length encoding. *)
Definition wires (fs : list (lform * frame)) : bytes := flat_map (fun x => wire (fst x) (snd x)) fs.
Definition frames_shown (fs : list (lform * frame)) : list obs := flat_map (fun x => frame_shown (snd x)) fs.

(** A history the library reads to its end: every frame is accepted, none is a Close frame. *)
Fixpoint history_ok (opn : bool) (fs : list (lform * frame)) : bool :=
  match fs with
  | [] => true
  | (lf, f) :: r =>
    (f_opcode f <? 16) && lform_ok lf (lenN (f_payload f)) && accepts opn (finfo_of f) &&
    negb (f_opcode f =? 8) && history_ok (next_open opn (finfo_of f)) r
  end.
Fixpoint open_after (opn : bool) (fs : list (lform * frame)) : bool :=
  match fs with
  | [] => opn
  | (_, f) :: r => open_after (next_open opn (finfo_of f)) r
  end.

(** * Listener code and external calls that leave the read buffer size at [B] *)
Definition buf_cmd (B : Z) (c : cmd) : Prop := match c with CSetConfig _ b => b = B | _ => True end.
Definition buf_react (B : Z) (react : react_t) : Prop := forall l log, Forall (buf_cmd B) (react l log).
Definition buf_ext (B : Z) (x : ext) : Prop := match x with XSetConfig _ b => b = B | _ => True end.
Definition buf_script (B : Z) (s : list rev) : Prop := script_ok (buf_ext B) any_err s.

(** A readMessage call with data carries between 1 and B bytes. *)
Definition ev_size (B : Z) (e : nat * event) : Prop :=
  match snd e with EvMsg _ d => 1 <= lenN d /\ (Z.of_N (lenN d) <= B)%Z | _ => True end.

(** * Listener code and external calls that leave maskOutgoingMessages at [m] *)
Definition small_cmd (c : cmd) : Prop := match c with CSend _ op => lenN (req_payload op) < 2 ^ 31 | CDemand _ _ m => lenN (msg_of m) < 2 ^ 31 | _ => True end.
Definition small_react (react : react_t) : Prop := forall l log, Forall small_cmd (react l log).
Definition mask_cmd (m : bool) (c : cmd) : Prop :=
  match c with
  | CSend _ op => fits m op
  | CDemand fin opcode d => fits m (SoFrame fin opcode d)
  | CSetConfig m' _ => m' = m
  | _ => True
  end.
Definition mask_react (m : bool) (react : react_t) : Prop := forall l log, Forall (mask_cmd m) (react l log).
Definition mask_ext (m : bool) (x : ext) : Prop := match x with XSetConfig m' _ => m' = m | _ => True end.

(** One frame, masked iff [m], and what of it reached the wire. *)
Definition frame_piece (m : bool) (x : frame * bytes) : Prop :=
  has_key (f_key (fst x)) = m /\ f_rsv1 (fst x) = false /\ f_rsv2 (fst x) = false /\ f_rsv3 (fst x) = false /\
  prefix (snd x) (wire (lform_min (lenN (f_payload (fst x)))) (fst x)).
Definition frame_whole (x : frame * bytes) : Prop :=
  snd x = wire (lform_min (lenN (f_payload (fst x)))) (fst x).

(** * Who is called *)

(** The listener installed after executing commands. *)
Fixpoint after_cmds (l : option nat) (cs : list cmd) : option nat :=
  match cs with
  | [] => l
  | CSetListener l' :: r => after_cmds l' r
  | _ :: r => after_cmds l r
  end.
(** The listener installed after the calls [new] made after [log], starting from [l]. *)
Fixpoint after_calls (react : react_t) (l : option nat) (log new : list (nat * event)) : option nat :=
  match new with
  | [] => l
  | e :: r => after_calls react (after_cmds l (react (fst e) (log ++ [e]))) (log ++ [e]) r
  end.
(** Every call goes to the listener installed at that moment. *)
Fixpoint well_addressed (react : react_t) (l : option nat) (log new : list (nat * event)) : Prop :=
  match new with
  | [] => True
  | e :: r => l = Some (fst e) /\ well_addressed react (after_cmds l (react (fst e) (log ++ [e]))) (log ++ [e]) r
  end.
Definition no_install (x : ext) : Prop := match x with XSetListener _ => False | _ => True end.

(** Equal up to the log and the listener: none in the first world, [l] in the second. *)
Definition alike (l : nat) (k1 k2 : sock) : Prop :=
  k1 = set_listener k2 None /\ s_listener k2 = Some l.
Definition same_but (l : nat) (w1 w2 : world) : Prop :=
  w_in w1 = w_in w2 /\ w_wr w1 = w_wr w2 /\ w_out w1 = w_out w2 /\ w_rnd w1 = w_rnd w2 /\ w_rpos w1 = w_rpos w2 /\
  alike l (w_sock w1) (w_sock w2).

Lemma last_ok_new msk : last_ok (sock_new msk).
Proof. left; reflexivity. Qed.
