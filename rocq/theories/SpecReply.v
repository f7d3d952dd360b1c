(** Specification vocabulary: what listener code sends. *)
From Verif Require Import Bytes Frame World WebSocket SpecFrame SpecSend SpecListen SpecApi.
Local Open Scope N_scope.

(** The sends carried out by one callback: those before it throws. *)
Fixpoint sends_of (cs : list cmd) : list sendop :=
  match cs with
  | [] => []
  | CThrow :: _ => []
  | CSend _ op :: r => op :: sends_of r
  | CDemand fin opcode m :: r => SoFrame fin opcode m :: sends_of r
  | _ :: r => sends_of r
  end.

(** The sends carried out by the callbacks [new], made after [log], in order. *)
Fixpoint replies (react : react_t) (log new : list (nat * event)) : list sendop :=
  match new with
  | [] => []
  | e :: r => sends_of (react (fst e) (log ++ [e])) ++ replies react (log ++ [e]) r
  end.

(** The masking key of a frame sent when [pos] bytes of the random source have been used. *)
Definition key_at (m : bool) (rnd : nat -> byte) (pos : nat) : option mask4 :=
  if m then Some (Mask4 (rnd pos) (rnd (pos + 1)%nat) (rnd (pos + 2)%nat) (rnd (pos + 3)%nat)) else None.
Definition used (m : bool) : nat := if m then 4%nat else 0%nat.

(** The frames of a sequence of sends, each with a fresh key iff [m]. *)
Fixpoint frames_of (m : bool) (rnd : nat -> byte) (pos : nat) (ops : list sendop) : bytes :=
  match ops with
  | [] => []
  | op :: r => sent_wire (key_at m rnd pos) op ++ frames_of m rnd (pos + used m) r
  end.

(** * An echo server: answers whole messages of at most [lim] bytes with the same message, pings with pongs *)
Definition collect (log : list (nat * event)) : bytes :=
  fold_left (fun acc e => match snd e with EvMsg _ d => acc ++ d | EvEnd _ => [] | _ => acc end) log [].
Definition echo (lim : N) : react_t := fun _ log =>
  let m := collect (removelast log) in
  match snd (last log (0%nat, EvEnd 0)) with
  | EvEnd 1 => if lenN m <=? lim then [CSend false (SoText (Some m))] else []
  | EvEnd 2 => if lenN m <=? lim then [CSend false (SoBinary (Some m))] else []
  | EvPing p => if lenN p <=? 125 then [CSend false (SoPong (Some p))] else []
  | EvClose code reason => if lenN reason <=? 123 then [CSend false (SoClose code (Some reason))] else []
  | _ => []
  end.
(** What it answers to a sending call of its peer. *)
Definition answer (op : sendop) : list sendop :=
  match op with
  | SoText m => [SoText (Some (msg_of m))]
  | SoBinary m => [SoBinary (Some (msg_of m))]
  | SoPing m => [SoPong (Some (msg_of m))]
  | _ => []
  end.

(** Messages the echo server answers. *)
Definition echoable (lim : N) (op : sendop) : Prop :=
  plain_send op /\ match op with SoText m | SoBinary m => lenN (msg_of m) <= lim | _ => True end.
