(** Specification: listener objects and the histories they amount to (C98). *)
From Verif Require Import Bytes Frame World WebSocket Object SpecFrame SpecSend SpecListen.
Local Open Scope N_scope.

(** Every call in a piece of code satisfies [P], in all its branches; it throws only if [t]. *)
Fixpoint every {S} (t : bool) (P : act -> Prop) (c : code S) : Prop :=
  match c with
  | Finish => True
  | Throws => t = true
  | Load k => forall s, every t P (k s)
  | Store _ k => every t P k
  | Do a k => P a /\ forall r, every t P (k r)
  end.
(** All code of the objects. *)
Definition every_call {S} (t : bool) (P : act -> Prop) (obj : object S) : Prop := forall l ev, every t P (obj l ev).
(** Not listen() or iterateFrame(). *)
Definition calm (a : act) : Prop := match a with AListen | AIterate => False | _ => True end.

(** The command of WebSocket.v that stands for a call; the exception of a failed send is caught or not. *)
Definition cmd_of (a : act) (c : cmd) : Prop :=
  match a with
  | AStop => c = CStop
  | ASetListener l => c = CSetListener l
  | ASetConfig m b => c = CSetConfig m b
  | ASend op => exists catch, c = CSend catch op
  | ALook => c = CUseData
  | AListen | AIterate => False
  end.
(** Commands that stand for calls with [P], and throw if [t]. *)
Definition issued (t : bool) (P : act -> Prop) (c : cmd) : Prop := (c = CThrow /\ t = true) \/ exists a, P a /\ cmd_of a c.

(** Objects that behave well: calls that only send (sizes below 2^31), or look at their data. *)
Definition sends_only (a : act) : Prop := match a with ASend op => lenN (req_payload op) < 2 ^ 31 | ALook => True | _ => False end.
(** Any calls but setListener, setConfig and listening. *)
Definition leaves_setup (a : act) : Prop := match a with AStop | ASend _ | ALook => True | _ => False end.

(** * A listener class as applications write them: it collects the pieces of a message in a field and answers when the message ends
      (compare C50, where the same is computed from the history of calls). *)
Definition or_throw (op : sendop) : code bytes := Do (ASend op) (fun r => match r with Raised => Throws | _ => Finish end).
Definition echo_object (lim : N) : object bytes := fun _ ev =>
  match ev with
  | EvMsg _ d => Load (fun buffer => Store (buffer ++ d) Finish)
  | EvEnd t => Load (fun buffer => Store [] (
      match t with
      | 1 => if lenN buffer <=? lim then or_throw (SoText (Some buffer)) else Finish
      | 2 => if lenN buffer <=? lim then or_throw (SoBinary (Some buffer)) else Finish
      | _ => Finish
      end))
  | EvPing p => if lenN p <=? 125 then or_throw (SoPong (Some p)) else Finish
  | EvPong _ => Finish
  | EvClose c reason => if lenN reason <=? 123 then or_throw (SoClose c (Some reason)) else Finish
  end.

(** A history function as an object: it keeps the history in its memory. *)
Fixpoint code_of {S} (cs : list cmd) : code S :=
  match cs with
  | [] => Finish
  | CStop :: r => Do AStop (fun _ => code_of r)
  | CSetListener l :: r => Do (ASetListener l) (fun _ => code_of r)
  | CSetConfig m b :: r => Do (ASetConfig m b) (fun _ => code_of r)
  | CSend true op :: r => Do (ASend op) (fun _ => code_of r)
  | CSend false op :: r => Do (ASend op) (fun a => match a with Raised => Throws | _ => code_of r end)
  | CUseData :: r => Do ALook (fun _ => code_of r)
  | CThrow :: _ => Throws
  | CDemand fin opcode m :: r => Do (ASend (SoFrame fin opcode m)) (fun a => match a with Done => code_of r | _ => Throws end)
  end.
Definition object_of (react : react_t) : object (list (nat * event)) := fun l ev =>
  Load (fun log => Store (log ++ [(l, ev)]) (code_of (react l (log ++ [(l, ev)])))).

(** An object that decides by what its calls did: it answers pings, counts the answers that failed, and gives up listening at the second. *)
Definition counting : object nat := fun _ ev =>
  match ev with
  | EvPing p => if 125 <? lenN p then Finish else Do (ASend (SoPong (Some p))) (fun r =>
      match r with
      | Raised => Load (fun n => Store (n + 1)%nat (match n with O => Finish | _ => Do AStop (fun _ => Finish) end))
      | _ => Store 0%nat Finish
      end)
  | _ => Finish
  end.

(** * Callbacks that listen (C99) *)
(** Sends (below 2^31 bytes), looks at its data and, if [loose], stops listening. *)
Definition answers (loose : bool) (a : act) : Prop :=
  match a with ASend op => lenN (req_payload op) < 2 ^ 31 | ALook => True | AStop => loose = true | _ => False end.
(** ... or calls listen() or iterateFrame(). *)
Definition listens (loose : bool) (a : act) : Prop := match a with AListen | AIterate => True | _ => answers loose a end.
(** Objects that listen only when called between frames (a ping, a pong, a Close, the end of a message), not in the middle of a frame's
    payload; only if [loose] they stop listening or throw. *)
Definition at_boundaries {S} (loose : bool) (obj : object S) : Prop := forall l ev,
  match ev with EvMsg _ _ => every false (answers loose) (obj l ev) | _ => every loose (listens loose) (obj l ev) end.
(** Frames the library accepts one after the other (any of them may be Close frames). *)
Fixpoint readable (opn : bool) (fs : list (lform * frame)) : bool :=
  match fs with
  | [] => true
  | (lf, f) :: r => (f_opcode f <? 16) && lform_ok lf (lenN (f_payload f)) && accepts opn (finfo_of f) && readable (next_open opn (finfo_of f)) r
  end.
Definition no_close (fs : list (lform * frame)) : Prop := Forall (fun x => f_opcode (snd x) <> 8) fs.
(** A listener that asks for the next frame as soon as it has got some data. *)
Definition impatient : object unit := fun _ ev => match ev with EvMsg _ _ => Do AIterate (fun _ => Finish) | _ => Finish end.

(** * The same object on both sockets (C100) *)
(** Any calls but listening; messages below 2^31 bytes. *)
Definition prudent (a : act) : Prop := match a with ASend op => lenN (req_payload op) < 2 ^ 31 | AListen | AIterate => False | _ => True end.
(** What a callback does if all its sends succeed, and the memory it leaves. *)
Fixpoint told {S} (c : code S) (s : S) : list cmd * S :=
  match c with
  | Finish => ([], s)
  | Throws => ([CThrow], s)
  | Load k => told (k s) s
  | Store s' k => told k s'
  | Do a k =>
    let (cs, s') := told (k Done) s in
    (match a with
     | AStop => CStop :: cs
     | ASetListener l => CSetListener l :: cs
     | ASetConfig m b => CSetConfig m b :: cs
     | ASend op => CSend true op :: cs
     | ALook => CUseData :: cs
     | AListen | AIterate => cs
     end, s')
  end.
(** The memory after a sequence of calls. *)
Fixpoint memory_after {S} (obj : object S) (s : S) (calls : list (nat * event)) : S :=
  match calls with
  | [] => s
  | (l, ev) :: r => memory_after obj (snd (told (obj l ev) s)) r
  end.
(** The object as a function of the history of calls; the first [base] calls were made before its memory was [s]. *)
Definition history_of {S} (obj : object S) (s : S) (base : nat) : react_t := fun l log =>
  match List.rev (skipn base log) with
  | (_, ev) :: before => fst (told (obj l ev) (memory_after obj s (List.rev before)))
  | [] => []
  end.
(** Sends messages below 2^31 bytes; nothing else. (What a callback does with its data inside the callback itself is in [obj l ev].) *)
Definition only_sends (a : act) : Prop := match a with ASend op => lenN (req_payload op) < 2 ^ 31 | _ => False end.

(** * Callbacks that call listenAsync (C101) *)
(** Sends (below 2^31 bytes) or calls listenAsync. *)
Definition sends_or_listens (a : act) : Prop := match a with AListen => True | _ => only_sends a end.
(** Objects whose callbacks call listenAsync only between frames; only there, and only if [loose], they throw. *)
Definition async_boundaries {S} (loose : bool) (obj : object S) : Prop := forall l ev,
  match ev with EvMsg _ _ => every false only_sends (obj l ev) | _ => every loose sends_or_listens (obj l ev) end.
