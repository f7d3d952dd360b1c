(** Vocabulary for C91: two applications talking over a network, each end with a blocking or with an asynchronous socket. *)
From Verif Require Import Bytes Frame World WebSocket AsyncWebSocket SpecFrame SpecSend SpecListen SpecApi SpecReply SpecAsync SpecNet SpecTalk.
Local Open Scope N_scope.

(** What an application does when shown something: messages it sends, and whether it then throws. It acts at ends of messages, pings, pongs and
    closes, not on the chunks data happens to come in, and knows everything it has been shown so far. *)
Definition partner := list obs -> list sendop * bool.
Definition acts (g : partner) : react_t := fun _ log =>
  match snd (last log (0%nat, EvEnd 0)) with
  | EvMsg _ _ => []
  | _ => map (CSend false) (fst (g (transcript log))) ++ (if snd (g (transcript log)) then [CThrow] else [])
  end.
(** Sizes the code can mask. *)
Definition sensible (g : partner) : Prop := forall os, Forall (fun op => lenN (req_payload op) < 2 ^ 31) (fst (g os)).

(** A socket that is listening. A thread in listen() is represented by the world [w] in which it was called, what has [arrived] since and the world [now]
    after the last time the thread ran (ThreadServer.v); a thread that has not yet taken all of what has arrived is the same as bytes still on their
    way, a write that has not been made yet the same as bytes the network has not taken yet. *)
Inductive endpoint := EBlock (w : world) (arrived : list rev) (now : world) | EAsync (sc : status * conf).
Definition estart (blocking : bool) (w : world) : endpoint := if blocking then EBlock w [] w else EAsync (ARun, start_listen w).
Definition eworld (e : endpoint) : world := match e with EBlock _ _ now => now | EAsync sc => c_world (snd sc) end.
(** The thread runs until it waits for the connection or listen() has returned; the executor runs one method. *)
Definition etick (r : react_t) (e : endpoint) : endpoint :=
  match e with
  | EBlock w rs _ => EBlock w rs (snd (listen r (set_in w rs)))
  | EAsync sc => EAsync (tick r sc)
  end.
Definition edeliver (seg : bytes) (e : endpoint) : endpoint :=
  match seg with
  | [] => e
  | b :: bs => match e with EBlock w rs now => EBlock w (rs ++ [RData b bs]) now | EAsync sc => EAsync (deliver seg sc) end
  end.
Definition eout (e : endpoint) : bytes := w_out (eworld e).
Definition eshown (e : endpoint) : list obs := transcript (w_log (eworld e)).

Record chat := Chat {
  m_a : endpoint;
  m_b : endpoint;
  m_ab : nat;           (* bytes delivered from A to B *)
  m_ba : nat            (* bytes delivered from B to A *)
}.
(** Events as in SpecTalk.v. *)
Definition mstep (ra rb : react_t) (s : chat) (e : tev) : chat :=
  match e with
  | TickA => Chat (etick ra (m_a s)) (m_b s) (m_ab s) (m_ba s)
  | TickB => Chat (m_a s) (etick rb (m_b s)) (m_ab s) (m_ba s)
  | AB k =>
    let seg := segment k (m_ab s) (eout (m_a s)) in
    Chat (m_a s) (edeliver seg (m_b s)) (m_ab s + length seg) (m_ba s)
  | BA k =>
    let seg := segment k (m_ba s) (eout (m_b s)) in
    Chat (edeliver seg (m_a s)) (m_b s) (m_ab s) (m_ba s + length seg)
  end.
(** [ba], [bb]: whether A, B use the blocking socket. *)
Definition mrun (ba bb : bool) (ga gb : partner) (evs : list tev) (wa wb : world) : chat :=
  fold_left (mstep (acts ga) (acts gb)) evs (Chat (estart ba wa) (estart bb wb) 0 0).
