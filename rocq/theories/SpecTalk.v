(** Specification vocabulary: two applications talking over a network.

    Both endpoints are in listenAsync; their listeners answer. What an application sends is a function of everything it
    has been shown so far; it acts at ends of messages, pings, pongs and closes, not on the chunks data happens to come in. *)
From Verif Require Import Bytes Frame World WebSocket AsyncWebSocket SpecFrame SpecSend SpecListen SpecApi SpecReply SpecAsync SpecNet.
Local Open Scope N_scope.

Definition application := list obs -> list sendop.
Definition listener_of (g : application) : react_t := fun _ log =>
  match snd (last log (0%nat, EvEnd 0)) with
  | EvMsg _ _ => []
  | _ => map (CSend false) (g (transcript log))
  end.
(** Sizes the code can mask. *)
Definition modest (g : application) : Prop := forall os, Forall (fun op => lenN (req_payload op) < 2 ^ 31) (g os).

(** An endpoint about to listen. It may have sent something already ([w_out]); writes do not fail. *)
Definition ready (w : world) : Prop :=
  w_in w = [] /\ w_log w = [] /\ healthy (w_wr w) /\ s_listening (w_sock w) = false /\
  last_ok (w_sock w) /\ (0 < s_buf (w_sock w))%Z /\ exists l, s_listener (w_sock w) = Some l.

Record talk := Talk {
  t_a : status * conf;
  t_b : status * conf;
  t_ab : nat;           (* bytes delivered from A to B *)
  t_ba : nat            (* bytes delivered from B to A *)
}.
Definition out_of (sc : status * conf) : bytes := w_out (c_world (snd sc)).
Definition shown_to (sc : status * conf) : list obs := transcript (w_log (c_world (snd sc))).

(** One executor step of one side, or the delivery of at most k + 1 bytes. *)
Inductive tev := TickA | TickB | AB (k : nat) | BA (k : nat).
Definition tstep (ra rb : react_t) (s : talk) (e : tev) : talk :=
  match e with
  | TickA => Talk (tick ra (t_a s)) (t_b s) (t_ab s) (t_ba s)
  | TickB => Talk (t_a s) (tick rb (t_b s)) (t_ab s) (t_ba s)
  | AB k =>
    let seg := segment k (t_ab s) (out_of (t_a s)) in
    Talk (t_a s) (deliver seg (t_b s)) (t_ab s + length seg) (t_ba s)
  | BA k =>
    let seg := segment k (t_ba s) (out_of (t_b s)) in
    Talk (deliver seg (t_a s)) (t_b s) (t_ab s) (t_ba s + length seg)
  end.
Definition trun (ga gb : application) (evs : list tev) (wa wb : world) : talk :=
  fold_left (tstep (listener_of ga) (listener_of gb)) evs (Talk (ARun, start_listen wa) (ARun, start_listen wb) 0 0).

Definition tkind (e : tev) : nat := match e with TickA => 0 | TickB => 1 | AB _ => 2 | BA _ => 3 end.
(** An infinite schedule in which everybody goes on. *)
Definition tfair (f : nat -> tev) : Prop := forall k, (k < 4)%nat -> forall n, exists m, (n <= m)%nat /\ tkind (f m) = k.
Definition tupto (f : nat -> tev) (n : nat) : list tev := map f (seq 0 n).

Definition comparable {A} (a b : list A) : Prop := prefix a b \/ prefix b a.
