(** C100: the same listener object on the blocking and on the asynchronous socket. *)
From Verif Require Import Bytes Frame World WebSocket Object SpecAsync SpecSend SpecFrame SpecListen SpecObject AsyncWebSocket AsyncObject
  ProofSend ProofHeader ProofListen ProofCodec ProofQuit ProofObject ProofAsyncObject ProofSameObject ProofAsyncAdaptive ProofAsync3 PropAsync PropAsync2 PropAsync3 PropObject.
From Coq Require Import Lia PeanoNat.
Local Open Scope N_scope.
Local Arguments takeN : simpl never.
Local Arguments dropN : simpl never.
Local Arguments lenN : simpl never.

Lemma only_prudent a : only_sends a -> prudent a.
Proof. destruct a; cbn; auto; contradiction. Qed.
Lemma prudent_calm a : prudent a -> SpecObject.calm a.
Proof. destruct a; cbn; auto. Qed.
Lemma every_weaken {S} t (P Q : act -> Prop) (c : code S) : (forall a, P a -> Q a) -> every t P c -> every t Q c.
Proof. intros H. induction c; cbn [every]; auto. intros [H1 H2]. auto. Qed.
Lemma told_only {S} (c : code S) : forall s, every true only_sends c -> Forall (async_cmd false) (fst (told c s)).
Proof.
  induction c as [| |k IH|s1 k IH|a k IH]; intros s He; cbn [told every] in *; auto.
  - constructor.
  - constructor; [exact I|constructor].
  - destruct He as [Ha Hk]. specialize (IH Done s (Hk Done)). destruct (told (k Done) s) as [cs s2]. cbn [fst] in *. destruct a; cbn in Ha; try contradiction. constructor; [discriminate|exact IH].
Qed.

(** While writes make progress an object is a function of the history of calls (what it does in the n-th call follows from the calls before), on the
    blocking socket ... *)
Theorem C100_blocking : forall S (obj : object S) s w o s' w',
  every_call true prudent obj -> healthy (w_wr w) -> listen_object obj (s, w) = (o, (s', w')) ->
  listen (history_of obj s (length (w_log w))) w = (o, w') /\
  (o = Ret tt \/ o = Wait -> exists new, w_log w' = w_log w ++ new /\ s' = memory_after obj s new).
Proof.
  intros S obj s w o s' w' Ho Hw E. unfold listen_object, depth_of in E. cbn [snd] in E.
  destruct (fsim_listen obj s w Ho (script_size (w_in w)) s w o s' w') as [H1 H2]; [|exact E|].
  - split; [exact Hw|]. exists []. split; [now rewrite app_nil_r|reflexivity].
  - split; [exact H1|]. intros [-> | ->]; apply H2.
Qed.
Print Assumptions C100_blocking.
(** ... and on the asynchronous one, for any schedule; between two callbacks the memory is what the calls made of it. *)
Theorem C100_async : forall S (obj : object S) s w evs st x,
  every_call true SpecObject.calm obj -> healthy (w_wr w) -> object_run obj evs (ARun, object_start s w) = (st, x) ->
  exists c, run (history_of obj s (length (w_log w))) evs (ARun, start_listen w) = (st, c) /\ c_world c = c_world (o_conf x) /\
  ((forall u, st <> AUb u) -> o_now x = None -> exists new, w_log (c_world c) = w_log w ++ new /\ o_mem x = memory_after obj s new).
Proof.
  intros S obj s w evs st x Ho Hw E. pose proof (same_run obj s w Ho evs (ARun, object_start s w) (ARun, start_listen w)) as H.
  rewrite E in H. destruct (run _ evs _) as [st2 c] eqn:E2. destruct H as (H1 & H2 & H3).
  - split; [reflexivity|]. split; [reflexivity|]. right. split; [now apply same_start|now left].
  - cbn [fst snd] in *. subst st2. exists c. split; [reflexivity|]. split; [now symmetry|]. intros Hu Hn. destruct H3 as [[u ->]|[H3 _]]; [now elim (Hu u)|].
    destruct H3 as [h sh K w1 new HK Hh Hl|s1 c1 freed h sh K w1 new HK Hh Hl Hc Hm|s1 k P freed h sh K w1 new HK HP Hh Hl Hc Hm]; cbn [o_now] in Hn; try discriminate.
    exists new. auto.
Qed.
Print Assumptions C100_async.

(** The endings correspond: listen() swallows what makes listenAsync fail. *)
Definition ends_alike (st : status) (o : outcome unit) : Prop :=
  match st, o with
  | ADone, Ret _ | AFail _, Ret _ | AWait, Wait => True
  | AUb u, Ub u' => u = u'
  | _, _ => False
  end.
Section Both.
Context {S : Type}.
Variables (obj : object S) (s : S) (w : world) (evs : list xev).
Hypothesis Ho : every_call true only_sends obj.
Hypothesis Hw : healthy (w_wr w).
Notation w1 := (give w (arrivals evs)).
Notation react := (history_of obj s (length (w_log w))).
Lemma Ho1 : every_call true prudent obj. Proof. intros l ev. apply (every_weaken true only_sends); [apply only_prudent|apply Ho]. Qed.
Lemma Ho2 : every_call true SpecObject.calm obj. Proof. intros l ev. apply (every_weaken true only_sends); [intros a Ha; now apply prudent_calm, only_prudent|apply Ho]. Qed.
Lemma react_only : async_react false react.
Proof. intros l log. unfold history_of. destruct (List.rev _) as [|[l' ev] before]; [constructor|]. apply told_only, Ho. Qed.
Lemma same_base w2 o s' w' : w_log w2 = w_log w -> healthy (w_wr w2) -> listen_object obj (s, w2) = (o, (s', w')) ->
  exists ot, listen_try react w2 = (ot, w') /\ o = match ot with Throw _ => Ret tt | _ => ot end /\
    (o = Ret tt \/ o = Wait -> exists new, w_log w' = w_log w ++ new /\ s' = memory_after obj s new).
Proof.
  intros Hl Hh E. destruct (C100_blocking _ _ _ _ _ _ _ Ho1 Hh E) as [H1 H2]. rewrite Hl in H1, H2.
  unfold listen, bind, get, modify_sock in H1. cbn [fst snd] in H1. unfold try_ in H1. unfold listen_try, bind, get, modify_sock.
  destruct (listen_loop _ _ _ _) as [ot wt]. exists ot. destruct ot; injection H1 as <- <-; auto.
Qed.
End Both.
Theorem C100_any_schedule : forall S (obj : object S) s w evs st x o s' w',
  every_call true only_sends obj -> healthy (w_wr w) -> s_listening (w_sock w) = false -> io_only (w_in w) -> io_only (arrivals evs) ->
  object_run obj evs (ARun, object_start s w) = (st, x) -> listen_object obj (s, give w (arrivals evs)) = (o, (s', w')) ->
  match st with
  | ARun | AWait => prefix (w_log (c_world (o_conf x))) (w_log w') /\ prefix (w_out (c_world (o_conf x))) (w_out w')
  | ADone | AFail _ => ends_alike st o /\ same_effects (c_world (o_conf x)) w' /\ o_mem x = s'
  | AUb _ => ends_alike st o /\ same_effects (c_world (o_conf x)) w'
  end.
Proof.
  intros S obj s w evs st x o s' w' Ho Hw Hli Hin Harr E Eb.
  destruct (same_base obj s w Ho (give w (arrivals evs)) _ _ _ eq_refl Hw Eb) as (ot & H1 & H2 & H3).
  pose proof (same_run obj s w (Ho2 obj Ho) evs (ARun, object_start s w) (ARun, start_listen w)) as H. rewrite E in H.
  destruct (run _ evs _) as [st2 c] eqn:E2. destruct H as (G1 & G2 & G3); [split; [reflexivity|]; split; [reflexivity|]; right; split; [now apply same_start|now left]|].
  cbn [fst snd] in *. subst st2. rewrite G2.
  pose proof (C28_any_schedule_partial false _ _ _ _ _ _ _ Hli Hin Harr (react_only obj s w Ho) (fun _ => ProofAsync.healthy_never _ Hw) E2 H1) as C.
  assert (o = Ret tt -> fst (st, c) <> ARun -> (forall u, st <> AUb u) -> same_effects (c_world c) w' -> o_mem x = s') as Hmem.
  { intros Hr Hs Hu (_ & _ & _ & _ & Hlog & _). destruct (H3 (or_introl Hr)) as (new & N1 & N2). destruct G3 as [[u0 Hu0]|[G3 [G4|G4]]]; [now elim (Hu u0)|contradiction|].
    destruct G3 as [h sh K wx new' HK Hh Hl| |]; cbn [o_now] in G4; try discriminate. cbn [o_mem c_world] in *. rewrite Hl, N1 in Hlog. apply app_inv_head in Hlog. now subst. }
  destruct st as [| | |e|u]; try exact C; destruct C as [C1 C2]; destruct ot as [[]|e2| |u2|]; cbn [same_end] in C1; try contradiction; subst o;
    (split; [exact C1||exact I|]); try exact C2; (split; [exact C2|apply Hmem; auto; discriminate]).
Qed.
Print Assumptions C100_any_schedule.
(** Given enough steps the two end alike, with the same calls, the same bytes sent, and the same contents of the objects' fields. *)
Theorem C100_completion : forall S (obj : object S) s w evs o s' w',
  every_call true only_sends obj -> healthy (w_wr w) -> s_listening (w_sock w) = false -> io_only (w_in w) -> io_only (arrivals evs) ->
  listen_object obj (s, give w (arrivals evs)) = (o, (s', w')) ->
  exists n, forall m, (n <= m)%nat -> forall st x, object_run obj (evs ++ ticks m) (ARun, object_start s w) = (st, x) ->
  ends_alike st o /\ same_effects (c_world (o_conf x)) w' /\ (o = Ret tt \/ o = Wait -> o_mem x = s').
Proof.
  intros S obj s w evs o s' w' Ho Hw Hli Hin Harr Eb.
  destruct (same_base obj s w Ho (give w (arrivals evs)) _ _ _ eq_refl Hw Eb) as (ot & H1 & H2 & H3).
  destruct (C28_completion_partial false _ _ _ _ _ Hli Hin Harr (react_only obj s w Ho) (fun _ => ProofAsync.healthy_never _ Hw) H1) as [n Hn]. exists n. intros m Hm st x E.
  pose proof (same_run obj s w (Ho2 obj Ho) (evs ++ ticks m) (ARun, object_start s w) (ARun, start_listen w)) as H. rewrite E in H.
  destruct (run _ (evs ++ ticks m) _) as [st2 c] eqn:E2. destruct H as (G1 & G2 & G3); [split; [reflexivity|]; split; [reflexivity|]; right; split; [now apply same_start|now left]|].
  cbn [fst snd] in *. subst st2. rewrite G2. destruct (Hn m Hm _ _ E2) as [C1 C2].
  assert (o = Ret tt \/ o = Wait -> st <> ARun -> (forall u, st <> AUb u) -> o_mem x = s') as Hmem.
  { intros Hr Hs Hu. destruct C2 as (_ & _ & _ & _ & Hlog & _). destruct (H3 Hr) as (new & N1 & N2). destruct G3 as [[u0 Hu0]|[G3 [G4|G4]]]; [now elim (Hu u0)|contradiction|].
    destruct G3 as [h sh K wx new' HK Hh Hl| |]; cbn [o_now] in G4; try discriminate. cbn [o_mem c_world] in *. rewrite Hl, N1 in Hlog. apply app_inv_head in Hlog. now subst. }
  destruct st as [| | |e|u]; destruct ot as [[]|e2| |u2|]; cbn [same_end] in C1; try contradiction; subst o;
    (split; [exact C1||exact I|]); (split; [exact C2|]); intros Hr; try (destruct Hr; discriminate); apply Hmem; auto; discriminate.
Qed.
Print Assumptions C100_completion.

(** * Whatever becomes of the writes *)
(** The objects see which sends failed and decide by it; still the run is one of listeners whose commands depend on the history of calls only, and
    which issue no other commands, for any schedule. So every theorem about all such listeners holds for objects. *)
Theorem C100_adaptive : forall S t (P : act -> Prop) (obj : object S) s w evs st x, (forall a, P a -> SpecObject.calm a) -> every_call t P obj ->
  object_run obj evs (ARun, object_start s w) = (st, x) ->
  exists react c, run react evs (ARun, start_listen w) = (st, c) /\ c_world c = c_world (o_conf x) /\ forall l log, Forall (issued t P) (react l log).
Proof.
  intros S t P obj s w evs st x Hc Ho E.
  destruct (adaptive_run t P Hc obj Ho evs ARun (object_start s w)) as (cs & frag & F1 & F2 & F3).
  - unfold object_start, start_listen. apply sh_idle. apply Forall_cons; [exact I|apply Forall_nil].
  - destruct (F3 frag (fun _ _ => eq_refl)) as [G1 G2]. rewrite E in G1, G2.
    exists (by_count frag). destruct (run (by_count frag) evs (ARun, with_cmds cs (o_conf (object_start s w)))) as [st2 c] eqn:E2. cbn [fst snd] in G1, G2. subst st2.
    exists c. split; [exact E2|]. split; [exact G2|]. intros l log. apply F2.
Qed.
Print Assumptions C100_adaptive.
Definition mild (a : act) : Prop := match a with ASend _ | ALook => True | _ => False end.
Lemma mild_user react : (forall l log, Forall (issued true mild) (react l log)) -> user_react react.
Proof.
  intros H l log. eapply Forall_impl; [|exact (H l log)]. intros c [[-> _]|(a & Pa & Ca)]; [exact I|].
  destruct a; cbn in Pa, Ca; try contradiction; subst; cbn; auto. destruct Ca as [? ->]. exact I.
Qed.
(** At any time, whatever happens and whatever the objects remember and decide: the callbacks so far show a beginning of the reading of the bytes that
    have arrived (C53), and none comes after onClose (C54). *)
Theorem C100_only_a_prefix : forall S (obj : object S) s w evs st x,
  s_listening (w_sock w) = false -> io_only (w_in w) -> io_only (arrivals evs) -> every_call true mild obj -> last_ok (w_sock w) ->
  object_run obj evs (ARun, object_start s w) = (st, x) ->
  exists new, w_log (c_world (o_conf x)) = w_log w ++ new /\ Forall (fun e => s_listener (w_sock w) = Some (fst e)) new /\
    prefix (transcript new) (stream_reading (open_of (w_sock w)) (bytes_of (w_in w ++ arrivals evs))) /\
    forall n1 l code m n2, new = n1 ++ (l, EvClose code m) :: n2 -> n2 = [].
Proof.
  intros S obj s w evs st x Hl Hio Har Ho Hlo E.
  destruct (C100_adaptive S true mild obj s w evs st x) as (react & c & EL & Ew & Hr); [intros [] H; exact H || exact I|exact Ho|exact E|].
  rewrite <- Ew. destruct (C53_only_a_prefix react w evs st c Hl Hio Har (mild_user _ Hr) Hlo EL) as (new & N1 & N2 & N3).
  destruct (C54_close_is_last_call react w evs st c Hl Hio Har (mild_user _ Hr) Hlo EL) as (new' & M1 & M2).
  rewrite N1 in M1. apply app_inv_head in M1. subst new'. exists new. auto.
Qed.
Print Assumptions C100_only_a_prefix.

(** The counting object of C98 on the asynchronous socket, where the second of three answers fails: the field says so, and the run goes on. And the
    echo object, both sockets reading byte by byte. *)
Example C100_nonvacuous :
  let w i o := World i o [] (fun _ => x00) 0 [] (Sock false 16 (Some 3%nat) (-1) false) in
  (exists x, object_run counting (ticks 100) (ARun, object_start 0%nat (w [RData x89 [x00]; RData x89 [x00]; RData x89 [x01; x61]] [WAccept 9; WAccept 1; WIo IoBroken; WIo IoBroken])) = (AWait, x) /\
    o_mem x = 2%nat /\ w_log (c_world (o_conf x)) = [(3%nat, EvPing []); (3%nat, EvPing []); (3%nat, EvPing [x61])]) /\
  (every_call true only_sends (echo_object 100) /\ healthy [WAccept 5] /\
   exists w' x, listen_object (echo_object 100) ([], w (map (fun b => RData b []) [x81; x02; x61; x62; x89; x00; x88; x00]) [WAccept 5]) = (Ret tt, ([], w')) /\
    object_run (echo_object 100) (flat_map (fun b => Arrive [RData b []] :: ticks 7) [x81; x02; x61; x62; x89; x00; x88; x00] ++ ticks 200) (ARun, object_start [] (w [] [WAccept 5])) = (ADone, x) /\
    same_effects (c_world (o_conf x)) w' /\ w_out w' = [x81; x02; x61; x62; x8a; x00; x88; x02; x00; x00]).
Proof.
  cbv zeta. split; [|split; [|split]].
  - eexists. split; [vm_compute; reflexivity|]. split; reflexivity.
  - intros l ev. assert (forall op, lenN (req_payload op) < 2 ^ 31 -> every true only_sends (or_throw op)) as H.
    { intros op Hop. unfold or_throw. cbn [every]. split; [exact Hop|]. intros []; exact I || reflexivity. }
    destruct ev as [op d|op|p|p|cc p]; cbn [echo_object every]; auto.
    + intros s. destruct op as [|[q|[q|q|]|]]; cbn [every]; auto; destruct (N.leb_spec (lenN s) 100); cbn [every]; auto; apply H; unfold req_payload; cbn; lia.
    + destruct (N.leb_spec (lenN p) 125); cbn [every]; auto. apply H. unfold req_payload. cbn. lia.
    + destruct (N.leb_spec (lenN p) 123); cbn [every]; auto. apply H. unfold req_payload. cbn [request snd]. rewrite lenN_app, lenN_be_enc. cbn [msg_of]. change (2 ^ 31) with 2147483648. lia.
  - repeat (apply Forall_cons || apply Forall_nil). cbn. lia.
  - do 2 eexists. split; [vm_compute; reflexivity|]. split; [vm_compute; reflexivity|]. split; [repeat split|reflexivity].
Qed.
