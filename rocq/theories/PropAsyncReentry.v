(** C101: callbacks whose coroutines call listenAsync() on the socket that is calling them. *)
From Verif Require Import Bytes Frame World WebSocket AsyncWebSocket Object AsyncObject AsyncReentry SpecAsync SpecSend SpecFrame SpecListen SpecObject SpecReentry
  ProofFrame ProofStream ProofSend ProofListen ProofReading ProofQuit ProofObject ProofAsyncObject ProofReentry2 ProofAsyncReentry ProofAsyncReentry2 ProofAsyncReentry3.
From Coq Require Import Lia PeanoNat.
Local Open Scope N_scope.
Local Arguments takeN : simpl never.
Local Arguments dropN : simpl never.
Local Arguments lenN : simpl never.
Local Arguments be_enc : simpl never.
Local Arguments be_dec : simpl never.

(** Callbacks that call listenAsync only between frames, however deep, for every executor schedule, every segmentation and whatever becomes of their
    sends: at any moment what has been reported is what the frames show, from the first on, each once, in order; no behaviour is undefined. If
    the outermost listenAsync ends, it does so between two frames. [later]: what will arrive after the schedule. *)
Theorem C101_between_frames : forall S (obj : object S) fs s w evs st x l later,
  async_boundaries true obj -> clean (w_in w) -> clean (arrivals evs) -> (0 < s_buf (w_sock w))%Z -> last_ok (w_sock w) -> s_listener (w_sock w) = Some l ->
  bytes_of (w_in w) ++ bytes_of (arrivals evs) ++ later = wires fs -> readable (open_of (w_sock w)) fs = true ->
  reentry_run obj evs (ARun, reentry_start s w) = (st, x) ->
  (forall u, st <> AUb u) /\
  exists new, w_log (r_world x) = w_log w ++ new /\ Forall (fun e => fst e = l) new /\ (exists rest, transcript new ++ rest = frames_shown fs) /\
    (st <> ARun -> st <> AWait ->
     exists read unread, fs = read ++ unread /\ transcript new = frames_shown read /\ bytes_of (w_in (r_world x)) ++ later = wires unread).
Proof.
  intros S obj fs s w evs st x l later Ho H1 H2 H3 H4 H5 H6 H7 E.
  assert (false = true -> true = false) as Hnl by discriminate.
  assert (inv l false true (w_log w) fs (bytes_of (arrivals evs) ++ later) (reentry_start s w)) as I0 by (apply inv_start; auto; discriminate).
  destruct (inv_run l false true Hnl obj Ho (w_log w) fs evs later ARun _ H2 I0 I) as (I1 & F & _). rewrite E in I1, F. cbn [fst snd] in I1, F.
  split; [intros u ->; exact F|]. destruct I1 as (A & T & new & Hw & Hl & Hn & Ht & Hc & _). exists new. split; [exact Hl|]. split; [exact Hn|]. split; [exists T; exact Ht|].
  intros S1 S2. assert (c_stack (o_conf (r_now x)) = []) as Hst by (destruct st; try contradiction; try apply F).
  destruct Hc as [s1 h sh K w1 Hat|s1 d freed h sh K w1 Hat Hok|s1 k P freed h sh K w1 Hat HP Hok]; cbn [o_conf c_stack] in Hst; [|discriminate Hst|destruct P; discriminate Hst].
  subst K. destruct (at_inv _ _ _ _ _ _ _ _ _ Hat (bd_nil l)) as (un & E1 & E2 & (_ & _ & rd & E3) & _). exists rd, un. split; [exact E3|].
  destruct Hw as [Ew _]. split; [|rewrite <- E1; symmetry; exact Ew].
  rewrite E2 in Ht. rewrite E3 in Ht. unfold frames_shown in Ht. rewrite flat_map_app in Ht. now apply app_inv_tail in Ht.
Qed.
Print Assumptions C101_between_frames.

(** When it waits although everything has arrived, every frame has been reported, also those after a Close frame. *)
Theorem C101_quiescent : forall S (obj : object S) fs s w evs x l,
  async_boundaries true obj -> clean (w_in w) -> clean (arrivals evs) -> healthy (w_wr w) -> (0 < s_buf (w_sock w))%Z -> last_ok (w_sock w) -> s_listener (w_sock w) = Some l ->
  bytes_of (w_in w) ++ bytes_of (arrivals evs) = wires fs -> readable (open_of (w_sock w)) fs = true ->
  reentry_run obj (evs ++ [Tick]) (ARun, reentry_start s w) = (AWait, x) ->
  w_in (r_world x) = [] /\ exists new, w_log (r_world x) = w_log w ++ new /\ Forall (fun e => fst e = l) new /\ transcript new = frames_shown fs.
Proof.
  intros S obj fs s w evs x l Ho H1 H2 Hh H3 H4 H5 H6 H7 E.
  assert (false = true -> true = false) as Hnl by discriminate.
  assert (inv l false true (w_log w) fs (bytes_of (arrivals evs) ++ []) (reentry_start s w)) as I0 by (apply inv_start; auto; [now rewrite app_nil_r|discriminate]).
  destruct (inv_run l false true Hnl obj Ho (w_log w) fs evs [] ARun _ H2 I0 I) as (I1 & F & Hh1). specialize (Hh1 Hh).
  rewrite reentry_run_app in E. destruct (reentry_run obj evs (ARun, reentry_start s w)) as [st1 x1]. cbn [fst snd] in *. cbn [reentry_run reentry_tick] in E.
  assert (reentry_step obj x1 = (AWait, x)) as Es by (destruct st1; try discriminate E; exact E).
  destruct (inv_step l false true Hnl obj Ho (w_log w) fs [] x1 I1) as (_ & _ & R). rewrite Es in R. cbn [fst snd] in R. destruct R as [R|[R1 R2]]; [contradiction|]. split; [exact R1|]. now apply R2.
Qed.
Print Assumptions C101_quiescent.

(** The callbacks never nest without end: after any schedule, enough steps of the executor lead to a wait or to the end of the outermost listenAsync. *)
Theorem C101_ends : forall S (obj : object S) fs s w evs l later,
  async_boundaries true obj -> clean (w_in w) -> clean (arrivals evs) -> healthy (w_wr w) -> (0 < s_buf (w_sock w))%Z -> last_ok (w_sock w) -> s_listener (w_sock w) = Some l ->
  bytes_of (w_in w) ++ bytes_of (arrivals evs) ++ later = wires fs -> readable (open_of (w_sock w)) fs = true ->
  exists n, fst (reentry_run obj (evs ++ ticks n ++ [Tick]) (ARun, reentry_start s w)) <> ARun.
Proof.
  intros S obj fs s w evs l later Ho H1 H2 Hh H3 H4 H5 H6 H7.
  assert (false = true -> true = false) as Hnl by discriminate.
  assert (inv l false true (w_log w) fs (bytes_of (arrivals evs) ++ later) (reentry_start s w)) as I0 by (apply inv_start; auto; discriminate).
  destruct (inv_run l false true Hnl obj Ho (w_log w) fs evs later ARun _ H2 I0 I) as (I1 & F & Hh1). specialize (Hh1 Hh).
  setoid_rewrite reentry_run_app. destruct (reentry_run obj evs (ARun, reentry_start s w)) as [st1 x1]. cbn [fst snd] in *.
  destruct (ends_ticks obj x1 (inv_ends l false true Hnl obj Ho (w_log w) fs eq_refl later x1 I1 Hh1) ARun (or_introl eq_refl)) as [n1 N1].
  destruct st1 as [| | |e|u].
  - exists n1. exact N1.
  - apply (ends_ticks obj x1 (inv_ends l false true Hnl obj Ho (w_log w) fs eq_refl later x1 I1 Hh1)). now right.
  - exists O. cbn. discriminate.
  - exists O. cbn. discriminate.
  - exists O. cbn. discriminate.
Qed.
Print Assumptions C101_ends.

(** If no callback throws and no Close arrives: the listening goes on, and after enough steps every frame has been reported. *)
Theorem C101_all_frames : forall S (obj : object S) fs s w evs l,
  async_boundaries false obj -> clean (w_in w) -> clean (arrivals evs) -> healthy (w_wr w) -> (0 < s_buf (w_sock w))%Z -> last_ok (w_sock w) -> s_listener (w_sock w) = Some l ->
  bytes_of (w_in w) ++ bytes_of (arrivals evs) = wires fs -> readable (open_of (w_sock w)) fs = true -> no_close fs ->
  exists n x, reentry_run obj (evs ++ ticks n) (ARun, reentry_start s w) = (AWait, x) /\ w_in (r_world x) = [] /\
    exists new, w_log (r_world x) = w_log w ++ new /\ Forall (fun e => fst e = l) new /\ transcript new = frames_shown fs.
Proof.
  intros S obj fs s w evs l Ho H1 H2 Hh H3 H4 H5 H6 H7 H8.
  assert (async_boundaries true obj) as Ho'.
  { intros l0 ev. specialize (Ho l0 ev). destruct ev; [exact Ho| | | |]; apply (every_mono sends_or_listens); auto. }
  destruct (C101_ends S obj fs s w evs l [] Ho' H1 H2 Hh H3 H4 H5) as [n N]; [now rewrite app_nil_r|exact H7|].
  assert (forall k, ticks k ++ [Tick] = ticks (Datatypes.S k)) as Et by (induction k as [|k IH]; [reflexivity|]; cbn [ticks app] in *; now rewrite IH).
  assert (forall k, arrivals (evs ++ ticks k) = arrivals evs) as Ea.
  { intros k. clear. induction evs as [|[|a] r IH]; cbn [app arrivals]; [induction k; auto|exact IH|now rewrite IH]. }
  destruct (reentry_run obj (evs ++ ticks n ++ [Tick]) (ARun, reentry_start s w)) as [st x] eqn:E. cbn [fst] in N.
  assert (inv l true false (w_log w) fs (bytes_of (arrivals (evs ++ ticks n ++ [Tick])) ++ []) (reentry_start s w)) as I0.
  { rewrite Et, Ea. apply inv_start; auto. now rewrite app_nil_r. }
  assert (clean (arrivals (evs ++ ticks n ++ [Tick]))) as Hc by (rewrite Et, Ea; exact H2).
  destruct (inv_run l true false (fun _ => eq_refl) obj Ho (w_log w) fs _ [] ARun _ Hc I0 I) as (_ & F & _). rewrite E in F. cbn [fst snd] in F.
  assert (st = AWait) as -> by (destruct st; cbn in F; try contradiction; try reflexivity; destruct F as (_ & _ & F); discriminate F).
  exists (Datatypes.S n), x. rewrite <- Et. split; [exact E|]. rewrite app_assoc in E.
  apply (C101_quiescent S obj fs s w (evs ++ ticks n) x l); auto; rewrite Ea; assumption.
Qed.
Print Assumptions C101_all_frames.
(** ... and until then it neither ends nor fails. *)
Theorem C101_goes_on : forall S (obj : object S) fs s w evs l later,
  async_boundaries false obj -> clean (w_in w) -> clean (arrivals evs) -> (0 < s_buf (w_sock w))%Z -> last_ok (w_sock w) -> s_listener (w_sock w) = Some l ->
  bytes_of (w_in w) ++ bytes_of (arrivals evs) ++ later = wires fs -> readable (open_of (w_sock w)) fs = true -> no_close fs ->
  fst (reentry_run obj evs (ARun, reentry_start s w)) = ARun \/ fst (reentry_run obj evs (ARun, reentry_start s w)) = AWait.
Proof.
  intros S obj fs s w evs l later Ho H1 H2 H3 H4 H5 H6 H7 H8.
  assert (inv l true false (w_log w) fs (bytes_of (arrivals evs) ++ later) (reentry_start s w)) as I0 by (apply inv_start; auto).
  destruct (inv_run l true false (fun _ => eq_refl) obj Ho (w_log w) fs evs later ARun _ H2 I0 I) as (_ & F & _).
  destruct (fst (reentry_run obj evs (ARun, reentry_start s w))); auto; cbn in F; try contradiction; destruct F as (_ & _ & F); discriminate F.
Qed.
Print Assumptions C101_goes_on.

(** Which listening a Close ends: the innermost. For listeners that listen again on every ping, whatever else they send, store and decide, and for
    every schedule, segmentation and stream: the outermost listenAsync ends with the first Close before which every ping has had a Close of its own
    (and everything up to it has been reported, nothing after it); if there is none it goes on waiting, all frames reported, Closes and what
    follows them included. *)
Theorem C101_which_listening : forall S (obj : object S) fs s w evs l,
  listens_on_ping obj -> clean (w_in w) -> clean (arrivals evs) -> healthy (w_wr w) -> (0 < s_buf (w_sock w))%Z -> last_ok (w_sock w) -> s_listener (w_sock w) = Some l ->
  bytes_of (w_in w) ++ bytes_of (arrivals evs) = wires fs -> readable (open_of (w_sock w)) fs = true ->
  exists n x new, w_log (r_world x) = w_log w ++ new /\ Forall (fun e => fst e = l) new /\
    match outermost 0 fs with
    | Some read => reentry_run obj (evs ++ ticks n) (ARun, reentry_start s w) = (ADone, x) /\ (exists rest, fs = read ++ rest) /\ transcript new = frames_shown read
    | None => reentry_run obj (evs ++ ticks n) (ARun, reentry_start s w) = (AWait, x) /\ w_in (r_world x) = [] /\ transcript new = frames_shown fs
    end.
Proof.
  intros S obj fs s w evs l Ho1 H1 H2 Hh H3 H4 H5 H6 H7. pose proof (once_boundaries obj Ho1) as Ho.
  assert (async_boundaries true obj) as Ho'.
  { intros l0 ev. specialize (Ho l0 ev). destruct ev; [exact Ho| | | |]; apply (every_mono sends_or_listens); auto. }
  destruct (C101_ends S obj fs s w evs l [] Ho' H1 H2 Hh H3 H4 H5) as [n N]; [now rewrite app_nil_r|exact H7|].
  assert (forall k, ticks k ++ [Tick] = ticks (Datatypes.S k)) as Et by (induction k as [|k IH]; [reflexivity|]; cbn [ticks app] in *; now rewrite IH).
  assert (forall k, arrivals (evs ++ ticks k) = arrivals evs) as Ea.
  { intros k. clear. induction evs as [|[|a] r IH]; cbn [app arrivals]; [induction k; auto|exact IH|now rewrite IH]. }
  destruct (reentry_run obj (evs ++ ticks n ++ [Tick]) (ARun, reentry_start s w)) as [st x] eqn:E. cbn [fst] in N.
  assert (false = true -> false = false) as Hnl by reflexivity.
  assert (forall k, inv l false false (w_log w) fs (bytes_of (arrivals (evs ++ ticks k)) ++ []) (reentry_start s w)) as I0.
  { intros k. rewrite Ea. apply inv_start; auto; [now rewrite app_nil_r|discriminate]. }
  assert (forall k, clean (arrivals (evs ++ ticks k))) as Hc by (intros k; rewrite Ea; exact H2).
  assert (cnt (w_log w) (reentry_start s w)) as C0 by now apply cnt_start.
  pose proof E as E'. rewrite Et in E'.
  destruct (cnt_run l obj Ho1 (w_log w) fs _ [] ARun _ (Hc _) (I0 (Datatypes.S n)) C0 I) as (_ & F). rewrite E' in F. cbn [fst snd] in F.
  destruct (C101_between_frames S obj fs s w _ _ _ l [] Ho' H1 (Hc (Datatypes.S n)) H3 H4 H5 ltac:(rewrite Ea, app_nil_r; exact H6) H7 E') as (_ & new & Hl & Hn & (rest & Hp) & _).
  destruct st as [| | |e|u]; [now destruct N| | |destruct F|destruct F].
  - (* waits *)
    assert (exists D, scan 0 (transcript new) = Some D) as [D Hs].
    { rewrite app_assoc, reentry_run_app in E. destruct (reentry_run obj (evs ++ ticks n) (ARun, reentry_start s w)) as [st1 x1] eqn:E1.
      destruct (inv_run l false false Hnl obj Ho (w_log w) fs _ [] ARun _ (Hc n) (I0 n) I) as (I1 & _ & Hh1). specialize (Hh1 Hh). rewrite E1 in I1, Hh1. cbn [fst snd] in *.
      destruct (cnt_run l obj Ho1 (w_log w) fs _ [] ARun _ (Hc n) (I0 n) C0 I) as (C1 & _). rewrite E1 in C1. cbn [snd] in C1.
      cbn [reentry_run reentry_tick] in E. assert (reentry_step obj x1 = (AWait, x)) as Es by (destruct st1; try discriminate E; exact E).
      destruct (cnt_step l obj Ho1 (w_log w) fs [] x1 I1 C1) as (_ & G). rewrite Es in G. cbn [fst snd] in G. now apply G. }
    rewrite app_assoc in E.
    destruct (C101_quiescent S obj fs s w (evs ++ ticks n) x l Ho' H1 (Hc n) Hh H3 H4 H5 ltac:(rewrite Ea; exact H6) H7 E) as (Q1 & new' & Q2 & Q3 & Q4).
    assert (new' = new) as -> by (rewrite Q2 in Hl; now apply app_inv_head in Hl).
    exists (Datatypes.S n), x, new. split; [exact Hl|]. split; [exact Hn|]. destruct (outermost 0 fs) as [read|] eqn:Eo.
    + exfalso. destruct (outermost_some _ _ _ Eo) as ((r & Er) & os & c & m & Eos & Esc). rewrite Q4, Er in Hs. unfold frames_shown in *. rewrite flat_map_app, Eos, !scan_app, Esc in Hs. discriminate Hs.
    + rewrite <- Et, app_assoc. auto.
  - (* ends *)
    destruct F as (new' & os & c & m & F1 & F2 & F3). assert (new' = new) as -> by (rewrite F1 in Hl; now apply app_inv_head in Hl).
    exists (Datatypes.S n), x, new. split; [exact Hl|]. split; [exact Hn|]. destruct (outermost 0 fs) as [read|] eqn:Eo.
    + destruct (outermost_some _ _ _ Eo) as ((r & Er) & os' & c' & m' & Eos & Esc). split; [exact E'|]. split; [now exists r|].
      rewrite F2, Eos. apply (same_end os os' rest (frames_shown r)); auto. rewrite <- F2, Hp, Er, <- Eos. unfold frames_shown. now rewrite flat_map_app.
    + exfalso. destruct (outermost_none _ _ Eo) as [D Hs]. rewrite <- Hp, F2, !scan_app, F3 in Hs. discriminate Hs.
Qed.
Print Assumptions C101_which_listening.

(** * What goes wrong otherwise, and an example *)
(** A listener that answers each ping, counts it and listens again; it counts the listenings that end, and by tens those that fail. *)
Definition eager : object nat := fun _ ev =>
  match ev with EvPing p => Do (ASend (SoPong None)) (fun _ => Load (fun n => Store (S n) (Do AListen (fun r => Load (fun m => Store (match r with Raised => 10 + m | _ => S m end)%nat Finish))))) | _ => Finish end.
Definition re_frame (op : N) (p : bytes) : lform * frame := (L7, RFrame true false false false op None p).
Definition re_world (bs : bytes) : world := World (unread bs []) [] [] (fun _ => x00) 0 [] (Sock false 4 (Some 0%nat) (-1) false).
Lemma eager_ok : async_boundaries false eager.
Proof.
  intros l ev. destruct ev; cbn [eager every]; auto. split; [apply N.ltb_lt; vm_compute; reflexivity|]. intros _ n. cbn [every sends_or_listens]. auto.
Qed.
Lemma eager_once : listens_on_ping eager.
Proof.
  intros l ev. destruct ev; cbn [eager every listens_once]; auto. split; [apply N.ltb_lt; vm_compute; reflexivity|]. intros _ n r. cbn [every]. intros m0. exact I.
Qed.
(** Two pings, three Closes: the third ends the outermost listening; with one ping and one Close it goes on. *)
Example C101_which_nonvacuous :
  let cl := re_frame 8 [] in let pi := re_frame 9 [] in let txt := re_frame 1 [x48] in
  outermost 0 [pi; cl; pi; txt; cl; txt; cl; pi] = Some [pi; cl; pi; txt; cl; txt; cl] /\ outermost 0 [pi; cl; txt] = None /\
  readable false [pi; cl; pi; txt; cl; txt; cl; pi] = true /\
  fst (reentry_run eager (ticks 200) (ARun, reentry_start 0%nat (re_world (wires [pi; cl; pi; txt; cl; txt; cl; pi])))) = ADone /\
  fst (reentry_run eager (ticks 200) (ARun, reentry_start 0%nat (re_world (wires [pi; cl; txt])))) = AWait.
Proof. vm_compute. repeat split; reflexivity. Qed.
(** The Close frame is taken by the nested listenAsync, which ends; the outer one goes on, and what the peer sends after its Close is reported
    (compare C12). The callback, [eager] above, counts one ping and one listening that ended. *)
Theorem C101_close_refuted : exists fs w evs x l new, let obj := eager in let s := 0%nat in
  async_boundaries false obj /\ clean (w_in w) /\ healthy (w_wr w) /\ (0 < s_buf (w_sock w))%Z /\ last_ok (w_sock w) /\ s_listener (w_sock w) = Some l /\
  bytes_of (w_in w) = wires fs /\ readable (open_of (w_sock w)) fs = true /\
  reentry_run obj evs (ARun, reentry_start s w) = (AWait, x) /\ r_outer x = [] /\ o_mem (r_now x) = 2%nat /\
  w_log (r_world x) = w_log w ++ new /\ exists before c m after, transcript new = before ++ OClose c m :: after /\ after <> [].
Proof.
  set (fs := [re_frame 9 [x41]; re_frame 8 [x03; xe8]; re_frame 10 [x42]]).
  exists fs, (re_world (wires fs)), (ticks 80).
  assert (let r := reentry_run eager (ticks 80) (ARun, reentry_start 0%nat (re_world (wires fs))) in fst r = AWait /\ r_outer (snd r) = [] /\ o_mem (r_now (snd r)) = 2%nat /\ w_log (r_world (snd r)) = [(0%nat, EvPing [x41]); (0%nat, EvClose 1000 []); (0%nat, EvPong [x42])]) as H by (vm_compute; auto).
  destruct (reentry_run eager (ticks 80) (ARun, reentry_start 0%nat (re_world (wires fs)))) as [st x] eqn:E.
  cbn [fst snd] in H. destruct H as (-> & G2 & G4 & G3).
  exists x, 0%nat, [(0%nat, EvPing [x41]); (0%nat, EvClose 1000 []); (0%nat, EvPong [x42])].
  cbv zeta. split; [exact eager_ok|]. split; [constructor; [exact I|constructor]|]. split; [constructor|]. split; [reflexivity|]. split; [now left|]. split; [reflexivity|].
  split; [reflexivity|]. split; [reflexivity|]. split; [exact E|]. split; [exact G2|]. split; [exact G4|]. split; [exact G3|].
  exists [OPing [x41]], 1000, [], [OPong [x42]]. split; [reflexivity|discriminate].
Qed.
Print Assumptions C101_close_refuted.
(** A frame the library does not accept fails the nested listenAsync only: the outer one reads on, and takes that frame's payload for frames
    (compare C14). The callback counts one ping and one listening that failed. *)
Theorem C101_error_refuted : exists w evs x l i payload new, let obj := eager in let s := 0%nat in
  async_boundaries false obj /\ clean (w_in w) /\ healthy (w_wr w) /\ (0 < s_buf (w_sock w))%Z /\ last_ok (w_sock w) /\ s_listener (w_sock w) = Some l /\
  (exists ping, bytes_of (w_in w) = ping ++ payload /\ rd_header payload = Some (i, dropN 2 payload) /\ i_len i = lenN (dropN 2 payload) /\ accepts (open_of (w_sock w)) i = false) /\
  reentry_run obj evs (ARun, reentry_start s w) = (AWait, x) /\ r_outer x = [] /\ o_mem (r_now x) = 11%nat /\
  w_log (r_world x) = w_log w ++ new /\ transcript new = [OPing [x41]; OPong (dropN 4 payload)] /\ dropN 4 payload <> [].
Proof.
  set (bad := [x83; x03; x8a; x01; x42]).
  exists (re_world (wires [re_frame 9 [x41]] ++ bad)), (ticks 80).
  assert (let r := reentry_run eager (ticks 80) (ARun, reentry_start 0%nat (re_world (wires [re_frame 9 [x41]] ++ bad))) in fst r = AWait /\ r_outer (snd r) = [] /\ o_mem (r_now (snd r)) = 11%nat /\ w_log (r_world (snd r)) = [(0%nat, EvPing [x41]); (0%nat, EvPong [x42])]) as H by (vm_compute; auto).
  destruct (reentry_run eager (ticks 80) (ARun, reentry_start 0%nat (re_world (wires [re_frame 9 [x41]] ++ bad)))) as [st x] eqn:E.
  cbn [fst snd] in H. destruct H as (-> & G2 & G4 & G3).
  exists x, 0%nat, (FInfo true 0 3 None 3), bad, [(0%nat, EvPing [x41]); (0%nat, EvPong [x42])].
  cbv zeta. split; [exact eager_ok|]. split; [constructor; [exact I|constructor]|]. split; [constructor|]. split; [reflexivity|]. split; [now left|]. split; [reflexivity|].
  split; [exists (wires [re_frame 9 [x41]]); split; [reflexivity|]; split; [reflexivity|]; split; reflexivity|]. split; [exact E|]. split; [exact G2|]. split; [exact G4|]. split; [exact G3|]. split; [reflexivity|discriminate].
Qed.
Print Assumptions C101_error_refuted.

(** Not vacuous: two pings, the second read by a nested listenAsync, a text message in pieces; then, on another run, a Close that ends one of three levels. *)
Example C101_nonvacuous :
  let fs := [re_frame 9 [x41]; re_frame 9 [x42]; re_frame 1 [x48; x49]] in
  let evs := ticks 5 ++ Arrive (unread (firstn 4 (wires fs)) []) :: ticks 60 ++ Arrive (unread (skipn 4 (wires fs)) []) :: ticks 100 in
  let x := reentry_run eager evs (ARun, reentry_start 0%nat (re_world [])) in
  readable false fs = true /\ no_close fs /\ bytes_of (arrivals evs) = wires fs /\
  fst x = AWait /\ length (r_outer (snd x)) = 2%nat /\ o_mem (r_now (snd x)) = 2%nat /\
  map snd (w_log (r_world (snd x))) = [EvPing [x41]; EvPing [x42]; EvMsg 1 [x48; x49]; EvEnd 1] /\
  (let y := reentry_run eager (evs ++ Arrive (unread (wires [re_frame 8 []; re_frame 10 []]) []) :: ticks 100) (ARun, reentry_start 0%nat (re_world [])) in
   fst y = AWait /\ length (r_outer (snd y)) = 1%nat /\ o_mem (r_now (snd y)) = 3%nat /\
   map snd (w_log (r_world (snd y))) = [EvPing [x41]; EvPing [x42]; EvMsg 1 [x48; x49]; EvEnd 1; EvClose 0 []; EvPong []]).
Proof. cbv zeta. split; [reflexivity|]. split; [repeat (apply Forall_cons || apply Forall_nil); discriminate|]. vm_compute. repeat split; reflexivity. Qed.
