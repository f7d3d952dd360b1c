(** C100: what a callback's coroutine is told about its sends on the asynchronous socket, whatever becomes of them. *)
From Verif Require Import Bytes Frame World WebSocket Object SpecAsync SpecSend SpecFrame SpecListen SpecObject AsyncWebSocket AsyncObject
  ProofSend PropAsync PropAsyncClose.
From Coq Require Import Lia PeanoNat.
Local Open Scope N_scope.
Local Arguments takeN : simpl never.
Local Arguments dropN : simpl never.
Local Arguments lenN : simpl never.
Local Arguments writeExactAsyncInline : simpl never.
Local Arguments packHeaderBits : simpl never.

Definition sending (co : cor) : Prop := match co with CoSend _ _ _ _ _ | CoWrite _ _ => True | _ => False end.
Lemma unwind_sending st R : Forall sending st -> unwind (st ++ CoCatch :: R) = Some R.
Proof. induction 1 as [|co st Hc _ IH]; [reflexivity|]. destruct co; try destruct Hc; exact IH. Qed.
Lemma unwind_none st : Forall sending st -> unwind st = None.
Proof. induction 1 as [|co st Hc _ IH]; [reflexivity|]. destruct co; try destruct Hc; exact IH. Qed.

(** What a step of a sending coroutine does alone ([s], [c]) and on top of another that catches ([s2], [c2]). *)
Definition alike (R : list cor) (w : world) (s : status) (c : conf) (s2 : status) (c2 : conf) : Prop :=
  c_world c2 = c_world c /\ w_log (c_world c) = w_log w /\
  match s with
  | AFail _ => s2 = ARun /\ c_stack c2 = R
  | AUb _ => s2 = s /\ c_stack c2 = []
  | ARun | AWait => s2 = s /\ Forall sending (c_stack c) /\ c_stack c2 = c_stack c ++ CoCatch :: R
  | ADone => False
  end.
Definition alike_all (R : list cor) (w : world) (x : status * conf) (y : status * conf) : Prop := alike R w (fst x) (snd x) (fst y) (snd y).
Lemma alike_fail e h sh h2 sh2 st R w w' : Forall sending st -> w_log w' = w_log w ->
  alike_all R w (fail e (Conf h sh st w')) (fail e (Conf h2 sh2 (st ++ CoCatch :: R) w')).
Proof.
  intros Hs Hw. unfold alike_all, fail. cbn [c_stack c_hdr c_short c_world]. rewrite (unwind_none _ Hs), (unwind_sending _ _ Hs).
  split; [reflexivity|]. split; [exact Hw|]. split; reflexivity.
Qed.
Lemma alike_go s h sh h2 sh2 cs st R w w' : s = ARun \/ s = AWait -> Forall sending (cs ++ st) -> w_log w' = w_log w ->
  alike_all R w (s, Conf h sh (cs ++ st) w') (s, Conf h2 sh2 (cs ++ st ++ CoCatch :: R) w').
Proof.
  intros Hs Hf Hw. split; [reflexivity|]. split; [exact Hw|]. destruct Hs as [-> | ->]; cbn [fst snd c_stack]; (split; [reflexivity|]); (split; [exact Hf|]); apply app_assoc.
Qed.
Lemma alike_step r1 r2 h sh h2 sh2 co st R w : Forall sending (co :: st) ->
  alike_all R w (step r1 (Conf h sh (co :: st) w)) (step r2 (Conf h2 sh2 ((co :: st) ++ CoCatch :: R) w)).
Proof.
  intros Hs. inversion Hs as [|? ? Hc Hst]; subst. cbn [app step].
  assert (G1 : forall s co' w', s = ARun \/ s = AWait -> sending co' -> w_log w' = w_log w ->
    alike_all R w (s, Conf h sh (co' :: st) w') (s, Conf h2 sh2 (co' :: st ++ CoCatch :: R) w')).
  { intros s co' w' H1 H2 H3. apply (alike_go s h sh h2 sh2 [co'] st R w w' H1); [constructor; assumption|exact H3]. }
  assert (G0 : forall w', w_log w' = w_log w -> alike_all R w (ARun, Conf h sh st w') (ARun, Conf h2 sh2 (st ++ CoCatch :: R) w')).
  { intros w' H3. apply (alike_go ARun h sh h2 sh2 [] st R w w'); auto. }
  destruct co as [|p|l p|l us al pr p|fin op m hh p|hh p|cs fr|]; try destruct Hc.
  - destruct p as [| |d|]; cbn [step_send].
    + assert (Hh : forall n, w_log (snd (sendFrameHeaderAsync hh fin op n w)) = w_log w /\ sending (snd (fst (sendFrameHeaderAsync hh fin op n w)))).
      { intros n. unfold sendFrameHeaderAsync. cbn [h_hasMask]. destruct (s_mask (w_sock w)); split; first [reflexivity|exact I]. }
      destruct m as [[|b bs]|]; match goal with |- context [sendFrameHeaderAsync hh fin op ?n w] =>
        destruct (Hh n) as [Hl Hc2]; destruct (sendFrameHeaderAsync hh fin op n w) as [[h' co] w'] end; cbn [fst snd] in Hl, Hc2;
        match goal with |- alike_all _ _ (_, Conf _ _ (?a :: ?b :: _) _) _ => apply (alike_go ARun h sh h2 sh2 [a; b] st R w) end; auto;
        cbn [app]; repeat (constructor; [first [exact Hc2|exact I]|]); exact Hst.
    + cbv zeta. destruct (h_hasMask hh); [|apply G1; auto; exact I].
      destruct (2 ^ 31 <=? _); [|apply G1; auto; exact I]. split; [reflexivity|]. split; [reflexivity|]. split; reflexivity.
    + pose proof (log_write d w) as Hl. destruct (writeExactAsyncInline d w) as [[d'|d'| |] w']; cbn [snd] in Hl.
      * now apply G0.
      * apply G1; auto; exact I.
      * apply G1; auto; exact I.
      * now apply alike_fail.
    + now apply G0.
  - destruct p as [d| |d| |d]; cbn [step_writeFrame]; cbv zeta.
    + pose proof (log_write d w) as Hl. destruct (writeExactAsyncInline d w) as [[d'|d'| |] w']; cbn [snd] in Hl; first [now apply alike_fail|apply G1; auto; exact I].
    + destruct (_ =? 2); [apply G1; auto; exact I|]. destruct (_ =? 3); apply G1; auto; exact I.
    + pose proof (log_write d w) as Hl. destruct (writeExactAsyncInline d w) as [[d'|d'| |] w']; cbn [snd] in Hl; first [now apply alike_fail|apply G1; auto; exact I].
    + destruct (h_hasMask hh); [apply G1; auto; exact I|now apply G0].
    + pose proof (log_write d w) as Hl. destruct (writeExactAsyncInline d w) as [[d'|d'| |] w']; cbn [snd] in Hl.
      * now apply G0.
      * apply G1; auto; exact I.
      * apply G1; auto; exact I.
      * now apply alike_fail.
Qed.

Section Told.
Context {S : Type}.
Variable obj : object S.
Variable k : answer -> code S.
Variable s0 : S.
Variable fr : bool.
Variable K : list cor.
Notation R := (CoUser [] fr :: K).

(** The callback's send, next to the same send alone. *)
Definition pending (s : status) (c : conf) (x : oconf S) : Prop :=
  (s = ARun \/ s = AWait) /\ Forall sending (c_stack c) /\ c_stack (o_conf x) = c_stack c ++ CoCatch :: R /\ c_world (o_conf x) = c_world c /\
  o_now x = Some (Asked k) /\ o_mem x = s0.
Definition back (s : status) (c : conf) (y : status * oconf S) : Prop :=
  fst y = ARun /\ c_stack (o_conf (snd y)) = R /\ c_world (o_conf (snd y)) = c_world c /\ o_mem (snd y) = s0 /\
  (s = ADone /\ told_now (o_now (snd y)) = k Done \/ exists e, s = AFail e /\ told_now (o_now (snd y)) = k Raised).

Lemma pending_step s c x : pending s c x ->
  let y := object_step obj x in let sc := step (fun _ _ => []) c in
  fst y = fst sc /\ pending (fst sc) (snd sc) (snd y) \/ back (fst sc) (snd sc) y \/ exists u, fst y = AUb u /\ fst sc = AUb u /\ c_world (o_conf (snd y)) = c_world (snd sc).
Proof.
  intros (Hs & Hf & Hst & Hw & Hn & Hm). destruct x as [m n [h2 sh2 st2 w2]]. destruct c as [h sh st w].
  cbn [o_conf c_stack c_world o_now o_mem] in *. subst m n st2 w2. cbv zeta. destruct st as [|co st].
  - right. left. cbn. split; [reflexivity|]. split; [reflexivity|]. split; [reflexivity|]. split; [reflexivity|]. left. split; reflexivity.
  - pose proof (alike_step (fun _ _ => []) (fun _ _ => []) h sh h2 sh2 co st R w Hf) as Ha.
    assert (E : object_step obj (OConf s0 (Some (Asked k)) (Conf h2 sh2 ((co :: st) ++ CoCatch :: R) w)) =
      let (st', c') := step (fun _ _ => []) (Conf h2 sh2 ((co :: st) ++ CoCatch :: R) w) in
      match c_stack c', List.rev (w_log (c_world c')) with
      | CoUser _ _ :: _, (l, ev) :: _ =>
        if Nat.ltb (length (w_log w)) (length (w_log (c_world c'))) then (st', OConf s0 (Some (Running (obj l ev))) c') else (st', OConf s0 (Some (Asked k)) c')
      | _, _ => (st', OConf s0 (Some (Asked k)) c')
      end).
    { inversion Hf as [|? ? Hc _]; subst. destruct co; try destruct Hc; reflexivity. }
    rewrite E. clear E. destruct (step _ (Conf h2 sh2 _ w)) as [s2 c2]. destruct (step _ (Conf h sh _ w)) as [s1 c1].
    destruct Ha as (A1 & A2 & A3). cbn [fst snd] in A1, A2, A3.
    assert (E : (match c_stack c2, List.rev (w_log (c_world c2)) with
      | CoUser _ _ :: _, (l, ev) :: _ =>
        if Nat.ltb (length (w_log w)) (length (w_log (c_world c2))) then (s2, OConf s0 (Some (Running (obj l ev))) c2) else (s2, OConf s0 (Some (Asked k)) c2)
      | _, _ => (s2, OConf s0 (Some (Asked k)) c2)
      end) = (s2, OConf s0 (Some (Asked k)) c2)).
    { rewrite A1, A2, Nat.ltb_irrefl. destruct (c_stack c2) as [|[] ?]; try reflexivity. destruct (List.rev (w_log w)) as [|[? ?] ?]; reflexivity. }
    rewrite E. clear E. cbn [fst snd o_conf o_now o_mem].
    destruct s1 as [| | |e|u].
    + destruct A3 as (-> & A4 & A5). left. split; [reflexivity|]. unfold pending. cbn [o_conf o_now o_mem]. auto 10.
    + destruct A3 as (-> & A4 & A5). left. split; [reflexivity|]. unfold pending. cbn [o_conf o_now o_mem]. auto 10.
    + destruct A3.
    + destruct A3 as (-> & A5). right. left. unfold back. cbn [fst snd o_conf o_now o_mem]. split; [reflexivity|]. split; [exact A5|]. split; [exact A1|]. split; [reflexivity|].
      right. exists e. split; reflexivity.
    + destruct A3 as (-> & A5). right. right. exists u. split; [reflexivity|]. split; [reflexivity|exact A1].
Qed.

Lemma arrivals_app evs1 evs2 : arrivals (evs1 ++ evs2) = arrivals evs1 ++ arrivals evs2.
Proof. induction evs1 as [|[|a] evs1 IH]; cbn [arrivals app]; [reflexivity|exact IH|]. rewrite IH. apply app_assoc. Qed.
Lemma stuck_object evs u x : exists x', object_run obj evs (AUb u, x) = (AUb u, x').
Proof. revert x. induction evs as [|[|a] evs IH]; intros x; cbn [object_run object_tick fst snd]; [now exists x|apply IH|apply IH]. Qed.
Lemma stuck_run react evs u c : exists c', run react evs (AUb u, c) = (AUb u, c').
Proof. revert c. induction evs as [|[|a] evs IH]; intros c; cbn [run tick fst snd]; [now exists c|apply IH|apply IH]. Qed.

Lemma told_run : forall evs s c x st y, pending s c x -> object_run obj evs (s, x) = (st, y) ->
  (exists c', run (fun _ _ => []) evs (s, c) = (st, c') /\ ((exists u, st = AUb u) \/ pending st c' y)) \/
  exists evs1 evs2 s' c' z, evs = evs1 ++ evs2 /\ run (fun _ _ => []) evs1 (s, c) = (s', c') /\ object_run obj evs1 (s, x) = (ARun, z) /\ back s' c' (ARun, z).
Proof.
  induction evs as [|[|a] evs IH]; intros s c x st y Hp E; cbn [object_run run] in *.
  - injection E as <- <-. left. exists c. split; [reflexivity|right; exact Hp].
  - assert (Et : object_tick obj (s, x) = object_step obj x) by (destruct Hp as ([-> | ->] & _); reflexivity).
    assert (Er : tick (fun _ _ => []) (s, c) = step (fun _ _ => []) c) by (destruct Hp as ([-> | ->] & _); reflexivity).
    rewrite Et in E. rewrite Er. pose proof (pending_step s c x Hp) as H. cbv zeta in H.
    destruct (object_step obj x) as [s2 x2] eqn:Eo. destruct (step _ c) as [s1 c1] eqn:Ec. cbn [fst snd] in H.
    destruct H as [[-> H]|[H|(u & -> & -> & H)]].
    + destruct (IH _ _ _ _ _ H E) as [H1|(evs1 & evs2 & s' & c' & z & -> & H1 & H2 & H3)]; [left; exact H1|].
      right. exists (Tick :: evs1), evs2, s', c', z. cbn [object_run run app]. rewrite Et, Er. auto.
    + pose proof H as H'. destruct H as (H1 & _). cbn [fst] in H1. subst s2. right. exists [Tick], evs, s1, c1, x2. cbn [object_run run app]. rewrite Et, Er. auto.
    + left. destruct (stuck_object evs u x2) as [x' Hx]. rewrite Hx in E. injection E as <- <-. destruct (stuck_run (fun _ _ => []) evs u c1) as [c' Hc].
      exists c'. split; [exact Hc|]. left. now exists u.
  - cbn [fst snd] in *. destruct Hp as (Hs & Hf & Hst & Hw & Hn & Hm).
    assert (Hp2 : pending s (arrive a c) (OConf (o_mem x) (o_now x) (arrive a (o_conf x)))).
    { unfold pending, arrive. cbn [o_conf o_now o_mem c_stack c_world]. rewrite Hw. auto 10. }
    destruct (IH _ _ _ _ _ Hp2 E) as [H1|(evs1 & evs2 & s' & c' & z & -> & H1 & H2 & H3)]; [left; exact H1|].
    right. exists (Arrive a :: evs1), evs2, s', c', z. cbn [object_run run app fst snd]. auto.
Qed.
End Told.

(** A callback's coroutine has asked for a send. Until it runs again, a beginning of the frame is on the wire; when it does, it is told that the
    send succeeded if all of the frame is on the wire, and that it failed if not. *)
Theorem C100_told : forall S (obj : object S) op k s h sh fr K w evs st x,
  s_listening (w_sock w) = false -> io_only (w_in w) -> io_only (arrivals evs) -> lenN (req_payload op) < 2 ^ 31 ->
  object_run obj evs (ARun, OConf s (Some (Asked k)) (Conf h sh (start_send op :: CoCatch :: CoUser [] fr :: K) w)) = (st, x) ->
  let frame := sent_wire (next_key_opt w) op in
  ((st = ARun \/ st = AWait) /\ (exists us, Forall sending us /\ c_stack (o_conf x) = us ++ CoCatch :: CoUser [] fr :: K) /\ o_mem x = s /\
   exists p, w_out (c_world (o_conf x)) = w_out w ++ p /\ prefix p frame) \/
  exists evs1 evs2 x1 a p, evs = evs1 ++ evs2 /\
    object_run obj evs1 (ARun, OConf s (Some (Asked k)) (Conf h sh (start_send op :: CoCatch :: CoUser [] fr :: K) w)) = (ARun, x1) /\
    c_stack (o_conf x1) = CoUser [] fr :: K /\ o_mem x1 = s /\ told_now (o_now x1) = k a /\
    w_out (c_world (o_conf x1)) = w_out w ++ p /\ prefix p frame /\ (a = Done <-> p = frame).
Proof.
  intros S obj op k s h sh fr K w evs st x Hl Hio Har Hlen E frame.
  assert (Hlen2 : lenN (req_payload op) < 2 ^ 63) by (eapply N.lt_trans; [exact Hlen|reflexivity]).
  assert (Hp : pending k s fr K ARun (start_sending op w) (OConf s (Some (Asked k)) (Conf h sh (start_send op :: CoCatch :: CoUser [] fr :: K) w))).
  { unfold pending, start_sending. cbn [o_conf o_now o_mem c_stack c_world app]. split; [now left|]. split; [|auto].
    constructor; [|constructor]. unfold start_send. destruct (send_args op) as [[? ?] ?]. exact I. }
  destruct (told_run obj k s fr K _ _ _ _ _ _ Hp E) as [(c' & H1 & H2)|(evs1 & evs2 & s' & c' & z & -> & H1 & H2 & H3)].
  - destruct H2 as [[u ->]|(G1 & G2 & G3 & G4 & G5 & G6)].
    + exfalso. destruct (send_reporting op (give w (arrivals evs))) as [o w'] eqn:ES.
      pose proof (C29_any_schedule _ _ _ _ _ _ _ _ Hl Hio Har H1 ES) as [He _]. cbn in He. destruct o as [[]| | |u'|]; try contradiction. subst u'.
      assert (Esend : send op (give w (arrivals evs)) = (Ub u, w')).
      { destruct op as [fin k' m|code m| |m|m|m|m]; cbn [send_reporting] in ES.
        { cbn [send]. unfold bind. rewrite ES. reflexivity. }
        all: unfold bind, ret in ES; match type of ES with context [send ?opp ?ww] => destruct (send opp ww) as [o1 w1] end; destruct o1; congruence. }
      apply send_spec in Esend; [|exact Hlen2]. destruct Esend as (_ & _ & _ & _ & _ & Hu & _). destruct (Hu u eq_refl) as (_ & _ & Hbig). lia.
    + left. split; [exact G1|]. split; [exists (c_stack c'); auto|]. split; [exact G6|].
      destruct (C29_frame_on_the_wire _ _ _ _ _ _ Hl Hio Har Hlen2 H1) as (p & P1 & P2 & _). exists p. rewrite G4. auto.
  - right. rewrite arrivals_app in Har. unfold io_only, SpecFrame.script_ok in Har. apply Forall_app in Har.
    assert (Har1 : io_only (arrivals evs1)) by exact (proj1 Har).
    destruct (C29_frame_on_the_wire _ _ _ _ _ _ Hl Hio Har1 Hlen2 H1) as (p & P1 & P2 & P3 & P4).
    destruct H3 as (_ & B1 & B2 & B3 & B4). cbn [snd] in *. rewrite <- B2 in P1.
    destruct B4 as [[-> B4]|(e & -> & B4)].
    + exists evs1, evs2, z, Done, p. repeat (split; [auto; fail|]). split; auto.
    + exists evs1, evs2, z, Raised, p. repeat (split; [auto; fail|]). split; [discriminate|]. intros Hq. destruct (P4 e eq_refl Hq).
Qed.
Print Assumptions C100_told.

(** An object that counts the sends it is told have succeeded, and those it is told have failed. *)
Definition counting : object (nat * nat) := fun _ _ =>
  Do (ASend (SoText (Some [x68]))) (fun a => Load (fun s => Store (match a with Done => (Datatypes.S (fst s), snd s) | _ => (fst s, Datatypes.S (snd s)) end) Finish)).
Definition counting_world (wr : list wev) : world :=
  World [RData x82 [x01; x01]] wr [] (fun _ => x00) 0 [] (Sock false 1 (Some 0%nat) (-1) false).
Definition counted (wr : list wev) : nat * nat := o_mem (snd (object_run counting (repeat Tick 80) (ARun, object_start (0, 0)%nat (counting_world wr)))).
Example C100_told_nonvacuous :
  counted [] = (2, 0)%nat /\ counted [WAccept 1; WIo IoBroken] = (1, 1)%nat /\ counted [WIo IoBroken; WIo IoBroken] = (0, 2)%nat /\
  (let w := counting_world [WAccept 1; WIo IoBroken] in
   let start := OConf (0, 0)%nat (Some (Asked (fun a => Store (match a with Done => (1, 0)%nat | _ => (0, 1)%nat end) Finish)))
                  (Conf header_init [] [start_send (SoText (Some [x68])); CoCatch; CoUser [] false] w) in
   (exists x, object_run counting (repeat Tick 3) (ARun, start) = (ARun, x) /\ c_stack (o_conf x) = [CoUser [] false] /\ w_out (c_world (o_conf x)) = [x81]) /\
   o_mem (snd (object_run counting (repeat Tick 4) (ARun, start))) = (0, 1)%nat).
Proof. split; [vm_compute; reflexivity|]. split; [vm_compute; reflexivity|]. split; [vm_compute; reflexivity|]. split; [eexists; vm_compute; repeat split|vm_compute; reflexivity]. Qed.
