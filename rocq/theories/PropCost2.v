(** C82, C83, continued: memory and work of all coroutines on one asynchronous socket. *)
From Verif Require Import Bytes Frame World WebSocket AsyncWebSocket SpecFrame SpecAsync SpecCost Coroutines SpecCoroutines ProofCoroutines4 PropBound PropBound2 PropCost PropAsyncClose.
From Coq Require Import ZifyBool ZifyNat ZifyN.
Local Open Scope N_scope.
Local Arguments takeN : simpl never.
Local Arguments dropN : simpl never.
Local Arguments lenN : simpl never.

Definition on (i : nat) (s : crowd_t) : conf := Conf (k_hdr (fst s i)) (k_short (fst s i)) (k_stack (fst s i)) (snd s).

Lemma sum_update (f g : nat -> nat) i n : (i < n)%nat -> (forall j, j <> i -> g j = f j) ->
  (list_sum (map g (seq 0 n)) + f i = list_sum (map f (seq 0 n)) + g i)%nat.
Proof.
  intros Hi Hg. induction n as [|n IH]; [lia|]. rewrite seq_S, !map_app, !list_sum_app. cbn [map plus list_sum fold_right].
  destruct (Nat.eq_dec i n) as [->|Hn].
  - assert (map g (seq 0 n) = map f (seq 0 n)) as ->; [|lia].
    apply map_ext_in. intros j Hj. apply in_seq in Hj. apply Hg. lia.
  - rewrite (Hg n) by lia. specialize (IH ltac:(lia)). lia.
Qed.

Section Crowd.
Variable react : react_t.
Variable B : Z.
Variable bounded : Prop.
Hypothesis Hreact : bounded -> forall l log, Forall (cfg_cmd B) (react l log).

Definition crowd_inv (s : crowd_t) : Prop :=
  inv B bounded (on 0 s) /\ forall i, i <> 0%nat -> code B bounded (k_stack (fst s i)) /\ k_short (fst s i) = [].

(** One call of a method of another coroutine. *)
Lemma other_step h us w x : code B bounded us -> cfg_world B bounded w -> step react (Conf h [] us w) = x ->
  w_in (c_world (snd x)) = w_in w /\ w_log (c_world (snd x)) = w_log w /\ cfg_world B bounded (c_world (snd x)) /\ c_short (snd x) = [] /\
  code B bounded (c_stack (snd x)) /\
  (length (w_wr (c_world (snd x))) + wts (c_stack (snd x)) + (match fst x with ARun => 1 | _ => 0 end) <= length (w_wr w) + wts us)%nat.
Proof.
  intros Hu Hw <-. destruct us as [|co us].
  - cbn [AsyncWebSocket.step fst snd c_world c_short c_stack]. split; [reflexivity|]. split; [reflexivity|]. split; [exact Hw|]. split; [reflexivity|]. split; [exact Hu|]. lia.
  - pose proof (code_step react B bounded h [] co us [] w Hu (rv_nil _ _ _ _) Hw) as G. rewrite app_nil_r in G. fold step.
    destruct G as (G1 & G2 & G3 & G4 & G5 & G6). split; [exact G1|]. split; [exact G2|]. split; [exact G3|]. split; [exact G4|].
    destruct G6 as [[E G6]|(us' & E & G6 & _ & G7)]; rewrite E.
    + split; [constructor|]. change (wts []) with 0%nat. destruct (fst _); try lia. now destruct G6.
    + rewrite app_nil_r. split; [exact G6|exact G7].
Qed.

Definition kpot (n : nat) (s : crowd_t) : nat :=
  length (w_wr (snd s)) + list_sum (map (fun i => wts (k_stack (fst s i))) (seq 0 n)) + 16 * amount (w_in (snd s)) + rank (k_stack (fst s 0%nat)).

Definition kfine (n : nat) (s s' : crowd_t) (b : nat) : Prop :=
  crowd_inv s' /\ exists new, notified s' = notified s ++ new /\ (kpot n s' + b <= kpot n s + chores react (notified s) new)%nat.

Lemma kfine_same n s s' : crowd_inv s -> (forall i, fst s' i = fst s i) -> snd s' = snd s -> kfine n s s' 0.
Proof.
  intros [H1 H2] E1 E2. split.
  - unfold crowd_inv, on. rewrite !E1, E2. split; [exact H1|]. intros i Hi. rewrite E1. now apply H2.
  - exists []. unfold notified, kpot. rewrite E1, E2, app_nil_r. split; [reflexivity|]. cbn [chores].
    rewrite (map_ext (fun i => wts (k_stack (fst s' i))) (fun i => wts (k_stack (fst s i)))); [lia|]. intros i. now rewrite E1.
Qed.

Lemma tick_fine n i s : crowd_inv s -> (i < n)%nat ->
  kfine n s (kstep react (CTick i) s) (match status_of (kstep react (CTick i) s) i with ARun => 1 | _ => 0 end).
Proof.
  intros Hs Hi. cbn [kstep]. destruct (ktick react (fst s i) (snd s)) as [k w] eqn:E. unfold status_of. cbn [fst]. rewrite Nat.eqb_refl.
  unfold ktick, tick in E.
  assert (Hsame : k = fst s i -> w = snd s -> kfine n s (fun j => if Nat.eqb j i then k else fst s j, w) 0).
  { intros -> ->. apply kfine_same; [exact Hs| |reflexivity]. intros j. cbn [fst]. destruct (Nat.eqb_spec j i) as [->|]; reflexivity. }
  assert (Hstep : (let (st, c) := step react (on i s) in (Task st (c_hdr c) (c_short c) (c_stack c), c_world c)) = (k, w) ->
    kfine n s (fun j => if Nat.eqb j i then k else fst s j, w) (match k_status k with ARun => 1 | _ => 0 end)).
  { clear E Hsame. destruct (step react (on i s)) as [st c] eqn:Es. intros [= <- <-]. cbn [k_status].
    destruct Hs as [H0 Ho]. destruct (Nat.eqb_spec i 0) as [->|Hn].
    - pose proof (step_fine react B bounded Hreact (on 0 s) H0) as [F1 (new & F2 & F3)]. fold step in F1, F2, F3. rewrite Es in F1, F2, F3. cbn [fst snd] in F1, F2, F3.
      split.
      + split; [unfold on; cbn [fst snd Nat.eqb k_hdr k_short k_stack]; now destruct c|]. intros [|j] Hj; [now destruct Hj|]. now apply Ho.
      + exists new. split; [exact F2|]. unfold kpot, pot, on in *. cbn [fst snd Nat.eqb k_stack c_world c_stack] in *.
        pose proof (sum_update (fun j => wts (k_stack (fst s j)))
          (fun j => wts (k_stack (if Nat.eqb j 0 then Task st (c_hdr c) (c_short c) (c_stack c) else fst s j))) 0 n Hi) as Hsum.
        cbn [Nat.eqb k_stack] in Hsum.
        assert (Hx : forall j : nat, j <> 0%nat -> wts (k_stack (if Nat.eqb j 0 then Task st (c_hdr c) (c_short c) (c_stack c) else fst s j)) = wts (k_stack (fst s j))).
        { intros [|j] Hj; [now destruct Hj|reflexivity]. }
        specialize (Hsum Hx). unfold notified in *. cbn [fst snd] in *. lia.
    - destruct (Ho i Hn) as [Hc Hsh]. unfold on in Es. rewrite Hsh in Es.
      destruct (other_step _ _ _ _ Hc (proj1 (proj2 H0)) Es) as (G1 & G2 & G3 & G4 & G5 & G6). cbn [fst snd] in *. change (c_world (on 0 s)) with (snd s) in G1, G2, G6.
      split.
      + split.
        * destruct H0 as (A1 & A2 & A3). unfold on in *. cbn [fst snd]. destruct (Nat.eqb_spec 0 i) as [Hx|_]; [now destruct Hn|].
          split; [exact A1|]. split; [exact G3|exact A3].
        * intros j Hj. cbn [fst]. destruct (Nat.eqb_spec j i) as [->|]; [|now apply Ho]. cbn [k_stack k_short]. now split.
      + exists []. unfold notified. cbn [fst snd]. rewrite app_nil_r. split; [exact G2|]. cbn [chores]. unfold kpot. cbn [fst snd].
        destruct (Nat.eqb_spec 0 i) as [Hx|_]; [now destruct Hn|]. rewrite G1.
        pose proof (sum_update (fun j => wts (k_stack (fst s j)))
          (fun j => wts (k_stack (if Nat.eqb j i then Task st (c_hdr c) (c_short c) (c_stack c) else fst s j))) i n Hi) as Hsum.
        cbn beta in Hsum. rewrite Nat.eqb_refl in Hsum. cbn [k_stack] in Hsum.
        assert (Hx : forall j : nat, j <> i -> wts (k_stack (if Nat.eqb j i then Task st (c_hdr c) (c_short c) (c_stack c) else fst s j)) = wts (k_stack (fst s j))).
        { intros j Hj. destruct (Nat.eqb_spec j i); [now destruct Hj|reflexivity]. }
        specialize (Hsum Hx). lia. }
  unfold on in Hstep. destruct (k_status (fst s i)) eqn:Est; [exact (Hstep E)|exact (Hstep E)|..];
    injection E as <- <-; cbn [k_status]; apply Hsame; try reflexivity; destruct (fst s i); cbn in *; now rewrite Est.
Qed.

Lemma krun_fine n : forall evs s, (bounded -> Forall (cfg_ev B) (arrived evs)) -> first_n n evs -> crowd_inv s ->
  crowd_inv (krun react evs s) /\ exists new, notified (krun react evs s) = notified s ++ new /\
    (kpot n (krun react evs s) + kbusy react evs s <= kpot n s + 16 * amount (arrived evs) + chores react (notified s) new)%nat.
Proof.
  unfold krun. induction evs as [|[i|rs] evs IH]; intros s Ha Hn Hs; cbn [fold_left kbusy arrived] in *.
  - split; [exact Hs|]. exists []. rewrite app_nil_r. split; [reflexivity|]. cbn [chores amount]. lia.
  - inversion Hn as [|? ? Hi Hn']; subst. destruct (tick_fine n i s Hs Hi) as [G1 (n1 & G2 & G3)].
    destruct (IH (kstep react (CTick i) s) Ha Hn' G1) as [I1 (n2 & I2 & I3)]. split; [exact I1|]. exists (n1 ++ n2).
    rewrite I2, G2, app_assoc. split; [reflexivity|]. rewrite chores_app. rewrite G2 in I3. lia.
  - inversion Hn as [|? ? _ Hn']; subst.
    assert (Hs' : crowd_inv (kstep react (CArrive rs) s)).
    { destruct Hs as [H1 H2]. split; [|exact H2]. pose proof (inv_arrive B bounded rs (on 0 s)) as H. unfold on in *. cbn [kstep fst snd].
      apply H; [|exact H1]. intros Hb. exact (proj1 (proj1 (Forall_app _ _ _) (Ha Hb))). }
    destruct (IH (kstep react (CArrive rs) s)) as [I1 (n2 & I2 & I3)]; [|exact Hn'|exact Hs'|].
    + intros Hb. exact (proj2 (proj1 (Forall_app _ _ _) (Ha Hb))).
    + split; [exact I1|]. exists n2. split; [exact I2|]. rewrite amount_app. unfold kpot, notified in *. cbn [kstep fst snd set_in w_in w_wr w_log] in *.
      rewrite amount_app in I3. lia.
Qed.
Lemma init_inv work w : cfg_world B bounded w -> (forall i, cfg_code B bounded (work i)) -> crowd_inv (crowd_init work w).
Proof.
  intros Hw Hc. split; [exact (start_inv B bounded w Hw)|]. intros [|i] Hi; [now destruct Hi|]. split; [|reflexivity].
  cbn [crowd_init fst k_stack]. apply (cd_user B bounded false), Hc.
Qed.
End Crowd.

Lemma first_n_ex evs : exists n, (0 < n)%nat /\ first_n n evs.
Proof.
  induction evs as [|[i|rs] evs (n & Hn & H)].
  - exists 1%nat. split; [lia|constructor].
  - exists (Nat.max n (Datatypes.S i)). split; [lia|]. constructor; [lia|]. eapply Forall_impl; [|exact H]. intros [j|]; [lia|auto].
  - exists n. split; [exact Hn|]. constructor; [exact Logic.I|exact H].
Qed.

(** C82 with other coroutines on the socket: the coroutine that listens keeps what it keeps when it is alone; the others keep no received byte and
    consist of at most four coroutines each. *)
Theorem C82_several_coroutines : forall react B work w evs,
  (forall l log, Forall (cfg_cmd B) (react l log)) -> (forall i, Forall (cfg_cmd B) (work i)) ->
  (s_buf (w_sock w) <= B)%Z -> Forall (cfg_ev B) (w_in w ++ arrived evs) ->
  let s := krun react evs (crowd_init work w) in
  (lenN (k_short (fst s 0%nat)) <= 125 /\ memory (on 0 s) <= 125 + N.max 8 (2 * Z.to_N B) /\ (length (k_stack (fst s 0%nat)) <= 7)%nat) /\
  forall i, i <> 0%nat -> memory (on i s) = 0 /\ (length (k_stack (fst s i)) <= 4)%nat.
Proof.
  intros react B work w evs Hr Hwk Hb Ha s. apply Forall_app in Ha as [Ha1 Ha2]. destruct (first_n_ex evs) as (n & _ & Hn).
  destruct (krun_fine react B True (fun _ => Hr) n evs (crowd_init work w) (fun _ => Ha2) Hn) as [[(H1 & H2 & us & K & H3 & H4 & H5) Ho] _].
  { apply init_inv; [intros _; auto|intros i _; apply Hwk]. }
  fold s in H1, H2, H3, H4, H5, Ho. split.
  - unfold on in *. cbn [c_short c_hdr c_stack c_world] in *.
    split; [exact H1|]. unfold memory. cbn [c_short c_stack]. rewrite H3, map_app, fold_add_app, app_length. destruct (code_kept _ _ _ H4) as [-> H6].
    assert (fold_right N.add 0 (map kept_bytes K) <= N.max 8 (2 * Z.to_N B) /\ (length K <= 3)%nat) as [H7 H8]; [|split; lia].
    destruct H5 as [| |p L Hp|L p|D us0 al pr pp L p Hp (P1 & P2 & _)]; cbn [map fold_right kept_bytes length]; (split; [|lia]); try lia.
    + destruct p; cbn [header_ok] in Hp; lia.
    + specialize (P1 Logic.I). destruct pp; lia.
  - intros i Hi. destruct (Ho i Hi) as [Hc Hsh]. unfold memory, on. cbn [c_short c_stack]. rewrite Hsh. destruct (code_kept _ _ _ Hc) as [-> H6].
    split; [reflexivity|exact H6].
Qed.
Print Assumptions C82_several_coroutines.

(** C83 for all coroutines of a socket: the bound of C83_work, and one call more and thirty for every command of the other coroutines' own code. *)
Theorem C83_several_coroutines : forall react work w n evs, first_n n evs -> (0 < n)%nat ->
  let s := krun react evs (crowd_init work w) in
  exists new, notified s = w_log w ++ new /\
  (kbusy react evs (crowd_init work w) + 16 * amount (w_in (snd s)) + length (w_wr (snd s)) <=
   16 * amount (w_in w ++ arrived evs) + 4 + length (w_wr w) + chores react (w_log w) new +
   list_sum (map (fun i => 1 + 30 * length (work i)) (seq 1 (n - 1))))%nat.
Proof.
  intros react work w n evs Hn Hp s.
  destruct (krun_fine react 0%Z False (fun x => match x with end) n evs (crowd_init work w) (fun x => match x with end) Hn) as [_ (new & H1 & H2)].
  { apply init_inv; [intros []|intros i []]. }
  exists new. split; [exact H1|]. fold s in H1, H2.
  assert (Hk : kpot n (crowd_init work w) = (length (w_wr w) + list_sum (map (fun i => 1 + 30 * length (work i)) (seq 1 (n - 1))) + 16 * amount (w_in w) + 4)%nat).
  { unfold kpot. cbn [crowd_init fst snd k_stack rank rk]. destruct n as [|n]; [lia|]. cbn [seq map list_sum fold_right]. change (wts [CoListen]) with 0%nat.
    replace (Datatypes.S n - 1)%nat with n by lia. cbn [plus].
    rewrite (map_ext_in (fun i => wts (k_stack match i with 0%nat => Task ARun (c_hdr (start_listen w)) [] [CoListen] | Datatypes.S _ => Task ARun header_init [] [CoUser (work i) false] end))
      (fun i => 1 + 30 * length (work i))%nat);
      [change (wts (k_stack (Task ARun (c_hdr (start_listen w)) [] [CoListen]))) with 0%nat; unfold list_sum; cbn [plus]; lia|].
    intros i Hi. apply in_seq in Hi. destruct i as [|i]; [lia|]. cbn [k_stack]. unfold wts. cbn [map wt list_sum fold_right]. lia. }
  rewrite Hk in H2. unfold kpot in H2. unfold notified in H2 at 1. cbn [crowd_init snd] in H2. rewrite amount_app. lia.
Qed.
Print Assumptions C83_several_coroutines.

(** If no callback consists of more than [k] commands: linear in what arrived and in the other coroutines' code. *)
Theorem C83_several_linear : forall react k work w n evs, (forall l log, (length (react l log) <= k)%nat) -> first_n n evs -> (0 < n)%nat ->
  (kbusy react evs (crowd_init work w) <= (17 + 30 * k) * amount (w_in w ++ arrived evs) + length (w_wr w) + 4 +
   list_sum (map (fun i => 1 + 30 * length (work i)) (seq 1 (n - 1))))%nat.
Proof.
  intros react k work w n evs Hk Hn Hp. destruct (C83_several_coroutines react work w n evs Hn Hp) as (new & H1 & H2).
  destruct (C66_coroutines react work w evs) as (new' & cns & G1 & G2 & G3 & _).
  assert (new' = new) as -> by (rewrite H1 in G1; apply app_inv_head in G1; congruence).
  pose proof (chores_le react k new Hk (w_log w)) as H3. pose proof (bytes_amount (w_in w ++ arrived evs)) as H4. rewrite G2, app_length in H4.
  assert (length new <= amount (w_in w ++ arrived evs))%nat as H5 by (unfold lenN in G3; lia).
  assert ((1 + 30 * k) * length new <= (1 + 30 * k) * amount (w_in w ++ arrived evs))%nat as H6 by (apply Nat.mul_le_mono_l, H5). lia.
Qed.
Print Assumptions C83_several_linear.

(** * A concrete case: two coroutines send, one of them reduces the read buffer, while the third listens (cost_react answers pings); 14 units of
    input take 75 method calls, the bound is 508. *)
Definition several_work (i : nat) : list cmd := match i with 1%nat => [CSend true (SoText (Some [x61; x62])); CSetConfig false 2%Z] | 2%nat => [CSend false (SoPing None)] | _ => [] end.
Definition several_evs : list cev :=
  concat (repeat [CTick 0; CTick 1; CTick 2] 3) ++ CArrive [RData x89 [x02; x61; x62; x82]] :: concat (repeat [CTick 0; CTick 0; CTick 1; CTick 2] 20) ++
  CArrive [RData x07 [x61; x62; x63; x64; x65]; RIo IoRetry] :: repeat (CTick 0) 60 ++ [CArrive [RData x66 [x67]]] ++ repeat (CTick 0) 40.
Definition several_world : world := World [] [WAccept 1; WIo IoRetry; WAccept 3] [] (fun _ => x00) 0 [] (Sock false 4 (Some 7%nat) (-1) false).
Example C83_several_nonvacuous :
  let s := krun cost_react several_evs (crowd_init several_work several_world) in
  first_n 3 several_evs /\ kbusy cost_react several_evs (crowd_init several_work several_world) = 75%nat /\ amount (arrived several_evs) = 14%nat /\
  map snd (notified s) = [EvPing [x61; x62]; EvMsg 2 [x61; x62; x63]; EvMsg 2 [x64; x65]; EvMsg 2 [x66; x67]; EvEnd 2] /\
  map (fun i => k_status (fst s i)) [0; 1; 2]%nat = [AWait; ADone; ADone] /\
  (16 * 14 + 4 + 3 + chores cost_react [] (notified s) + list_sum (map (fun i => 1 + 30 * length (several_work i)) (seq 1 2)) = 508)%nat.
Proof.
  split; [|vm_compute; repeat split].
  apply Forall_forall. intros e He. assert (H : forallb (fun e => match e with CTick i => Nat.ltb i 3 | _ => true end) several_evs = true) by (vm_compute; reflexivity).
  rewrite forallb_forall in H. specialize (H e He). destruct e; [now apply Nat.ltb_lt|exact Logic.I].
Qed.
Example C82_several_nonvacuous :
  (forall l log, Forall (cfg_cmd 4) (cost_react l log)) /\ (forall i, Forall (cfg_cmd 4) (several_work i)) /\ (s_buf (w_sock several_world) <= 4)%Z /\
  Forall (cfg_ev 4) (w_in several_world ++ arrived several_evs).
Proof.
  split; [|split; [|split]].
  - intros l log. unfold cost_react. destruct (last log _) as [k []]; repeat (apply Forall_cons || apply Forall_nil); cbn; try exact Logic.I; lia.
  - intros [|[|[|i]]]; cbn [several_work]; repeat (apply Forall_cons || apply Forall_nil); cbn; try exact Logic.I; lia.
  - cbn. lia.
  - vm_compute. repeat (apply Forall_cons || apply Forall_nil); exact Logic.I.
Qed.
