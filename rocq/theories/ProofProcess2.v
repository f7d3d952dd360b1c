(** Each thread of the interleaved system (Process.v) behaves as on its own (Threads.v), with the answers of the connection it got,
    the random bytes it drew, and the calls other threads made between its accesses. *)
From Verif Require Import Bytes Frame World WebSocket AsyncWebSocket SpecFrame SpecSend SpecListen SpecApi SpecConfig SpecAsync Threads SpecThreads
  Concurrent SpecConcurrent Process ProofFrame ProofStream ProofSend ProofHeader ProofListen ProofInv ProofAsync ProofThreads ProofConcurrent ProofProcess.
From Coq Require Import ZifyBool ZifyNat ZifyN.
Local Open Scope N_scope.
Local Arguments takeN : simpl never.
Local Arguments dropN : simpl never.
Local Arguments lenN : simpl never.
Local Arguments be_enc : simpl never.
Local Arguments be_dec : simpl never.
Local Arguments packHeaderBits : simpl never.

Definition apply_all (xs : list ext) (k : sock) : sock := fold_left (fun k x => apply_ext x k) xs k.
Lemma apply_all_app a b k : apply_all (a ++ b) k = apply_all b (apply_all a k).
Proof. unfold apply_all. apply fold_left_app. Qed.
Lemma apply_all_last xs k z : apply_all xs (set_last k z) = set_last (apply_all xs k) z.
Proof. revert k. unfold apply_all. induction xs as [|x xs IH]; intros k; [reflexivity|]. cbn [fold_left]. rewrite <- IH. f_equal. now destruct x. Qed.
Lemma apply_all_stop xs k : apply_all xs (set_listening k false) = set_listening (apply_all xs k) false.
Proof. revert k. unfold apply_all. induction xs as [|x xs IH]; intros k; [reflexivity|]. cbn [fold_left]. rewrite <- IH. f_equal. now destruct x. Qed.
Lemma apply_all_keeps_last xs k : s_last (apply_all xs k) = s_last k.
Proof. apply apply_exts_last. Qed.
Lemma shf_apply x k : shf_of (apply_ext x k) = apply_shf x (shf_of k).
Proof. now destruct x. Qed.

(** Two views of the shared fields: the same, or ([lis] = false) the same up to m_listening. *)
Definition agree (lis : bool) (a b : shf) : Prop :=
  k_mask a = k_mask b /\ k_buf a = k_buf b /\ k_listener a = k_listener b /\ (lis = true -> k_listening a = k_listening b).
Lemma agree_refl lis a : agree lis a a.
Proof. repeat split. Qed.
Lemma agree_eq a b : agree true a b -> a = b.
Proof. destruct a, b. intros (H1 & H2 & H3 & H4). cbn in *. rewrite H1, H2, H3, H4; reflexivity. Qed.
Lemma agree_ext lis x a b : agree lis a b -> agree lis (apply_shf x a) (apply_shf x b).
Proof. intros (H1 & H2 & H3 & H4). destruct x; repeat split; cbn; auto. Qed.

(** Programs that make only [ok] calls; [lis]: that may look at m_listening; [bg]: that may begin to listen; [hh]: if every write succeeds. *)
Section Ok.
Variable ok : ext -> Prop.
Variables lis bg : bool.
Variable hh : Prop.
Fixpoint pok {A} (p : prog A) : Prop :=
  match p with
  | PDone _ => True
  | PAtom u k => (forall v, prefix (v_log v) (v_log (u v))) /\ forall v, pok (k v)
  | PAcc k => (forall a b, agree lis a b -> k a = k b) /\ forall s, pok (k s)
  | PExt x k => ok x /\ pok k
  | PBegin k => bg = true /\ pok k
  | PStop k => ok XStop /\ pok k
  | PRand n k => forall b, pok (k b)
  | PWrite d got k => forall n, (hh -> n = got + lenN d) -> pok (k n)
  | PMark _ k => pok k
  end.
Lemma pok_bind {A B} (p : prog A) (f : A -> prog B) : pok p -> (forall a, pok (f a)) -> pok (pbind p f).
Proof.
  intros Hp Hf. induction p as [o|u k IH|k IH|x k IH|k IH|k IH|n k IH|d got k IH|e k IH]; cbn [pbind pok] in *.
  - destruct o; [apply Hf|exact Logic.I..].
  - split; [apply Hp|]. intros v. apply IH, Hp.
  - split; [intros a b Hab; f_equal; now apply Hp|]. intros s. apply IH, Hp.
  - split; [apply Hp|apply IH, Hp].
  - split; [apply Hp|apply IH, Hp].
  - split; [apply Hp|apply IH, Hp].
  - intros b. apply IH, Hp.
  - intros n Hn. apply IH, Hp, Hn.
  - apply IH, Hp.
Qed.
Lemma pok_try (p : prog unit) : pok p -> pok (ptry p).
Proof.
  intros Hp. induction p as [o|u k IH|k IH|x k IH|k IH|k IH|n k IH|d got k IH|e k IH]; cbn [ptry pok] in *.
  - destruct o; exact Logic.I.
  - split; [apply Hp|]. intros v. apply IH, Hp.
  - split; [intros a b Hab; f_equal; now apply Hp|]. intros s. apply IH, Hp.
  - split; [apply Hp|apply IH, Hp].
  - split; [apply Hp|apply IH, Hp].
  - split; [apply Hp|apply IH, Hp].
  - intros b. apply IH, Hp.
  - intros n Hn. apply IH, Hp, Hn.
  - apply IH, Hp.
Qed.

(** One step. *)
Lemma pok_step (p : prog unit) v g p' v' g' : pok p -> (hh -> healthy (g_wr g)) -> pstep p v g = Some (p', v', g') -> pok p' /\ (hh -> healthy (g_wr g')).
Proof.
  intros Hp Hh E. destruct p as [o|u k|k|x k|k|k|n k|d got k|e k]; cbn [pstep pok] in *; try discriminate.
  - injection E as <- <- <-. split; [apply Hp|exact Hh].
  - injection E as <- <- <-. split; [apply Hp|exact Hh].
  - injection E as <- <- <-. split; [apply Hp|exact Hh].
  - injection E as <- <- <-. split; [apply Hp|exact Hh].
  - injection E as <- <- <-. split; [apply Hp|exact Hh].
  - injection E as <- <- <-. split; [apply Hp|exact Hh].
  - destruct d as [|b d]; [injection E as <- <- <-; split; [apply Hp; intros _; rewrite lenN_nil; lia|exact Hh]|].
    destruct (g_wr g) as [|[n|[]|] q] eqn:Eq; try discriminate; injection E as <- <- <-.
    + split; [apply Hp; auto|]. intros _. constructor.
    + split; [|intros H; specialize (Hh H); cbn [g_wr]; now inversion Hh]. cbn [pok]. intros n' Hn'. apply Hp. intros H. rewrite (Hn' H).
      rewrite <- (take_drop (Npos n) (b :: d)) at 3. rewrite lenN_app. lia.
    + split; [exact Hp|]. intros H; specialize (Hh H); cbn [g_wr]; now inversion Hh.
    + split; [|intros H; specialize (Hh H); cbn [g_wr]; now inversion Hh]. apply Hp. intros H. specialize (Hh H). inversion Hh as [|? ? He]; subst. destruct He.
    + split; [|intros H; specialize (Hh H); cbn [g_wr]; now inversion Hh]. apply Hp. intros H. specialize (Hh H). inversion Hh as [|? ? He]; subst. destruct He.
  - injection E as <- <- <-. split; [apply Hp|exact Hh].
Qed.
End Ok.

(** * The view of one thread *)
Section View.
Variable ok : ext -> Prop.
Variable lis : bool.
Variable hh : Prop.
Variables (P0 : prog unit) (v0 : priv) (k0 : sock).
Definition alone (a : list wev) (C : list (list ext)) (fn : nat -> byte) : tworld :=
  TWorld (World (v_in v0) a [] fn 0 (v_log v0) k0) C [].
(** [own]: the bytes it has written so far, [r]: the random bytes it has drawn. *)
Definition view (p : prog unit) (v : priv) (f : shf) (own r : bytes) : Prop :=
  exists a C pend k tr,
    (forall q F fn, (forall n, (n < length r)%nat -> fn n = nth n r x00) ->
       interp P0 (alone (a ++ q) (C ++ F) fn) = interp p (TWorld (World (v_in v) q own fn (length r) (v_log v) k) F tr)) /\
    s_last k = v_last v /\ agree lis (shf_of (apply_all pend k)) f /\ Forall ok pend /\ others ok C /\ (hh -> healthy a).

Lemma view_start f : s_last k0 = v_last v0 -> agree lis (shf_of k0) f -> view P0 v0 f [] [].
Proof.
  intros H1 H2. exists [], [], [], k0, []. split; [intros; reflexivity|]. split; [exact H1|]. split; [exact H2|]. split; [constructor|]. split; constructor.
Qed.

Lemma view_other {A} lisj bgj (pj : prog A) vj g pj' vj' g' p v own r :
  pok ok lisj bgj hh pj -> (bgj = true -> lis = false) -> pstep pj vj g = Some (pj', vj', g') -> view p v (g_f g) own r -> view p v (g_f g') own r.
Proof.
  intros Hj Hb E (a & C & pend & k & tr & H1 & H2 & H3 & H4 & H5 & H6).
  assert (forall x, ok x -> view p v (apply_shf x (g_f g)) own r) as Hx.
  { intros x Hx. exists a, C, (pend ++ [x]), k, tr. split; [exact H1|]. split; [exact H2|]. split; [|split; [apply Forall_app; auto|auto]].
    rewrite apply_all_app. cbn [apply_all fold_left]. rewrite shf_apply. now apply agree_ext. }
  assert (view p v (g_f g) own r) as Hv by (exists a, C, pend, k, tr; auto 8).
  destruct pj as [o|u k1|k1|x k1|k1|k1|n k1|d got k1|e k1]; cbn [pstep pok] in *; try discriminate; try (injection E as <- <- <-; exact Hv).
  - injection E as <- <- <-. apply Hx, Hj.
  - injection E as <- <- <-. destruct Hj as [Hj _]. specialize (Hb Hj). exists a, C, pend, k, tr. split; [exact H1|]. split; [exact H2|]. split; [|auto].
    destruct H3 as (A1 & A2 & A3 & _). repeat split; auto. rewrite Hb. discriminate.
  - injection E as <- <- <-. apply (Hx XStop), Hj.
  - destruct d; [injection E as <- <- <-; exact Hv|]. destruct (g_wr g) as [|[n|[]|] q]; try discriminate; injection E as <- <- <-; exact Hv.
Qed.

(** A step draws the next bytes [dr] of the random source. *)
Definition drew (g g' : shared) (dr : bytes) : Prop :=
  g_rnd g' = g_rnd g /\ g_rpos g' = (g_rpos g + length dr)%nat /\ dr = map (g_rnd g) (seq (g_rpos g) (length dr)).
Lemma drew_none g g' : g_rnd g' = g_rnd g -> g_rpos g' = g_rpos g -> drew g g' [].
Proof. intros H1 H2. split; [exact H1|]. split; [rewrite H2; cbn; lia|reflexivity]. Qed.
Lemma view_own ok1 bg hh1 (p : prog unit) v g p' v' g' own r :
  pok ok1 lis bg hh1 p -> (hh -> healthy (g_wr g)) -> pstep p v g = Some (p', v', g') -> view p v (g_f g) own r ->
  exists d dr, g_out g' = g_out g ++ d /\ drew g g' dr /\ view p' v' (g_f g') (own ++ d) (r ++ dr).
Proof.
  intros Hp Hh E (a & C & pend & k & tr & H1 & H2 & H3 & H4 & H5 & H6).
  (* calls of other threads take effect *)
  assert (forall q F fn, (forall n, (n < length r)%nat -> fn n = nth n r x00) ->
    interp P0 (alone (a ++ q) ((C ++ [pend]) ++ F) fn) = interp p (TWorld (World (v_in v) q own fn (length r) (v_log v) k) (pend :: F) tr)) as H1'.
  { intros q F fn Hf. rewrite <- app_assoc. cbn [app]. now apply H1. }
  assert (others ok (C ++ [pend])) as H5' by (apply Forall_app; split; [exact H5|constructor; [exact H4|constructor]]).
  assert (s_last (apply_all pend k) = v_last v) as H2' by (rewrite apply_all_keeps_last; exact H2).
  destruct p as [o|u kk|kk|x kk|kk|kk|n kk|d got kk|e kk]; cbn [pstep pok] in *; try discriminate.
  - injection E as <- <- <-. exists [], []. rewrite !app_nil_r. split; [reflexivity|]. split; [apply drew_none; reflexivity|].
    exists a, C, pend, (set_last k (v_last (u v))), tr. split.
    { intros q F fn Hf. rewrite (H1 q F fn Hf). cbn [interp t_world t_calls t_trace on_world priv_of w_in w_log w_sock put_priv w_wr w_out w_rnd w_rpos].
      unfold on_world, priv_of, put_priv. cbn [t_world t_calls t_trace w_in w_log w_sock w_wr w_out w_rnd w_rpos]. rewrite H2. destruct v as [vi vl vz]. reflexivity. }
    split; [reflexivity|]. split; [|auto]. rewrite apply_all_last. exact H3.
  - injection E as <- <- <-. exists [], []. rewrite !app_nil_r. split; [reflexivity|]. split; [apply drew_none; reflexivity|].
    exists a, (C ++ [pend]), [], (apply_all pend k), (tr ++ map TOther pend). split.
    { intros q F fn Hf. rewrite (H1' q F fn Hf). cbn [interp interleave t_calls t_world t_trace snd set_sock w_sock w_in w_wr w_out w_rnd w_rpos w_log].
      destruct Hp as [Hp _]. unfold interleave. cbn [t_calls t_world t_trace snd set_sock w_sock w_in w_wr w_out w_rnd w_rpos w_log]. unfold apply_all in *. rewrite (Hp _ _ H3). reflexivity. }
    split; [exact H2'|]. split; [exact H3|]. split; [constructor|]. auto.
  - injection E as <- <- <-. exists [], []. rewrite !app_nil_r. split; [reflexivity|]. split; [apply drew_none; reflexivity|].
    exists a, (C ++ [pend]), [], (apply_ext x (apply_all pend k)), (tr ++ map TOther pend). split.
    { intros q F fn Hf. rewrite (H1' q F fn Hf). reflexivity. }
    split; [destruct x; exact H2'|]. split; [|split; [constructor|auto]]. cbn [apply_all fold_left]. rewrite shf_apply. cbn [set_f g_f]. now apply agree_ext.
  - injection E as <- <- <-. exists [], []. rewrite !app_nil_r. split; [reflexivity|]. split; [apply drew_none; reflexivity|].
    exists a, (C ++ [pend]), [], (set_listening (apply_all pend k) true), ((tr ++ map TOther pend) ++ [TListen]). split.
    { intros q F fn Hf. rewrite (H1' q F fn Hf). reflexivity. }
    split; [exact H2'|]. split; [|split; [constructor|auto]]. destruct H3 as (A1 & A2 & A3 & A4). repeat split; auto.
  - injection E as <- <- <-. exists [], []. rewrite !app_nil_r. split; [reflexivity|]. split; [apply drew_none; reflexivity|].
    exists a, C, pend, (set_listening k false), tr. split.
    { intros q F fn Hf. rewrite (H1 q F fn Hf). reflexivity. }
    split; [exact H2|]. split; [|auto]. rewrite apply_all_stop. apply (agree_ext lis XStop) in H3. exact H3.
  - injection E as <- <- <-. set (b := map (g_rnd g) (seq (g_rpos g) n)). assert (length b = n) as Hb by (unfold b; now rewrite map_length, seq_length).
    exists [], b. rewrite !app_nil_r. split; [reflexivity|]. split; [split; [reflexivity|split; [cbn [g_rpos]; now rewrite Hb|now rewrite Hb]]|].
    exists a, C, pend, k, tr. split; [|auto].
    intros q F fn Hf. rewrite (H1 q F fn).
    2: { intros m Hm. rewrite Hf by (rewrite app_length; lia). now apply app_nth1. }
    cbn [interp t_world t_calls t_trace w_rnd w_rpos]. unfold on_world, set_rpos. cbn [t_world t_calls t_trace w_in w_log w_sock w_wr w_out w_rnd w_rpos].
    rewrite app_length, Hb.
    assert (map fn (seq (length r) n) = b) as ->; [|reflexivity].
    apply nth_ext with (d := x00) (d' := x00); [now rewrite map_length, seq_length|]. rewrite map_length, seq_length. intros m Hm.
    rewrite (nth_indep (map fn (seq (length r) n)) x00 (fn O)) by (rewrite map_length, seq_length; exact Hm). rewrite map_nth, seq_nth by exact Hm.
    rewrite Hf by (rewrite app_length; lia). rewrite app_nth2 by lia. f_equal. lia.
  - destruct d as [|b d].
    { injection E as <- <- <-. exists [], []. rewrite !app_nil_r. split; [reflexivity|]. split; [apply drew_none; reflexivity|]. exists a, C, pend, k, tr. split; [|auto].
      intros q F fn Hf. rewrite (H1 q F fn Hf). assert (got + lenN (@nil byte) = got) as Hg by (rewrite lenN_nil; lia).
      cbn [interp t_world w_wr]. destruct q; cbn [writeExact_raw]; rewrite Hg; unfold on_world, set_wr; cbn [t_world t_calls t_trace w_in w_log w_sock w_wr w_out w_rnd w_rpos];
      rewrite app_nil_r; reflexivity. }
    (* one write: the answer [e], [n] bytes accepted *)
    assert (forall e d1 p1, (hh -> healthy_ev e) ->
      (forall q w F tc, w_wr w = e :: q -> interp (PWrite (b :: d) got kk) (TWorld w F tc) = interp p1 (TWorld (set_wr w (w_out w ++ d1) q) F tc)) ->
      view p1 v (g_f g) (own ++ d1) r) as HW.
    { intros e d1 p1 He Hi. exists (a ++ [e]), C, pend, k, tr. split.
      - intros q F fn Hf. rewrite <- app_assoc. cbn [app]. rewrite (H1 (e :: q) F fn Hf). now rewrite (Hi q) by reflexivity.
      - split; [exact H2|]. split; [exact H3|]. split; [exact H4|]. split; [exact H5|]. intros H. apply Forall_app. split; [exact (H6 H)|]. constructor; [exact (He H)|constructor]. }
    destruct (g_wr g) as [|[n|er|] q0] eqn:Eq.
    + injection E as <- <- <-. exists (b :: d), []. rewrite (app_nil_r r). split; [reflexivity|]. split; [apply drew_none; reflexivity|]. cbn [g_f].
      assert (exists n, Npos n = lenN (b :: d)) as [n Hn]. { destruct (lenN (b :: d)) as [|n] eqn:En; [rewrite lenN_cons in En; lia|eauto]. }
      apply (HW (WAccept n)); [intros _; exact Logic.I|]. intros q w F tc Hw. cbn [interp t_world]. rewrite Hw. cbn [writeExact_raw].
      rewrite Hn, takeN_all, dropN_all by lia. destruct q; cbn [writeExact_raw]; rewrite app_nil_r; reflexivity.
    + injection E as <- <- <-. exists (takeN (Npos n) (b :: d)), []. rewrite (app_nil_r r). split; [reflexivity|]. split; [apply drew_none; reflexivity|]. cbn [g_f].
      apply (HW (WAccept n)); [intros _; exact Logic.I|]. intros q w F tc Hw. cbn [interp t_world]. rewrite Hw. cbn [writeExact_raw].
      destruct (writeExact_raw (dropN (Npos n) (b :: d)) q) as [[rr a1] q1] eqn:Er. cbn [set_wr w_wr w_out]. rewrite Er.
      assert (lenN (takeN (Npos n) (b :: d) ++ a1) = lenN (takeN (Npos n) (b :: d)) + lenN a1) as -> by apply lenN_app.
      unfold on_world, set_wr. cbn [t_world t_calls t_trace w_in w_log w_sock w_wr w_out w_rnd w_rpos]. rewrite app_assoc, N.add_assoc. destruct rr; reflexivity.
    + assert (er = IoRetry \/ er <> IoRetry) as [->|Hne] by (destruct er; auto; right; discriminate).
      * injection E as <- <- <-. exists [], []. rewrite (app_nil_r r), app_nil_r. split; [reflexivity|]. split; [apply drew_none; reflexivity|]. cbn [g_f].
        apply (HW (WIo IoRetry)); [intros _; exact Logic.I|]. intros q w F tc Hw. cbn [interp t_world]. rewrite Hw. cbn [writeExact_raw].
        rewrite app_nil_r. cbn [set_wr w_wr w_out]. reflexivity.
      * assert (E' : Some (kk got, v, Shared q0 (g_out g) (g_rnd g) (g_rpos g) (g_f g)) = Some (p', v', g')) by (destruct er; congruence).
        injection E' as <- <- <-. exists [], []. rewrite (app_nil_r r), app_nil_r. split; [reflexivity|]. split; [apply drew_none; reflexivity|]. cbn [g_f].
        apply (HW (WIo er)). { intros H. specialize (Hh H). now inversion Hh. }
        intros q w F tc Hw. cbn [interp t_world]. rewrite Hw. cbn [writeExact_raw].
        assert (got + lenN (@nil byte) = got) as Hg by (rewrite lenN_nil; lia).
        rewrite app_nil_r. unfold on_world. cbn [t_world t_calls t_trace]. destruct er; [congruence| |]; rewrite Hg, app_nil_r; reflexivity.
    + discriminate.
  - injection E as <- <- <-. exists [], []. rewrite !app_nil_r. split; [reflexivity|]. split; [apply drew_none; reflexivity|].
    exists a, C, pend, k, (tr ++ [e]). split; [|auto]. intros q F fn Hf. rewrite (H1 q F fn Hf). reflexivity.
Qed.
End View.
