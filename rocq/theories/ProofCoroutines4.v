(** Coroutines in company make progress. *)
From Verif Require Import Bytes Frame World WebSocket AsyncWebSocket SpecFrame SpecSend SpecListen SpecApi SpecReply SpecAsync SpecThreads Concurrent SpecConcurrent
  SpecProcess Coroutines SpecCoroutines ProofFrame ProofStream ProofSend ProofConcurrent ProofAsync ProofAsync2 PropAsync2 PropProcess2
  ProofCoroutines ProofCoroutines2 ProofCoroutines3.
From Coq Require Import ZifyBool ZifyNat ZifyN.
Local Open Scope N_scope.
Local Arguments takeN : simpl never.
Local Arguments dropN : simpl never.
Local Arguments lenN : simpl never.
Local Arguments be_enc : simpl never.
Local Arguments be_dec : simpl never.
Local Arguments packHeaderBits : simpl never.
Local Arguments unpackHeaderBits : simpl never.
Notation step := AsyncWebSocket.step.

(** * What is left to do for application code *)
Definition nz (d : bytes) : nat := match d with [] => 0 | _ => 1 end.
Definition wt (co : cor) : nat :=
  match co with
  | CoUser cs _ => 1 + 30 * length cs
  | CoCatch => 1
  | CoSend _ _ _ _ p => match p with SfAct => 20 | SfPrepare => 4 | SfWrite d => 2 + nz d | SfFinish => 1 end
  | CoWrite _ p => match p with WfAct d => 9 + nz d | WfOnBb => 8 | WfWriteLen d => 6 + nz d | WfOnLen => 5 | WfWriteMask d => 3 + nz d end
  | _ => 0
  end.
Definition wts (st : list cor) : nat := list_sum (map wt st).
Lemma wts_cons co K : wts (co :: K) = (wt co + wts K)%nat.
Proof. reflexivity. Qed.
Lemma nz_le d : (nz d <= 1)%nat.
Proof. destruct d; cbn; lia. Qed.
Lemma unwind_wts st st' : unwind st = Some st' -> (wts st' <= wts st)%nat.
Proof.
  induction st as [|co st IH]; intros E; [discriminate|]. rewrite wts_cons. destruct co; cbn [unwind] in E; try (specialize (IH E); lia). injection E as <-. lia.
Qed.
Definition app_co (co : cor) : Prop := ~ listening_co co.
Lemma app_dec co : {app_co co} + {listening_co co}.
Proof. destruct co; first [right; exact Logic.I|left; intros []]. Defined.
Lemma suffix_refl {A} (l : list A) : suffix l l.
Proof. now exists []. Qed.
Lemma suffix_cons {A} x (l : list A) : suffix l (x :: l).
Proof. now exists [x]. Qed.

(** One write. *)
Lemma write_less d w r w' : writeExactAsyncInline d w = (r, w') ->
  suffix (w_wr w') (w_wr w) /\
  match r with
  | INext _ => d = [] /\ w' = w
  | IAgain d' => (length (w_wr w') < length (w_wr w))%nat \/ (w_wr w' = w_wr w /\ d <> [] /\ d' = [])
  | IWait => exists q, w_wr w = WBlock :: q
  | IFail => (length (w_wr w') < length (w_wr w))%nat
  end.
Proof.
  unfold writeExactAsyncInline. destruct d as [|b d]; [intros [= <- <-]; split; [apply suffix_refl|auto]|].
  destruct (w_wr w) as [|[n|[]|] q] eqn:E; intros H; assert (exists x, x = w') as [x Hx] by eauto; 
    first [injection H as <- <-|idtac]; cbn [set_wr w_wr]; rewrite ?E; cbn [length];
    (split; [first [apply suffix_refl|apply suffix_cons]|]); first [lia|left; lia|right; split; [reflexivity|split; [discriminate|reflexivity]]|eauto].
Qed.

Section Less.
Variable react : react_t.
Definition less (co : cor) (K : list cor) (w : world) (x : status * conf) : Prop :=
  suffix (w_wr (c_world (snd x))) (w_wr w) /\
  (~ going (fst x) \/ (exists q, w_wr w = WBlock :: q) \/ (length (w_wr (c_world (snd x))) < length (w_wr w))%nat \/
   (w_wr (c_world (snd x)) = w_wr w /\ (wts (c_stack (snd x)) < wts (co :: K))%nat)).
Lemma less_ret co K w st h s K' w' : w_wr w' = w_wr w -> (wts K' < wts (co :: K))%nat -> less co K w (st, Conf h s K' w').
Proof. intros H1 H2. split; cbn [fst snd c_world c_stack]; rewrite H1; [apply suffix_refl|]. auto. Qed.
Lemma less_fail co K w e h s w' : suffix (w_wr w') (w_wr w) -> (length (w_wr w') < length (w_wr w))%nat \/ (w_wr w' = w_wr w /\ (0 < wt co)%nat) -> less co K w (fail e (Conf h s K w')).
Proof.
  intros H1 H2. unfold fail. cbn [c_stack c_hdr c_short c_world]. destruct (unwind K) as [st|] eqn:E.
  - split; [exact H1|]. cbn [fst snd c_stack c_world]. right; right. destruct H2 as [H2|[H2 H3]]; [now left|right; split; [exact H2|]]. apply unwind_wts in E. rewrite wts_cons. lia.
  - split; [exact H1|]. left. intros [|]; discriminate.
Qed.
(** One write of a coroutine. *)
Lemma less_write co K w d st1 h s K1 K2 K3 :
  (forall d', (length d' <= 0)%nat -> d <> [] -> (wts (K2 d') < wts (co :: K))%nat) -> (d = [] -> (wts K1 < wts (co :: K))%nat) -> (0 < wt co)%nat ->
  less co K w
    match writeExactAsyncInline d w with
    | (INext _, w') => (ARun, Conf h s K1 w')
    | (IAgain d', w') => (ARun, Conf h s (K2 d') w')
    | (IWait, w') => (st1, Conf h s K3 w')
    | (IFail, w') => fail ExAsyncIO (Conf h s K w')
    end.
Proof.
  intros H2 H1 H0. destruct (writeExactAsyncInline d w) as [r w'] eqn:E. destruct (write_less _ _ _ _ E) as [Hs Hr]. destruct r as [d0|d0| |].
  - destruct Hr as [Hd ->]. apply less_ret; auto.
  - split; [exact Hs|]. cbn [fst snd c_world c_stack]. right; right. destruct Hr as [Hr|(Hr & Hd & ->)]; [now left|right]. split; [exact Hr|]. apply H2; [cbn; lia|exact Hd].
  - split; [exact Hs|]. right; left. exact Hr.
  - apply less_fail; auto.
Qed.
Lemma app_step hdr short co K w : app_co co -> less co K w (step react (Conf hdr short (co :: K) w)).
Proof.
  intros Ha. assert (forall b d, d <> [] -> ([] : bytes) = b -> (nz b < nz d)%nat) as Hnz by (intros b d Hd <-; destruct d; [congruence|cbn; lia]).
  assert (forall d', (length d' <= 0)%nat -> nz d' = 0%nat) as Hz by (intros [|? ?] H; [reflexivity|cbn in H; lia]).
  assert (forall d, d <> [] -> nz d = 1%nat) as Ho by (intros [|? ?] H; [congruence|reflexivity]).
  destruct co as [|p|l p|l u a g p|fin opcode m h p|h p|cs freed|]; try (exfalso; apply Ha; exact Logic.I); cbn [step].
  - destruct p as [| |d|]; cbn [step_send].
    + assert (forall len pc, (match pc with SfAct => 20 | SfPrepare => 4 | SfWrite d => 2 + nz d | SfFinish => 1 end <= 4)%nat -> less (CoSend fin opcode m h SfAct) K w
        match sendFrameHeaderAsync h fin opcode len w with (h', co, w') => (ARun, Conf hdr short (co :: CoSend fin opcode m h' pc :: K) w') end) as HS.
      { intros len pc Hpc. unfold sendFrameHeaderAsync. cbn [h_hasMask]. destruct (s_mask (w_sock w)); (apply less_ret; [reflexivity|]); rewrite !wts_cons; cbn [wt];
        (match goal with |- context [(9 + nz ?d)%nat] => pose proof (nz_le d) end); lia. }
      destruct m as [[|b m]|]; apply HS; cbn; lia.
    + destruct (h_hasMask h); [destruct (_ <=? _)|].
      * split; [apply suffix_refl|]. left. intros [|]; discriminate.
      * apply less_ret; [reflexivity|]. rewrite !wts_cons. cbn [wt]. (match goal with |- context [nz ?d] => pose proof (nz_le d) end). lia.
      * apply less_ret; [reflexivity|]. rewrite !wts_cons. cbn [wt]. (match goal with |- context [nz ?d] => pose proof (nz_le d) end). lia.
    + apply less_write; [intros d' Hd' Hd|intros Hd|]; rewrite ?wts_cons; cbn [wt]; rewrite ?(Hz d' Hd'), ?(Ho d Hd); lia.
    + apply less_ret; [reflexivity|]. rewrite wts_cons. cbn [wt]. lia.
  - destruct p as [d| |d| |d]; cbn [step_writeFrame].
    + apply less_write; [intros d' Hd' Hd|intros Hd|]; rewrite ?wts_cons; cbn [wt]; rewrite ?(Hz d' Hd'), ?(Ho d Hd); lia.
    + destruct (_ =? 2); [|destruct (_ =? 3)]; (apply less_ret; [reflexivity|]); rewrite !wts_cons; cbn [wt]; try (match goal with |- context [nz ?d] => pose proof (nz_le d) end); lia.
    + apply less_write; [intros d' Hd' Hd|intros Hd|]; rewrite ?wts_cons; cbn [wt]; rewrite ?(Hz d' Hd'), ?(Ho d Hd); lia.
    + destruct (h_hasMask h); (apply less_ret; [reflexivity|]); rewrite !wts_cons; cbn [wt]; try (match goal with |- context [nz ?d] => pose proof (nz_le d) end); lia.
    + apply less_write; [intros d' Hd' Hd|intros Hd|]; rewrite ?wts_cons; cbn [wt]; rewrite ?(Hz d' Hd'), ?(Ho d Hd); lia.
  - destruct cs as [|c cs]; cbn [step_user]; [apply less_ret; [reflexivity|]; rewrite wts_cons; cbn [wt]; lia|].
    assert (forall op, wt (start_send op) = 20%nat) as Hst by (intros op; unfold start_send; destruct (send_args op) as [[? ?] ?]; reflexivity).
    destruct c as [|l|mm b|catch op| | |fin opcode mm].
    1-3: (apply less_ret; [reflexivity|]); rewrite !wts_cons; cbn [wt length]; lia.
    + apply less_ret; [reflexivity|]. destruct catch; cbn [app]; rewrite !wts_cons, Hst; cbn [wt length]; lia.
    + destruct freed; [split; [apply suffix_refl|]; left; intros [|]; discriminate|]. apply less_ret; [reflexivity|]. rewrite !wts_cons. cbn [wt length]. lia.
    + apply less_fail; [apply suffix_refl|]. right. cbn [wt]. split; [reflexivity|lia].
    + apply less_ret; [reflexivity|]. rewrite !wts_cons, Hst. cbn [wt length]. lia.
  - apply less_ret; [reflexivity|]. rewrite wts_cons. cbn [wt]. lia.
Qed.
End Less.

(** * Fair schedules *)
Definition lex (a b : nat * nat * nat) : Prop :=
  (fst (fst a) < fst (fst b) \/ (fst (fst a) = fst (fst b) /\ (snd (fst a) < snd (fst b) \/ (snd (fst a) = snd (fst b) /\ snd a < snd b))))%nat.
Lemma lex_wf : well_founded lex.
Proof.
  intros [[x y] z]. revert y z. induction x as [x IHx] using lt_wf_ind. intros y. induction y as [y IHy] using lt_wf_ind. intros z. induction z as [z IHz] using lt_wf_ind.
  constructor. intros [[a b] c] H. unfold lex in H. cbn [fst snd] in H. destruct H as [H|[-> [H|[-> H]]]]; auto.
Qed.
Lemma krun_app react a b s : krun react (a ++ b) s = krun react b (krun react a s).
Proof. unfold krun. apply fold_left_app. Qed.
Lemma kafter_S react f n s : kafter react f (S n) s = kstep react (CTick (f n)) (kafter react f n s).
Proof. unfold kafter. rewrite seq_S, map_app, krun_app. reflexivity. Qed.
Section KFair.
Variable react : react_t.
Variable f : nat -> nat.
Hypothesis Hf : everybody f.
Variable s0 : crowd_t.
Variable i : nat.
Variable I : nat * nat * nat -> crowd_t -> Prop.
Variable G : crowd_t -> Prop.
Hypothesis Hothers : forall a s j, j <> i -> I a s -> exists a', (a' = a \/ lex a' a) /\ I a' (kstep react (CTick j) s).
Hypothesis Hself : forall a s, I a s -> G s \/ exists a', I a' (kstep react (CTick i) s) /\ (G (kstep react (CTick i) s) \/ lex a' a).
Lemma until_turn k : forall n a, (forall m, (n <= m < n + k)%nat -> f m <> i) -> I a (kafter react f n s0) -> exists a', (a' = a \/ lex a' a) /\ I a' (kafter react f (n + k) s0).
Proof.
  assert (forall x y z, lex x y -> lex y z -> lex x z) as HT by (intros [[? ?] ?] [[? ?] ?] [[? ?] ?]; unfold lex; cbn [fst snd]; lia).
  induction k as [|k IH]; intros n a Hn Ha; [rewrite Nat.add_0_r; eauto|].
  destruct (IH n a) as (a1 & H1 & H2); [intros m Hm; apply Hn; lia|exact Ha|]. rewrite Nat.add_succ_r, kafter_S.
  destruct (Hothers a1 (kafter react f (n + k) s0) (f (n + k)%nat)) as (a2 & H3 & H4); [apply Hn; lia|exact H2|]. exists a2. split; [|exact H4].
  destruct H1 as [-> |H1]; [exact H3|]. destruct H3 as [-> |H3]; eauto.
Qed.
Lemma comes_true a : forall n, I a (kafter react f n s0) -> exists m a', (n <= m)%nat /\ I a' (kafter react f m s0) /\ G (kafter react f m s0).
Proof.
  assert (forall x y z, lex x y -> lex y z -> lex x z) as HT by (intros [[? ?] ?] [[? ?] ?] [[? ?] ?]; unfold lex; cbn [fst snd]; lia).
  induction a as [a IH] using (well_founded_ind lex_wf). intros n Ha. destruct (first_from f Hf i n) as (m & H1 & H2 & H3).
  destruct (until_turn (m - n) n a) as (a1 & H4 & H5); [intros q Hq; apply H3; lia|exact Ha|]. replace (n + (m - n))%nat with m in H5 by lia.
  destruct (Hself _ _ H5) as [Hg|(a2 & H7 & [H6|H6])]; [eauto| |].
  { exists (S m), a2. split; [lia|]. rewrite kafter_S, H2. auto. }
  destruct (IH a2) with (n := S m) as (m' & a3 & G1 & G2 & G3); [destruct H4 as [-> |H4]; eauto|rewrite kafter_S, H2; exact H7|].
  exists m', a3. split; [lia|auto].
Qed.
End KFair.
Lemma others_same react j i s : j <> i -> fst (kstep react (CTick j) s) i = fst s i.
Proof.
  intros H. cbn [kstep]. destruct (ktick react (fst s j) (snd s)) as [k w]. cbn [fst]. destruct (Nat.eqb_spec i j); [congruence|reflexivity].
Qed.
Lemma own_step react i s : fst (kstep react (CTick i) s) i = fst (ktick react (fst s i) (snd s)) /\ snd (kstep react (CTick i) s) = snd (ktick react (fst s i) (snd s)).
Proof. cbn [kstep]. destruct (ktick react (fst s i) (snd s)) as [k w]. cbn [fst snd]. now rewrite Nat.eqb_refl. Qed.

(** Whatever is done, writes only use up what the connection has in store. *)
Lemma step_suffix react c : suffix (w_wr (c_world (snd (step react c)))) (w_wr (c_world c)).
Proof.
  destruct c as [hdr short st w]. destruct st as [|co K]; [apply suffix_refl|]. destruct (app_dec co) as [H|H]; [apply (app_step react hdr short co K w H)|].
  cbn [c_world]. assert (w_wr (c_world (snd (step react (Conf hdr short (co :: K) w)))) = w_wr w) as ->; [|apply suffix_refl].
  assert (forall e h s w', c_world (snd (fail e (Conf h s K w'))) = w') as HF by (intros e h s w'; unfold fail; cbn [c_stack]; destruct (unwind K); reflexivity).
  assert (forall n got, w_wr (snd (readExactAsyncInline n got w)) = w_wr w) as HE.
  { intros n got. unfold readExactAsyncInline. destruct (_ <=? _); [reflexivity|]. destruct (read_raw _ _ _) as [[[d|[]|] s'] k']; reflexivity. }
  assert (forall n, w_wr (snd (readSomeAsyncInline n w)) = w_wr w) as HE2.
  { intros n. unfold readSomeAsyncInline. destruct (_ <=? _)%Z; [reflexivity|]. destruct (read_raw _ _ _) as [[[d|[]|] s'] k']; reflexivity. }
  destruct co as [|p|l p|l u a g p|fin opcode m h p|h p|cs freed|]; cbn in H; try contradiction; cbn [step].
  - destruct (_ =? _); reflexivity.
  - destruct p as [got|bb|t0 got|t0 got|got]; cbn [step_readFrame].
    + specialize (HE 2 got). destruct (readExactAsyncInline 2 got w) as [[d|d| |] w']; rewrite ?HF; exact HE.
    + destruct (unpackHeaderBits _ _) as [h len]. destruct (_ <? _); [|destruct (_ =? _); [|destruct (_ =? _)]]; rewrite ?HF; reflexivity.
    + specialize (HE (if t0 =? 2 then 2 else 8) got). destruct (readExactAsyncInline _ got w) as [[d|d| |] w']; rewrite ?HF; exact HE.
    + destruct (h_hasMask _); reflexivity.
    + specialize (HE 4 got). destruct (readExactAsyncInline 4 got w) as [[d|d| |] w']; rewrite ?HF; exact HE.
  - assert (forall us nx sh w', w_wr w' = w_wr w -> w_wr (c_world (snd
      match readPayloadAsync hdr us w' with
      | inl e => fail e (Conf hdr sh K w')
      | inr co => (ARun, Conf hdr sh (co :: CoHandle l nx :: K) w')
      end)) = w_wr w) as HP by (intros us nx sh w' Hw; destruct (readPayloadAsync hdr us w'); rewrite ?HF; exact Hw).
    destruct p; cbn [step_handle].
    + assert (w_wr (c_world (snd (let (ok, w') := checkForContinuationA hdr w in
       if (ok : bool) then match readPayloadAsync hdr false w' with
                  | inl e => fail e (Conf hdr short K w')
                  | inr co => (ARun, Conf hdr short (co :: CoHandle l HfFinish :: K) w') end
       else fail ExContinuationExpected (Conf hdr short K w')))) = w_wr w) as HD
       by (unfold checkForContinuationA; destruct (_ || _)%bool; [rewrite HF; reflexivity|apply HP; reflexivity]).
      destruct (h_opcode hdr) as [|q].
      { destruct (_ <? 0)%Z; [rewrite HF; reflexivity|apply HP; reflexivity]. }
      do 4 (try (destruct q as [q|q|])); first [exact HD|apply HP; reflexivity|rewrite HF; reflexivity].
    + destruct l; reflexivity.
    + destruct l; reflexivity.
    + destruct l; reflexivity.
    + reflexivity.
  - destruct p as [|n|d|]; cbn [step_payload].
    + destruct (_ <? _)%Z; [reflexivity|]. destruct (_ && _)%bool; [|reflexivity]. destruct l; reflexivity.
    + specialize (HE2 n). destruct (readSomeAsyncInline n w) as [[d|d| |] w']; rewrite ?HF; [destruct (_ <? _)%Z|..]; exact HE2.
    + destruct d; [rewrite HF; reflexivity|]. destruct u; [reflexivity|]. destruct l; reflexivity.
    + reflexivity.
Qed.
Lemma ktick_suffix react k w : suffix (w_wr (snd (ktick react k w))) (w_wr w).
Proof.
  unfold ktick, tick. pose proof (step_suffix react (Conf (k_hdr k) (k_short k) (k_stack k) w)) as H.
  destruct (k_status k); try (destruct (step react _) as [st c]; exact H); apply suffix_refl.
Qed.
Lemma kstep_suffix react i s : suffix (w_wr (snd (kstep react (CTick i) s))) (w_wr (snd s)).
Proof. rewrite (proj2 (own_step react i s)). apply ktick_suffix. Qed.

(** A coroutine of application code only stays one. *)
Lemma unwind_app st st' : Forall app_co st -> unwind st = Some st' -> Forall app_co st'.
Proof.
  induction 1 as [|co st H Hs IH]; [discriminate|]. destruct co; cbn [unwind]; try exact IH. intros [= <-]. exact Hs.
Qed.
Lemma app_keeps react hdr short co K w : app_co co -> Forall app_co K -> Forall app_co (c_stack (snd (step react (Conf hdr short (co :: K) w)))).
Proof.
  intros Ha HK.
  assert (forall e h s w', Forall app_co (c_stack (snd (fail e (Conf h s K w'))))) as HF.
  { intros e h s w'. unfold fail. cbn [c_stack]. destruct (unwind K) eqn:E; [eapply unwind_app; eassumption|constructor]. }
  assert (forall h p, app_co (CoWrite h p)) as A1 by (intros h p []). assert (forall a b c d e, app_co (CoSend a b c d e)) as A2 by (intros a b c d e []).
  assert (forall a b, app_co (CoUser a b)) as A3 by (intros a b []). assert (app_co CoCatch) as A4 by (intros []).
  assert (forall op, app_co (start_send op)) as A5 by (intros op; unfold start_send; destruct (send_args op) as [[? ?] ?]; apply A2).
  destruct co as [|p|l p|l u a g p|fin opcode m h p|h p|cs freed|]; try (exfalso; apply Ha; exact Logic.I); cbn [step].
  - destruct p as [| |d|]; cbn [step_send].
    + destruct m as [[|b m]|]; unfold sendFrameHeaderAsync; cbn [h_hasMask]; destruct (s_mask (w_sock w)); cbn [snd c_stack]; auto.
    + destruct (h_hasMask h); [destruct (_ <=? _)|]; cbn [snd c_stack]; auto.
    + destruct (writeExactAsyncInline d w) as [[d1|d1| |] w']; rewrite ?HF; cbn [snd c_stack]; auto.
    + exact HK.
  - destruct p as [d| |d| |d]; cbn [step_writeFrame].
    + destruct (writeExactAsyncInline d w) as [[d1|d1| |] w']; rewrite ?HF; cbn [snd c_stack]; auto.
    + destruct (_ =? 2); [|destruct (_ =? 3)]; cbn [snd c_stack]; auto.
    + destruct (writeExactAsyncInline d w) as [[d1|d1| |] w']; rewrite ?HF; cbn [snd c_stack]; auto.
    + destruct (h_hasMask h); cbn [snd c_stack]; auto.
    + destruct (writeExactAsyncInline d w) as [[d1|d1| |] w']; rewrite ?HF; cbn [snd c_stack]; auto.
  - destruct cs as [|c cs]; cbn [step_user]; [exact HK|]. destruct c as [|l|mm b|catch op| | |fin opcode mm]; cbn [snd c_stack]; auto.
    + destruct catch; cbn [app]; auto.
    + destruct freed; cbn [snd c_stack]; auto.
  - exact HK.
Qed.

(** Such a coroutine comes to an end. *)
Definition app_only (i : nat) (s : crowd_t) : Prop := Forall app_co (k_stack (fst s i)).
Lemma app_only_step react i j s : app_only i s -> app_only i (kstep react (CTick j) s).
Proof.
  unfold app_only. intros H. destruct (Nat.eq_dec j i) as [->|Hj]; [|now rewrite others_same].
  rewrite (proj1 (own_step react i s)). unfold ktick. set (k := fst s i) in *. destruct (going_dec (k_status k)) as [Hg|Hg].
  - rewrite tick_going by exact Hg. destruct (k_stack k) as [|co K] eqn:E; [constructor|]. inversion H; subst.
    pose proof (app_keeps react (k_hdr k) (k_short k) co K (snd s)) as HX. destruct (step react _) as [st c]. apply HX; assumption.
  - change (Forall app_co (k_stack (fst (ktick react k (snd s))))). rewrite tick_stopped by exact Hg. exact H.
Qed.
Lemma app_moves react i s : app_only i s -> no_block (w_wr (snd s)) -> going (status_of s i) ->
  let s' := kstep react (CTick i) s in
  ~ going (status_of s' i) \/ (length (w_wr (snd s')) < length (w_wr (snd s)))%nat \/ (length (w_wr (snd s')) = length (w_wr (snd s)) /\ (wts (k_stack (fst s' i)) < wts (k_stack (fst s i)))%nat).
Proof.
  intros Ha Hb Hg s'. unfold s', status_of in *. rewrite (proj1 (own_step react i s)), (proj2 (own_step react i s)). unfold app_only in Ha. set (k := fst s i) in *.
  unfold ktick. rewrite tick_going by exact Hg. destruct (k_stack k) as [|co K] eqn:E.
  - left. cbn. intros [|]; discriminate.
  - inversion Ha as [|? ? Hco HK]; subst. destruct (app_step react (k_hdr k) (k_short k) co K (snd s) Hco) as [_ H]. destruct (step react _) as [st c]. cbn [fst snd k_status k_stack] in *.
    destruct H as [H|[[q H]|[H|[H H']]]]; auto.
    + exfalso. rewrite H in Hb. inversion Hb; subst. congruence.
    + right; right. now rewrite H.
Qed.
Lemma stays_ended react f s0 i n n' : ~ going (status_of (kafter react f n s0) i) -> (n <= n')%nat -> fst (kafter react f n' s0) i = fst (kafter react f n s0) i.
Proof.
  intros H. induction 1 as [|n' Hn IH]; [reflexivity|]. rewrite kafter_S. destruct (Nat.eq_dec (f n') i) as [E|Hne]; [|now rewrite others_same].
  rewrite E, (proj1 (own_step react i _)), IH. unfold status_of in H. now rewrite tick_stopped.
Qed.
Lemma app_ends react f i s0 : everybody f -> app_only i s0 -> no_block (w_wr (snd s0)) ->
  exists n, forall n', (n <= n')%nat -> ~ going (status_of (kafter react f n' s0) i).
Proof.
  intros Hf Ha Hb.
  destruct (comes_true react f Hf s0 i (fun a s => app_only i s /\ no_block (w_wr (snd s)) /\ a = (0%nat, length (w_wr (snd s)), wts (k_stack (fst s i)))) (fun s => ~ going (status_of s i)))
    with (a := (0%nat, length (w_wr (snd s0)), wts (k_stack (fst s0 i)))) (n := 0%nat) as (m & a & _ & _ & H).
  - intros a s j Hj (H1 & H2 & ->). eexists. split; [|split; [now apply app_only_step|split; [eapply suffix_block; [apply kstep_suffix|exact H2]|reflexivity]]].
    rewrite others_same by exact Hj. pose proof (suffix_len _ _ (kstep_suffix react j s)) as HL.
    destruct (Nat.eq_dec (length (w_wr (snd (kstep react (CTick j) s)))) (length (w_wr (snd s)))) as [->|]; [now left|]. right. unfold lex. cbn [fst snd]. lia.
  - intros a s (H1 & H2 & ->). destruct (going_dec (status_of s i)) as [Hg|Hg]; [|now left]. right.
    eexists. split; [split; [now apply app_only_step|split; [eapply suffix_block; [apply kstep_suffix|exact H2]|reflexivity]]|].
    destruct (app_moves react i s H1 H2 Hg) as [Hn|H]; [now left|right]. unfold lex. cbn [fst snd]. lia.
  - auto.
  - exists m. intros n' Hn'. unfold status_of. rewrite (stays_ended react f s0 i m n' H Hn'). exact H.
Qed.

(** The listening coroutine comes to the end the undisturbed one comes to. *)
Lemma inflight_top F left : inflight F left -> exists co F', F = co :: F' /\ app_co co.
Proof. intros H. destruct H; eexists _, _; (split; [reflexivity|]); intros []. Qed.
Lemma talking_top K cs freed v st : talking K cs freed v st -> exists co st', st = co :: st' /\ app_co co.
Proof.
  intros [b|op b H|F left b H].
  - destruct b; eexists _, _; (split; [reflexivity|]); intros [].
  - eexists _, _. split; [reflexivity|]. unfold start_send. destruct (send_args op) as [[? ?] ?]. intros [].
  - destruct (inflight_top _ _ H) as (co & F' & -> & Hc). eexists _, _. split; [reflexivity|exact Hc].
Qed.
Lemma ticks_S react n sa : run react (ticks (S n)) sa = run react (ticks n) (tick react sa).
Proof. reflexivity. Qed.
Lemma ticks_plus n m : ticks (n + m) = ticks n ++ ticks m.
Proof. induction n as [|n IH]; [reflexivity|]. cbn [ticks Nat.add app]. now rewrite IH. Qed.
Lemma ticks_end react n sa : run react (ticks (S n)) sa = tick react (run react (ticks n) sa).
Proof. replace (S n) with (n + 1)%nat by lia. rewrite ticks_plus, run_app. reflexivity. Qed.
Lemma ticks_fixed react n sa : tick react sa = sa -> run react (ticks n) sa = sa.
Proof. intros H. induction n as [|n IH]; [reflexivity|]. rewrite ticks_S, H. exact IH. Qed.

Section Ears.
Variable react : react_t.
Variable safe : Prop.
Hypothesis Hsmall : small_react react.
Hypothesis Hkind : forall l log, Forall kind_cmd (react l log).
Hypothesis Hsafe : forall l log, Forall (safe_cmd safe true) (react l log).
Variable w0 : world.
Variable f : nat -> nat.
Hypothesis Hf : everybody f.
Variable s0 : crowd_t.
Variables sa fin : status * conf.
Variable N0 : nat.
Hypothesis Hrun : run taking_notes (ticks N0) sa = fin.
Hypothesis Hfix : tick taking_notes fin = fin.
Notation in_step := (in_step react safe w0).

Lemma late j : (N0 <= j)%nat -> run taking_notes (ticks j) sa = fin.
Proof. intros H. replace j with (N0 + (j - N0))%nat by lia. rewrite ticks_plus, run_app, Hrun. now apply ticks_fixed. Qed.
Definition heard (s : crowd_t) : Prop := in_step s fin \/ ~ going (status_of s 0).
Lemma heard_stays s j : heard s -> heard (kstep react (CTick j) s).
Proof.
  intros [H|H].
  - left. destruct (any_tick react safe Hsmall Hkind Hsafe w0 s fin j H) as [n Hn]. rewrite ticks_fixed in Hn by exact Hfix. exact Hn.
  - right. unfold status_of in *. destruct (Nat.eq_dec j 0) as [->|Hj]; [|now rewrite others_same].
    rewrite (proj1 (own_step react 0 s)), tick_stopped by exact H. exact H.
Qed.
Lemma ears_end : in_step s0 sa -> no_block (w_wr (snd s0)) -> exists n, forall n', (n <= n')%nat -> heard (kafter react f n' s0).
Proof.
  intros Hi Hb.
  destruct (comes_true react f Hf s0 0%nat
    (fun a s => no_block (w_wr (snd s)) /\ exists j, in_step s (run taking_notes (ticks j) sa) /\ a = ((N0 - j)%nat, length (w_wr (snd s)), wts (k_stack (fst s 0%nat)))) heard)
    with (a := ((N0 - 0)%nat, length (w_wr (snd s0)), wts (k_stack (fst s0 0%nat)))) (n := 0%nat) as (m & a & _ & _ & H).
  - intros a s j Hj (H2 & q & H1 & ->). eexists. split; [|split; [eapply suffix_block; [apply kstep_suffix|exact H2]|exists q; split; [|reflexivity]; now apply outside_step]].
    rewrite others_same by exact Hj. pose proof (suffix_len _ _ (kstep_suffix react j s)) as HL.
    destruct (Nat.eq_dec (length (w_wr (snd (kstep react (CTick j) s)))) (length (w_wr (snd s)))) as [->|]; [now left|]. right. unfold lex. cbn [fst snd]. lia.
  - intros a s (H2 & q & H1 & ->). destruct (going_dec (status_of s 0)) as [Hg|Hg]; [|left; now right].
    destruct (le_lt_dec N0 q) as [Hq|Hq]; [left; left; rewrite late in H1 by exact Hq; exact H1|]. right.
    assert (no_block (w_wr (snd (kstep react (CTick 0) s)))) as Hb' by (eapply suffix_block; [apply kstep_suffix|exact H2]).
    pose proof H1 as (_ & _ & _ & _ & _ & [[Hn _]|(G1 & G2 & [(G3 & G4 & G5)|(K & G3 & G4 & G5 & G6)])]); [contradiction| |].
    + destruct (ears_step react safe Hsmall Hkind Hsafe w0 s _ H1 G3 Hg G1 G2 G4 G5) as [G|G]; rewrite <- !ticks_end in G; (eexists; split; [split; [exact Hb'|eexists; split; [exact G|reflexivity]]|]);
        right; unfold lex; cbn [fst snd]; lia.
    + eexists. split; [split; [exact Hb'|exists q; split; [|reflexivity]; eapply code_step; eassumption]|].
      destruct G5 as (_ & cs & freed & v & _ & Ht). destruct (talking_top _ _ _ _ _ Ht) as (co & st' & E & Hco).
      unfold heard, status_of. rewrite (proj1 (own_step react 0 s)), (proj2 (own_step react 0 s)). unfold ktick. set (k := fst s 0%nat) in *. rewrite tick_going by exact Hg. rewrite E.
      destruct (app_step react (k_hdr k) (k_short k) co st' (snd s) Hco) as [_ HL]. destruct (step react _) as [st c]. cbn [fst snd k_status k_stack] in *.
      destruct HL as [HL|[[r HL]|[HL|[HL HL']]]]; [left; right; exact HL| |right; unfold lex; cbn [fst snd]; lia|right; unfold lex; cbn [fst snd]; rewrite HL; lia].
      exfalso. rewrite HL in H2. inversion H2; subst. congruence.
  - split; [exact Hb|]. exists 0%nat. split; [exact Hi|reflexivity].
  - exists m. intros n' Hn'. induction Hn' as [|n' Hn' IH]; [exact H|]. rewrite kafter_S. now apply heard_stays.
Qed.
End Ears.
