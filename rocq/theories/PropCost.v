(** C82, C83: receiving needs bounded memory and work proportional to what was received. *)
From Verif Require Import Bytes Frame World WebSocket AsyncWebSocket SpecFrame SpecAsync SpecCost ProofFrame ProofStream ProofAsync2 ProofCoroutines ProofCoroutines4 PropBound.
From Coq Require Import ZifyBool ZifyNat ZifyN.
Local Open Scope N_scope.
Local Arguments takeN : simpl never.
Local Arguments dropN : simpl never.
Local Arguments lenN : simpl never.
Local Arguments be_enc : simpl never.
Local Arguments be_dec : simpl never.
Local Arguments packHeaderBits : simpl never.
Local Arguments unpackHeaderBits : simpl never.
Local Arguments xor_from : simpl never.
Notation step := AsyncWebSocket.step.

Lemma amount_app a b : amount (a ++ b) = (amount a + amount b)%nat.
Proof. induction a as [|[x xs|e|x] a IH]; cbn [app amount]; lia. Qed.
Lemma amount_unread d s : amount (unread d s) = (length d + amount s)%nat.
Proof. destruct d; reflexivity. Qed.

Lemma chores_app react log a b : chores react log (a ++ b) = (chores react log a + chores react (log ++ a) b)%nat.
Proof.
  revert log. induction a as [|e a IH]; intros log; cbn [app chores]; [now rewrite app_nil_r|]. rewrite IH, <- app_assoc. cbn [app]. lia.
Qed.

(** * How far the receiving coroutines are from the next read *)
Definition rk (co : cor) : nat :=
  match co with
  | CoListen => 4
  | CoReadFrame p =>
    match p with
    | RfAct g => if 2 <=? lenN g then 15 else 3
    | RfOnBb _ => 14
    | RfReadLen t g => if (if t =? 2 then 2 else 8) <=? lenN g then 13 else 1
    | RfOnLen _ _ => 12
    | RfReadMask g => if 4 <=? lenN g then 11 else 1
    end
  | CoHandle _ p => match p with HfAct => 10 | HfFinish => 5 | _ => 6 end
  | CoPayload _ _ _ _ p => match p with RpAct => 8 | RpReadData n => if (n <=? 0)%Z then 3 else 1 | RpOnData [] => 2 | RpOnData _ => 9 | RpFinish => 7 end
  | _ => 0
  end.
Fixpoint rank (st : list cor) : nat :=
  match st with
  | [] => 0
  | co :: K => match co with CoListen | CoReadFrame _ | CoHandle _ _ | CoPayload _ _ _ _ _ => rk co | _ => rank K end
  end.
Definition pot (c : conf) : nat :=
  length (w_wr (c_world c)) + wts (c_stack c) + 16 * amount (w_in (c_world c)) + rank (c_stack c).

Section Cost.
Variable react : react_t.
Variable B : Z.
(** Whether the configurations are bounded by [B]. *)
Variable bounded : Prop.
Hypothesis Hreact : bounded -> forall l log, Forall (cfg_cmd B) (react l log).

Definition cfg_world (w : world) : Prop := bounded -> (s_buf (w_sock w) <= B)%Z /\ Forall (cfg_ev B) (w_in w).
Definition cfg_code (cs : list cmd) : Prop := bounded -> Forall (cfg_cmd B) cs.

Lemma read_raw_cost n s k r s' k' : 0 < n -> read_raw n s k = (r, s', k') ->
  match r with RGot d => (amount s' + 1 <= amount s)%nat /\ lenN d <= n | RErr _ => (amount s' + 1 <= amount s)%nat | RPending => (amount s' <= amount s)%nat end /\
  ((s_buf k <= B)%Z -> Forall (cfg_ev B) s -> (s_buf k' <= B)%Z /\ Forall (cfg_ev B) s').
Proof.
  intros Hn. revert k. induction s as [|[b bs|e|x] s IH]; intros k; cbn [read_raw].
  - intros [= <- <- <-]. auto.
  - intros E. assert (r = RGot (takeN n (b :: bs)) /\ s' = unread (dropN n (b :: bs)) s /\ k' = k) as (-> & -> & ->) by (repeat split; congruence). clear E.
    assert (lenN (takeN n (b :: bs)) <= n /\ 0 < lenN (takeN n (b :: bs))) as [H1 H2] by (rewrite lenN_takeN, lenN_cons; lia).
    assert (length (takeN n (b :: bs)) + length (dropN n (b :: bs)) = length (b :: bs))%nat as H3 by (rewrite <- app_length, take_drop; reflexivity).
    split.
    + split; [|exact H1]. rewrite amount_unread. cbn [amount]. unfold lenN in H2. cbn [length] in H3. lia.
    + intros H4 H5. split; [exact H4|]. apply Forall_inv_tail in H5. destruct (dropN n (b :: bs)); [exact H5|constructor; [exact Logic.I|exact H5]].
  - intros [= <- <- <-]. cbn [amount]. split; [lia|]. intros H4 H5. apply Forall_inv_tail in H5. auto.
  - intros E. destruct (IH _ E) as [H1 H2]. cbn [amount]. split; [destruct r; lia|]. intros H4 H5. inversion H5; subst. apply H2; [|assumption].
    destruct x; cbn [apply_ext]; try exact H4. cbn in *. assumption.
Qed.

(** * The receiving part of the stack *)
Definition header_ok (p : rf_pc) : Prop :=
  match p with RfAct d | RfOnBb d => lenN d <= 2 | RfReadLen _ d | RfOnLen _ d => lenN d <= 8 | RfReadMask d => lenN d <= 4 end.
Definition payload_ok (h : header) (s : bytes) (us : bool) (al pr : Z) (p : rp_pc) : Prop :=
  (bounded -> (al <= B)%Z) /\ (match p with RpOnData d => (Z.of_N (lenN d) <= al)%Z | _ => True end) /\
  (us = true -> (h_len h <= 125)%Z /\ Z.of_N (lenN s) = pr /\
    match p with RpReadData n => (n <= h_len h - pr)%Z /\ (pr <= h_len h)%Z | RpOnData d => (pr + Z.of_N (lenN d) <= h_len h)%Z | _ => True end).
Inductive recv (h : header) (s : bytes) : list cor -> Prop :=
| rv_nil : recv h s []
| rv_l : recv h s [CoListen]
| rv_r p L : header_ok p -> recv h s [CoReadFrame p; CoHandle L HfAct; CoListen]
| rv_h L p : recv h s [CoHandle L p; CoListen]
| rv_p D us al pr pp L p : p <> HfAct -> payload_ok h s us al pr pp -> recv h s [CoPayload D us al pr pp; CoHandle L p; CoListen].
(** The part that belongs to the application. *)
Inductive code : list cor -> Prop :=
| cd_nil : code []
| cd_user b cs f : cfg_code cs -> code (catches b ++ [CoUser cs f])
| cd_send a1 a2 a3 a4 a5 b cs f : cfg_code cs -> code (CoSend a1 a2 a3 a4 a5 :: catches b ++ [CoUser cs f])
| cd_write h p a1 a2 a3 a4 a5 b cs f : cfg_code cs -> code (CoWrite h p :: CoSend a1 a2 a3 a4 a5 :: catches b ++ [CoUser cs f]).
Definition inv (c : conf) : Prop :=
  lenN (c_short c) <= 125 /\ cfg_world (c_world c) /\ exists us K, c_stack c = us ++ K /\ code us /\ recv (c_hdr c) (c_short c) K.

Definition fine (c : conf) (x : status * conf) : Prop :=
  inv (snd x) /\ exists new, w_log (c_world (snd x)) = w_log (c_world c) ++ new /\
    (pot (snd x) + (match fst x with ARun => 1 | _ => 0 end) <= pot c + chores react (w_log (c_world c)) new)%nat.

Lemma recv_unwind h s K : recv h s K -> unwind K = None.
Proof. destruct 1; reflexivity. Qed.
Lemma recv_wts h s K : recv h s K -> wts K = 0%nat.
Proof. destruct 1; reflexivity. Qed.
Lemma wts_app a b : wts (a ++ b) = (wts a + wts b)%nat.
Proof. unfold wts. rewrite map_app, list_sum_app. reflexivity. Qed.
Lemma rank_code us K : code us -> rank (us ++ K) = rank K.
Proof. destruct 1 as [|[] ?|? ? ? ? ? []|? ? ? ? ? ? ? []]; reflexivity. Qed.

Lemma inv_make h s us K w : lenN s <= 125 -> cfg_world w -> code us -> recv h s K -> inv (Conf h s (us ++ K) w).
Proof. intros H1 H2 H3 H4. split; [exact H1|]. split; [exact H2|]. exists us, K. auto. Qed.
Lemma inv_over h s w : lenN s <= 125 -> cfg_world w -> inv (Conf h s [] w).
Proof. intros H1 H2. apply (inv_make h s [] []); auto using cd_nil, rv_nil. Qed.

(** A step without a call. *)
Lemma fine_quiet c st c' : inv c' -> w_log (c_world c') = w_log (c_world c) ->
  (pot c' + (match st with ARun => 1 | _ => 0 end) <= pot c)%nat -> fine c (st, c').
Proof. intros H1 H2 H3. split; [exact H1|]. exists []. cbn [snd fst]. rewrite app_nil_r. split; [exact H2|]. cbn [chores]. lia. Qed.
(** A step with a call. *)
Lemma fine_call h s K w l ev f h' s' K' : lenN s' <= 125 -> cfg_world w -> recv h' s' K' -> (rank K' < rank K)%nat -> wts K = 0%nat ->
  fine (Conf h s K w) (let (co, w') := call_listener react l ev f w in (ARun, Conf h' s' (co :: K') w')).
Proof.
  intros H1 H2 H3 H4 H5. unfold call_listener. cbn [fst snd]. split; cbn [snd fst].
  - apply (inv_make h' s' [CoUser _ f] K'); auto. apply (cd_user false). intros Hb. apply Hreact, Hb.
  - exists [(l, ev)]. cbn [c_world set_log w_log]. split; [reflexivity|]. unfold pot. cbn [c_world c_stack set_log w_wr w_in chores fst].
    rewrite wts_cons, (recv_wts _ _ _ H3), H5. cbn [wt rank]. lia.
Qed.

Lemma fine_fail_recv h0 s0 K0 w0 e h s K w : lenN s <= 125 -> cfg_world w -> recv h s K -> w_log w = w_log w0 ->
  (length (w_wr w) <= length (w_wr w0))%nat -> (amount (w_in w) <= amount (w_in w0))%nat -> fine (Conf h0 s0 K0 w0) (fail e (Conf h s K w)).
Proof.
  intros H1 H2 H3 H4 H5 H6. unfold fail. cbn [c_stack c_hdr c_short c_world]. rewrite (recv_unwind _ _ _ H3).
  apply fine_quiet; [now apply inv_over|exact H4|]. unfold pot. cbn [c_world c_stack rank]. change (wts []) with 0%nat. lia.
Qed.

(** * The application's part *)
Lemma write_cost d w r w' : writeExactAsyncInline d w = (r, w') ->
  w_in w' = w_in w /\ w_log w' = w_log w /\ w_sock w' = w_sock w /\ (length (w_wr w') <= length (w_wr w))%nat /\
  match r with
  | INext _ => d = []
  | IAgain d' => (length (w_wr w') + nz d' + 1 <= length (w_wr w) + nz d)%nat
  | IWait => True
  | IFail => (length (w_wr w') + 1 <= length (w_wr w))%nat
  end.
Proof.
  unfold writeExactAsyncInline. destruct d as [|b d]; [intros [= <- <-]; auto|].
  destruct (w_wr w) as [|[n|[]|] q] eqn:E; intros H;
    [injection H as <- <-|assert (r = IAgain (dropN (N.pos n) (b :: d)) /\ w' = set_wr w (w_out w ++ takeN (N.pos n) (b :: d)) q) as [-> ->] by (split; congruence)|injection H as <- <-..];
    cbn [set_wr w_in w_log w_sock w_wr length]; rewrite ?E; cbn [length nz]; repeat split; try lia.
  pose proof (nz_le (dropN (N.pos n) (b :: d))). lia.
Qed.

(** What a step of application code does: [us'] instead of [us] on top of the receiving part, or it all ends. *)
Definition goes (h : header) (s : bytes) (us K : list cor) (w : world) (x : status * conf) : Prop :=
  w_in (c_world (snd x)) = w_in w /\ w_log (c_world (snd x)) = w_log w /\ cfg_world (c_world (snd x)) /\ c_short (snd x) = s /\
  (length (w_wr (c_world (snd x))) <= length (w_wr w))%nat /\
  ((c_stack (snd x) = [] /\ fst x <> ARun) \/
   exists us', c_stack (snd x) = us' ++ K /\ code us' /\ c_hdr (snd x) = h /\
     (length (w_wr (c_world (snd x))) + wts us' + (match fst x with ARun => 1 | _ => 0 end) <= length (w_wr w) + wts us)%nat).

Lemma goes_on h s us K w st us' w' : w_in w' = w_in w -> w_log w' = w_log w -> cfg_world w' -> code us' ->
  (length (w_wr w') <= length (w_wr w))%nat -> (length (w_wr w') + wts us' + (match st with ARun => 1 | _ => 0 end) <= length (w_wr w) + wts us)%nat ->
  goes h s us K w (st, Conf h s (us' ++ K) w').
Proof. intros H1 H2 H3 H4 H5 H6. unfold goes. cbn [fst snd c_world c_short c_stack c_hdr]. repeat (split; [assumption || reflexivity|]). right. exists us'. auto. Qed.
Lemma goes_off h s us K w st w' : w_in w' = w_in w -> w_log w' = w_log w -> cfg_world w' -> (length (w_wr w') <= length (w_wr w))%nat -> st <> ARun ->
  goes h s us K w (st, Conf h s [] w').
Proof. intros H1 H2 H3 H4 H5. unfold goes. cbn [fst snd c_world c_short c_stack c_hdr]. repeat (split; [assumption || reflexivity|]). left. auto. Qed.
(** A failure is caught or ends everything. *)
Lemma goes_fail h s us K w e b cs f w' (pre : list cor) : recv h s K -> cfg_code cs ->
  (forall k, unwind (pre ++ k) = unwind k) -> (1 <= wts us)%nat -> (wts (catches b ++ [CoUser cs f]) + 1 <= wts us)%nat ->
  w_in w' = w_in w -> w_log w' = w_log w -> cfg_world w' -> (length (w_wr w') <= length (w_wr w))%nat ->
  goes h s us K w (fail e (Conf h s (pre ++ (catches b ++ [CoUser cs f]) ++ K) w')).
Proof.
  intros HK Hc Hp H0 H1 H2 H3 H4 H5. unfold fail. cbn [c_stack c_hdr c_short c_world]. rewrite Hp. destruct b; cbn [catches app unwind].
  - apply (goes_on h s us K w ARun [CoUser cs f] w'); auto. { now apply (cd_user false). }
    rewrite wts_cons. cbn [catches app] in H1. rewrite !wts_cons in H1. cbn [wt] in *. lia.
  - rewrite (recv_unwind _ _ _ HK). apply goes_off; auto; discriminate.
Qed.
(** One write. *)
Lemma goes_write h s co d K w rest b cs f (mk : bytes -> cor) (next : list cor) :
  recv h s K -> cfg_world w -> cfg_code cs -> (forall k, unwind (rest ++ k) = unwind k) ->
  (forall d', code (mk d' :: rest ++ catches b ++ [CoUser cs f])) -> code (next ++ rest ++ catches b ++ [CoUser cs f]) ->
  (forall d', (wt (mk d') + nz d = wt co + nz d')%nat) -> (1 <= wt co)%nat -> co = mk d -> (wts next + 1 <= wt co)%nat ->
  goes h s (co :: rest ++ catches b ++ [CoUser cs f]) K w
    match writeExactAsyncInline d w with
    | (INext _, w') => (ARun, Conf h s (next ++ rest ++ (catches b ++ [CoUser cs f]) ++ K) w')
    | (IAgain d', w') => (ARun, Conf h s (mk d' :: rest ++ (catches b ++ [CoUser cs f]) ++ K) w')
    | (IWait, w') => (AWait, Conf h s (co :: rest ++ (catches b ++ [CoUser cs f]) ++ K) w')
    | (IFail, w') => fail ExAsyncIO (Conf h s (rest ++ (catches b ++ [CoUser cs f]) ++ K) w')
    end.
Proof.
  intros HK Hw Hc Hr Hmk Hnext Hwt H0 Hco Hn.
  destruct (writeExactAsyncInline d w) as [r w'] eqn:E. destruct (write_cost _ _ _ _ E) as (E1 & E2 & E3 & E4 & E5).
  assert (cfg_world w') as Hw' by (intros Hb; rewrite E1, E3; exact (Hw Hb)).
  assert (forall x y : list cor, x ++ (catches b ++ [CoUser cs f]) ++ y = (x ++ catches b ++ [CoUser cs f]) ++ y) as HA by (intros; rewrite !app_assoc; reflexivity).
  destruct r as [d0|d0| |].
  - assert (next ++ rest ++ (catches b ++ [CoUser cs f]) ++ K = (next ++ rest ++ catches b ++ [CoUser cs f]) ++ K) as -> by (rewrite <- !app_assoc; reflexivity).
    apply goes_on; auto. rewrite (wts_app next), wts_cons. lia.
  - rewrite HA. apply (goes_on h s _ K w ARun (mk d0 :: rest ++ catches b ++ [CoUser cs f])); auto. rewrite !wts_cons. specialize (Hwt d0). lia.
  - rewrite HA. apply (goes_on h s _ K w AWait (co :: rest ++ catches b ++ [CoUser cs f])); auto. { rewrite Hco. apply Hmk. } lia.
  - apply goes_fail; auto; rewrite wts_cons; rewrite ?wts_app; lia.
Qed.

Lemma code_step h s co us K w : code (co :: us) -> recv h s K -> cfg_world w -> goes h s (co :: us) K w (step react (Conf h s ((co :: us) ++ K) w)).
Proof.
  intros Hc HK Hw. assert (forall x d, (9 + nz x + nz d = 9 + nz d + nz x)%nat) as Hcm by (intros; lia). clear Hcm.
  inversion Hc as [|b cs f Hcs E|a1 a2 a3 a4 a5 b cs f Hcs E|hh p a1 a2 a3 a4 a5 b cs f Hcs E]; subst.
  - destruct b; cbn [catches app] in E; injection E as <- <-.
    + cbn [app step]. apply (goes_on h s _ K w ARun [CoUser cs f] w); auto. { now apply (cd_user false). } cbn [catches app]. rewrite !wts_cons. cbn [wt]. lia.
    + cbn [app step catches]. destruct cs as [|c cs]; cbn [step_user].
      { apply (goes_on h s _ K w ARun [] w); auto using cd_nil. rewrite wts_cons. cbn [wt]. lia. }
      assert (cfg_code cs) as Hcs' by (intros Hb; exact (Forall_inv_tail (Hcs Hb))).
      assert (forall op, wt (start_send op) = 20%nat) as Hst by (intros op; unfold start_send; destruct (send_args op) as [[? ?] ?]; reflexivity).
      assert (forall op b0, code (start_send op :: catches b0 ++ [CoUser cs f])) as Hsc by (intros op b0; unfold start_send; destruct (send_args op) as [[? ?] ?]; now constructor).
      destruct c as [|l|mm b|catch op| | |fin opcode mm].
      1-3: (apply (goes_on h s _ K w ARun [CoUser cs f]); try reflexivity; [|now apply (cd_user false)|rewrite !wts_cons; cbn [wt length set_sock w_wr]; lia]).
      * exact Hw.
      * exact Hw.
      * intros Hb. split; [exact (Forall_inv (Hcs Hb))|exact (proj2 (Hw Hb))].
      * assert (start_send op :: (if catch then [CoCatch] else []) ++ CoUser cs f :: K = (start_send op :: catches catch ++ [CoUser cs f]) ++ K) as -> by (destruct catch; reflexivity).
        apply (goes_on h s _ K w ARun); auto. destruct catch; cbn [catches app]; rewrite !wts_cons, Hst; cbn [wt length]; lia.
      * destruct f; [apply goes_off; auto; discriminate|]. apply (goes_on h s _ K w ARun [CoUser cs false]); auto. { now apply (cd_user false). } rewrite !wts_cons. cbn [wt length]. lia.
      * unfold fail. cbn [c_stack]. rewrite (recv_unwind _ _ _ HK). apply goes_off; auto; discriminate.
      * apply (goes_on h s _ K w ARun (start_send (SoFrame fin opcode mm) :: catches false ++ [CoUser cs f])); auto. cbn [catches app]. rewrite !wts_cons, Hst. cbn [wt length]. lia.
  - assert (forall x y : list cor, (x ++ catches b ++ [CoUser cs f]) ++ y = x ++ (catches b ++ [CoUser cs f]) ++ y) as HA by (intros; rewrite <- !app_assoc; reflexivity).
    cbn [app step]. destruct a5 as [| |d|]; cbn [step_send].
    + assert (forall len pc, (match pc with SfAct => 20 | SfPrepare => 4 | SfWrite d => 2 + nz d | SfFinish => 1 end <= 4)%nat ->
        goes h s (CoSend a1 a2 a3 a4 SfAct :: catches b ++ [CoUser cs f]) K w
        match sendFrameHeaderAsync a4 a1 a2 len w with (h', co, w') => (ARun, Conf h s (co :: CoSend a1 a2 a3 h' pc :: (catches b ++ [CoUser cs f]) ++ K) w') end) as HS.
      { intros len pc Hpc. unfold sendFrameHeaderAsync. cbn [h_hasMask].
        assert (forall hh d w', w_in w' = w_in w -> w_log w' = w_log w -> w_sock w' = w_sock w -> w_wr w' = w_wr w -> 
          goes h s (CoSend a1 a2 a3 a4 SfAct :: catches b ++ [CoUser cs f]) K w (ARun, Conf h s (CoWrite hh (WfAct d) :: CoSend a1 a2 a3 hh pc :: (catches b ++ [CoUser cs f]) ++ K) w')) as HG.
        { intros hh d w' E1 E2 E3 E4. apply (goes_on h s _ K w ARun (CoWrite hh (WfAct d) :: CoSend a1 a2 a3 hh pc :: catches b ++ [CoUser cs f])); auto.
          - intros Hb. rewrite E1, E3. exact (Hw Hb).
          - now constructor.
          - rewrite E4. lia.
          - rewrite E4, !wts_cons. cbn [wt]. pose proof (nz_le d). lia. }
        destruct (s_mask (w_sock w)); apply HG; reflexivity. }
      destruct a3 as [[|b0 m]|]; apply HS; cbn; lia.
    + destruct (h_hasMask a4); [destruct (_ <=? _); [apply goes_off; auto; discriminate|]|];
        (match goal with |- goes _ _ _ _ _ (ARun, Conf _ _ (?co :: _) _) => apply (goes_on h s _ K w ARun (co :: catches b ++ [CoUser cs f])); auto end;
         [now constructor|rewrite !wts_cons; cbn [wt]; match goal with |- context [nz ?d] => pose proof (nz_le d) end; lia]).
    + apply (goes_write h s (CoSend a1 a2 a3 a4 (SfWrite d)) d K w [] b cs f (fun d' => CoSend a1 a2 a3 a4 (SfWrite d')) []); auto; cbn [app].
      * intros d'. now constructor.
      * now apply cd_user.
      * intros d'. cbn [wt]. lia.
      * cbn [wt]. lia.
      * cbn [wt]. change (wts []) with 0%nat. lia.
    + apply (goes_on h s _ K w ARun); auto. { now apply cd_user. } rewrite wts_cons. cbn [wt]. lia.
  - cbn [app step].
    assert (forall k, unwind ([CoSend a1 a2 a3 a4 a5] ++ k) = unwind k) as HU by reflexivity.
    assert (forall p', code (CoWrite hh p' :: [CoSend a1 a2 a3 a4 a5] ++ catches b ++ [CoUser cs f])) as Hcw by (intros; now constructor).
    assert (forall d mk next, (forall d', (wt (CoWrite hh (mk d')) + nz d = wt (CoWrite hh (mk d)) + nz d')%nat) -> (1 <= wt (CoWrite hh (mk d)))%nat ->
       (next = [] \/ exists q, next = [CoWrite hh q]) -> (wts next + 1 <= wt (CoWrite hh (mk d)))%nat ->
       goes h s (CoWrite hh (mk d) :: CoSend a1 a2 a3 a4 a5 :: catches b ++ [CoUser cs f]) K w
        match writeExactAsyncInline d w with
        | (INext _, w') => (ARun, Conf h s (next ++ CoSend a1 a2 a3 a4 a5 :: (catches b ++ [CoUser cs f]) ++ K) w')
        | (IAgain d', w') => (ARun, Conf h s (CoWrite hh (mk d') :: CoSend a1 a2 a3 a4 a5 :: (catches b ++ [CoUser cs f]) ++ K) w')
        | (IWait, w') => (AWait, Conf h s (CoWrite hh (mk d) :: CoSend a1 a2 a3 a4 a5 :: (catches b ++ [CoUser cs f]) ++ K) w')
        | (IFail, w') => fail ExAsyncIO (Conf h s (CoSend a1 a2 a3 a4 a5 :: (catches b ++ [CoUser cs f]) ++ K) w')
        end) as HG.
    { intros d mk next G1 G2 G3 G4. apply (goes_write h s (CoWrite hh (mk d)) d K w [CoSend a1 a2 a3 a4 a5] b cs f (fun d' => CoWrite hh (mk d')) next); auto.
      destruct G3 as [-> |[q -> ]]; [cbn [app]; now constructor|apply Hcw]. }
    assert (forall q, (wt (CoWrite hh q) + 1 <= wt (CoWrite hh p))%nat -> goes h s (CoWrite hh p :: CoSend a1 a2 a3 a4 a5 :: catches b ++ [CoUser cs f]) K w
       (ARun, Conf h s (CoWrite hh q :: CoSend a1 a2 a3 a4 a5 :: (catches b ++ [CoUser cs f]) ++ K) w)) as HQ.
    { intros q Hq. apply (goes_on h s _ K w ARun (CoWrite hh q :: CoSend a1 a2 a3 a4 a5 :: catches b ++ [CoUser cs f])); auto. rewrite !wts_cons. lia. }
    destruct p as [d| |d| |d]; cbn [step_writeFrame].
    + apply (HG d WfAct [CoWrite hh WfOnBb]); [intros; cbn [wt]; lia|cbn [wt]; lia|eauto|rewrite wts_cons; cbn [wt]; change (wts []) with 0%nat; lia].
    + destruct (_ =? 2); [|destruct (_ =? 3)]; apply HQ; cbn [wt]; try (match goal with |- context [nz ?d] => pose proof (nz_le d) end); lia.
    + apply (HG d WfWriteLen [CoWrite hh WfOnLen]); [intros; cbn [wt]; lia|cbn [wt]; lia|eauto|rewrite wts_cons; cbn [wt]; change (wts []) with 0%nat; lia].
    + destruct (h_hasMask hh); [apply HQ; cbn [wt]; match goal with |- context [nz ?d] => pose proof (nz_le d) end; lia|].
      apply (goes_on h s _ K w ARun (CoSend a1 a2 a3 a4 a5 :: catches b ++ [CoUser cs f])); auto. { now constructor. } rewrite !wts_cons. cbn [wt]. lia.
    + apply (HG d WfWriteMask []); [intros; cbn [wt]; lia|cbn [wt]; lia|auto|cbn [wt]; change (wts []) with 0%nat; lia].
Qed.

(** * The receiving part *)
Lemma readExact_cost n got w r w' : readExactAsyncInline n got w = (r, w') ->
  w_log w' = w_log w /\ w_wr w' = w_wr w /\ (cfg_world w -> cfg_world w') /\ (amount (w_in w') <= amount (w_in w))%nat /\
  match r with
  | INext d => d = got /\ w' = w /\ n <= lenN got
  | IAgain d => (amount (w_in w') + 1 <= amount (w_in w))%nat /\ lenN got < n /\ lenN d <= n
  | IWait => True
  | IFail => True
  end.
Proof.
  unfold readExactAsyncInline. destruct (N.leb_spec n (lenN got)) as [H|H]; [intros [= <- <-]; auto 9|].
  destruct (read_raw (n - lenN got) (w_in w) (w_sock w)) as [[r0 s'] k'] eqn:E. cbv zeta.
  apply read_raw_cost in E; [|lia]. destruct E as [E1 E2].
  assert (cfg_world w -> cfg_world (set_sock (set_in w s') k')) as HW by (intros HW Hb; destruct (HW Hb); now apply E2).
  destruct r0 as [d|[]|]; intros [= <- <-]; cbn [w_log w_wr w_in set_sock set_in]; (split; [reflexivity|]; split; [reflexivity|]; split; [exact HW|]; split; [lia|]);
    try exact Logic.I; (split; [lia|]; split; [lia|]; rewrite ?lenN_app; lia).
Qed.

Lemma readSome_cost n w r w' : readSomeAsyncInline n w = (r, w') ->
  w_log w' = w_log w /\ w_wr w' = w_wr w /\ (cfg_world w -> cfg_world w') /\ (amount (w_in w') <= amount (w_in w))%nat /\
  match r with
  | INext d => (n <= 0)%Z /\ d = [] \/ (0 < n)%Z /\ (Z.of_N (lenN d) <= n)%Z /\ (amount (w_in w') + 1 <= amount (w_in w))%nat
  | IAgain d => (amount (w_in w') + 1 <= amount (w_in w))%nat
  | IWait => True
  | IFail => True
  end.
Proof.
  unfold readSomeAsyncInline. destruct (Z.leb_spec n 0) as [H|H]; [intros [= <- <-]; auto 9|].
  destruct (read_raw (Z.to_N n) (w_in w) (w_sock w)) as [[r0 s'] k'] eqn:E. cbv zeta.
  apply read_raw_cost in E; [|lia]. destruct E as [E1 E2].
  assert (cfg_world w -> cfg_world (set_sock (set_in w s') k')) as HW by (intros HW Hb; destruct (HW Hb); now apply E2).
  destruct r0 as [d|[]|]; intros [= <- <-]; cbn [w_log w_wr w_in set_sock set_in]; (split; [reflexivity|]; split; [reflexivity|]; split; [exact HW|]; split; [lia|]);
    try exact Logic.I; try lia.
  all: right; repeat split; try assumption; try lia. change (lenN []) with 0. lia.
Qed.

Lemma fine_recv h s K w st h' s' K' w' : recv h s K -> lenN s' <= 125 -> cfg_world w' -> recv h' s' K' -> w_log w' = w_log w -> w_wr w' = w_wr w ->
  (16 * amount (w_in w') + rank K' + (match st with ARun => 1 | _ => 0 end) <= 16 * amount (w_in w) + rank K)%nat ->
  fine (Conf h s K w) (st, Conf h' s' K' w').
Proof.
  intros HK H1 H2 H3 H4 H5 H6. apply fine_quiet; [apply (inv_make h' s' [] K'); auto using cd_nil|exact H4|].
  unfold pot. cbn [c_world c_stack]. rewrite H5, (recv_wts _ _ _ HK), (recv_wts _ _ _ H3). lia.
Qed.

Lemma recv_step h s K w : recv h s K -> lenN s <= 125 -> cfg_world w -> fine (Conf h s K w) (step react (Conf h s K w)).
Proof.
  intros HK Hs Hw. pose proof HK as HK0. destruct HK as [| |p L Hp|L p|D us al pr pp L p Hp Hpay].
  - cbn [step]. apply (fine_recv h s [] w); auto. lia.
  - cbn [step]. destruct (_ =? _).
    + apply (fine_recv h s [CoListen] w); auto; [constructor|]. cbn [rank rk]. lia.
    + apply (fine_recv h s [CoListen] w); auto; [constructor; cbn [header_ok]; change (lenN []) with 0; lia|]. cbn [rank rk]. change (lenN []) with 0. cbn. lia.
  - cbn [step]. unfold step_readFrame. cbv zeta.
    set (K0 := [CoReadFrame p; CoHandle L HfAct; CoListen]) in *.
    assert (forall hh p' w', header_ok p' -> cfg_world w' -> w_log w' = w_log w -> w_wr w' = w_wr w ->
      (16 * amount (w_in w') + rk (CoReadFrame p') + 1 <= 16 * amount (w_in w) + rk (CoReadFrame p))%nat -> fine (Conf h s K0 w) (ARun, Conf hh s [CoReadFrame p'; CoHandle L HfAct; CoListen] w')) as Hr.
    { intros hh p' w' G1 G2 G3 G4 G5. apply (fine_recv h s K0 w); auto. now constructor. }
    assert (forall hh w', cfg_world w' -> w_log w' = w_log w -> w_wr w' = w_wr w ->
      (16 * amount (w_in w') + 11 <= 16 * amount (w_in w) + rk (CoReadFrame p))%nat -> fine (Conf h s K0 w) (ARun, Conf hh s [CoHandle L HfAct; CoListen] w')) as Hd.
    { intros hh w' G2 G3 G4 G5. apply (fine_recv h s K0 w); auto; [now constructor|]. cbn [rank rk]. unfold K0. cbn [rank]. lia. }
    assert (forall w', cfg_world w' -> w_log w' = w_log w -> w_wr w' = w_wr w -> (amount (w_in w') <= amount (w_in w))%nat -> fine (Conf h s K0 w) (AWait, Conf h s K0 w')) as Hwt.
    { intros w' G2 G3 G4 G5. apply (fine_recv h s K0 w); auto. lia. }
    assert (forall hh w' e, cfg_world w' -> w_log w' = w_log w -> w_wr w' = w_wr w -> (amount (w_in w') <= amount (w_in w))%nat -> fine (Conf h s K0 w) (fail e (Conf hh s [CoHandle L HfAct; CoListen] w'))) as Hf.
    { intros hh w' e G2 G3 G4 G5. apply fine_fail_recv; auto; [constructor|rewrite G4; lia]. }
    destruct p as [got|bb|ty got|ty d|got].
    + destruct (readExactAsyncInline 2 got w) as [r w1] eqn:E1. apply readExact_cost in E1. destruct E1 as (G1 & G2 & G3 & G4 & G5). specialize (G3 Hw).
      destruct r as [d|d| |]; auto.
      * destruct G5 as (-> & -> & G5). apply Hr; auto. cbn [rk]. destruct (N.leb_spec 2 (lenN got)); lia.
      * destruct G5 as (G5 & G6 & G7). apply Hr; auto. cbn [rk]. destruct (N.leb_spec 2 (lenN got)), (N.leb_spec 2 (lenN d)); lia.
    + destruct (unpackHeaderBits (be_dec bb) h) as [hh l1].
      destruct (l1 <? 126); [|destruct (l1 =? 126); [|destruct (l1 =? 127)]]; auto;
        (apply Hr; auto; [cbn [header_ok]; change (lenN []) with 0; lia|cbn [rk]; change (lenN []) with 0; cbn; lia]).
    + destruct (readExactAsyncInline (if ty =? 2 then 2 else 8) got w) as [r w1] eqn:E1. apply readExact_cost in E1. destruct E1 as (G1 & G2 & G3 & G4 & G5). specialize (G3 Hw).
      assert ((if ty =? 2 then 2 else 8) <= 8) as HT by (destruct (ty =? 2); lia). cbn [rk] in *.
      remember (if ty =? 2 then 2 else 8) as tt eqn:Ett.
      destruct r as [d|d| |]; auto.
      * destruct G5 as (-> & -> & G5). apply Hr; auto. cbn [rk]. destruct (N.leb_spec tt (lenN got)); lia.
      * destruct G5 as (G5 & G6 & G7). apply Hr; auto. { cbn [header_ok]. lia. } cbn [rk]. rewrite <- Ett. destruct (N.leb_spec tt (lenN got)), (N.leb_spec tt (lenN d)); lia.
    + match goal with |- context [h_hasMask ?hh] => destruct (h_hasMask hh) end.
      * apply Hr; auto. { cbn [header_ok]. change (lenN []) with 0. lia. } cbn [rk]. change (lenN []) with 0. cbn. lia.
      * apply Hd; auto. cbn [rk]. lia.
    + destruct (readExactAsyncInline 4 got w) as [r w1] eqn:E1. apply readExact_cost in E1. destruct E1 as (G1 & G2 & G3 & G4 & G5). specialize (G3 Hw).
      destruct r as [d|d| |]; auto.
      * destruct G5 as (-> & -> & G5). apply Hd; auto. cbn [rk]. destruct (N.leb_spec 4 (lenN got)); lia.
      * destruct G5 as (G5 & G6 & G7). apply Hr; auto. cbn [rk]. destruct (N.leb_spec 4 (lenN got)), (N.leb_spec 4 (lenN d)); lia.
  - cbn [step]. unfold step_handle. cbv zeta. set (K0 := [CoHandle L p; CoListen]) in *.
    assert (forall sh e w', lenN sh <= 125 -> w_sock w' = w_sock w \/ cfg_world w' -> w_in w' = w_in w -> w_log w' = w_log w -> w_wr w' = w_wr w -> fine (Conf h s K0 w) (fail e (Conf h sh [CoListen] w'))) as Hf.
    { intros sh e w' G0 G1 G2 G3 G4. apply fine_fail_recv; auto; [|constructor|rewrite G4; lia|rewrite G2; lia].
      destruct G1 as [G1|G1]; [intros Hb; rewrite G1, G2; exact (Hw Hb)|exact G1]. }
    destruct p.
    + assert (forall us nx sh w0, s_buf (w_sock w0) = s_buf (w_sock w) -> w_log w0 = w_log w -> w_wr w0 = w_wr w -> w_in w0 = w_in w -> nx <> HfAct -> lenN sh <= 125 -> (us = true -> sh = []) ->
        fine (Conf h s K0 w) match readPayloadAsync h us w0 with inl e => fail e (Conf h sh [CoListen] w0) | inr co => (ARun, Conf h sh (co :: CoHandle L nx :: [CoListen]) w0) end) as HP.
      { intros us nx sh w0 G1 G2 G3 G4 G5 G6 G7. assert (cfg_world w0) as Hw0 by (intros Hb; rewrite G1, G4; exact (Hw Hb)).
        unfold readPayloadAsync. destruct (us && _)%bool eqn:Eu; [apply Hf; auto|].
        destruct (_ <? 0)%Z; [apply Hf; auto|]. apply (fine_recv h s K0 w); auto.
        - constructor; [exact G5|]. split; [intros Hb; apply (Hw0 Hb)|]. split; [exact Logic.I|]. intros ->. rewrite (G7 eq_refl). change (lenN []) with 0.
          cbn [andb] in Eu. apply Z.ltb_ge in Eu. auto.
        - rewrite G4. cbn. lia. }
      assert (fine (Conf h s K0 w) (let (ok, w') := checkForContinuationA h w in
          if (ok : bool) then match readPayloadAsync h false w' with inl e => fail e (Conf h s [CoListen] w') | inr co => (ARun, Conf h s (co :: CoHandle L HfFinish :: [CoListen]) w') end
          else fail ExContinuationExpected (Conf h s [CoListen] w'))) as HC.
      { unfold checkForContinuationA. cbv zeta. destruct (_ || _)%bool; [apply Hf; auto|]. apply HP; auto; discriminate. }
      assert (forall e, fine (Conf h s K0 w) (fail e (Conf h s [CoListen] w))) as HF by (intros e; apply Hf; auto).
      assert (forall nx, nx <> HfAct -> fine (Conf h s K0 w) match readPayloadAsync h true w with inl e => fail e (Conf h [] [CoListen] w) | inr co => (ARun, Conf h [] (co :: CoHandle L nx :: [CoListen]) w) end) as HS.
      { intros nx Hnx. apply HP; auto. change (lenN []) with 0. lia. }
      destruct (h_opcode h) as [|[[[[q|q|]|[q|q|]|]|[[q|q|]|[q|q|]|]|]|[[[q|q|]|[q|q|]|]|[[q|q|]|[q|q|]|]|]|]];
        first [exact (HF _)|exact HC|apply HS; discriminate|idtac].
      destruct (_ <? 0)%Z; [apply HF|apply HP; auto; discriminate].
    + destruct L as [l|]; [|apply (fine_recv h s K0 w); auto; [constructor|cbn; lia]].
      apply (fine_call h s K0 w); auto; constructor.
    + destruct L as [l|]; [|apply (fine_recv h s K0 w); auto; [constructor|cbn; lia]].
      apply (fine_call h s K0 w); auto; constructor.
    + destruct L as [l|]; [|apply (fine_recv h s K0 w); auto; [constructor|cbn; lia]].
      apply (fine_call h s K0 w); auto; constructor.
    + apply (fine_recv h s K0 w); auto; [constructor|cbn; lia].
  - cbn [step]. unfold step_payload. cbv zeta. set (K0 := [CoPayload D us al pr pp; CoHandle L p; CoListen]) in *.
    destruct Hpay as (P1 & P2 & P3).
    assert (rank [CoHandle L p; CoListen] <= 6)%nat as HR by (destruct p; cbn; lia || congruence).
    destruct pp as [|n|d|].
    + assert (fine (Conf h s K0 w) (ARun, Conf h s [CoHandle L p; CoListen] w)) as Hd.
      { apply (fine_recv h s K0 w); auto; [constructor|]. unfold K0. cbn [rank rk] in *. lia. }
      destruct (Z.ltb_spec pr (h_len h)) as [Hl|Hl].
      * apply (fine_recv h s K0 w); auto.
        -- constructor; [exact Hp|]. split; [exact P1|]. split; [exact Logic.I|]. intros Hu. destruct (P3 Hu) as (Q1 & Q2 & _). repeat split; auto; [|lia].
           destruct (Z.ltb_spec (h_len h - pr) (s_buf (w_sock w))); lia.
        -- unfold K0. cbn [rank rk]. destruct (_ <=? _)%Z; lia.
      * destruct (negb us && h_fin h)%bool eqn:Eu; [|exact Hd]. destruct D as [l|]; [|exact Hd].
        apply (fine_call h s K0 w); auto.
        constructor; [exact Hp|]. split; [exact P1|]. split; [exact Logic.I|]. intros ->. discriminate Eu.
    + destruct (readSomeAsyncInline n w) as [r w1] eqn:E1. apply readSome_cost in E1. destruct E1 as (G1 & G2 & G3 & G4 & G5). specialize (G3 Hw).
      assert (recv h s [CoPayload D us al pr (RpReadData n); CoHandle L p; CoListen]) as HK1 by exact HK0.
      destruct r as [d|d| |].
      * destruct (Z.ltb_spec al (Z.of_N (lenN d))) as [Ha|Ha].
        { apply (fine_recv h s K0 w); auto; [constructor|]. cbn [rank]. lia. }
        apply (fine_recv h s K0 w); auto.
        -- constructor; [exact Hp|]. split; [exact P1|]. split; [exact Ha|]. intros Hu. destruct (P3 Hu) as (Q1 & Q2 & Q3 & Q4). repeat split; auto.
           destruct G5 as [[G5 -> ]|(G5 & G6 & G7)]; [change (lenN []) with 0|]; lia.
        -- unfold K0. cbn [rank rk]. destruct G5 as [[G5 -> ]|(G5 & G6 & G7)].
           ++ destruct (Z.leb_spec n 0); lia.
           ++ destruct (Z.leb_spec n 0); [lia|]. destruct d; lia.
      * apply (fine_recv h s K0 w); auto. unfold K0. cbn [rank]. lia.
      * apply (fine_recv h s K0 w); auto. unfold K0. cbn [rank]. lia.
      * apply fine_fail_recv; auto; [constructor|rewrite G2; lia].
    + destruct d as [|b d]; [apply fine_fail_recv; auto; constructor|].
      assert (forall x : bool, lenN (if x then xor_from (h_mask h) (Z.to_N pr) (b :: d) else b :: d) = lenN (b :: d)) as HX.
      { intros []; [|reflexivity]. apply lenN_xor_from. }
      destruct us.
      * destruct (P3 eq_refl) as (Q1 & Q2 & Q3). apply (fine_recv h s K0 w); auto.
        -- rewrite lenN_app, HX. lia.
        -- constructor; [exact Hp|]. split; [exact P1|]. split; [exact Logic.I|]. intros _. repeat split; auto. rewrite lenN_app, HX. lia.
        -- unfold K0. cbn [rank rk]. lia.
      * assert (recv h s [CoPayload D false al (pr + Z.of_N (lenN (b :: d))) RpAct; CoHandle L p; CoListen]) as HK1.
        { constructor; [exact Hp|]. split; [exact P1|]. split; [exact Logic.I|]. discriminate. }
        destruct D as [l|]; [apply (fine_call h s K0 w); auto|apply (fine_recv h s K0 w); auto]; unfold K0; cbn [rank rk]; lia.
    + apply (fine_recv h s K0 w); auto; [constructor|]. unfold K0. cbn [rank rk] in *. lia.
Qed.

Lemma step_fine c : inv c -> fine c (step react c).
Proof.
  destruct c as [h s st w]. intros (H1 & H2 & us & K & E & Hu & HK). cbn [c_stack c_hdr c_short c_world] in *. subst st.
  destruct us as [|co us]; [now apply recv_step|].
  pose proof (code_step h s co us K w Hu HK H2) as (G1 & G2 & G3 & G4 & G5 & G6).
  destruct (step react (Conf h s ((co :: us) ++ K) w)) as [st' [h' s' k' w']]. cbn [snd fst c_world c_short c_stack c_hdr] in *. subst s'.
  destruct G6 as [[-> G6]|(us' & -> & G6 & -> & G7)].
  - apply fine_quiet; [now apply inv_over|exact G2|]. unfold pot. cbn [c_world c_stack rank]. change (wts []) with 0%nat. rewrite G1. destruct st'; try lia. now destruct G6.
  - apply fine_quiet; [now apply inv_make|exact G2|]. unfold pot. cbn [c_world c_stack]. rewrite !wts_app, (rank_code _ K Hu), (rank_code _ K G6), G1. lia.
Qed.

Lemma inv_arrive s c : (bounded -> Forall (cfg_ev B) s) -> inv c -> inv (arrive s c).
Proof.
  intros Hs (H1 & H2 & H3). split; [exact H1|]. split; [|exact H3]. intros Hb. destruct (H2 Hb) as [G1 G2]. cbn. split; [exact G1|]. apply Forall_app. auto.
Qed.

Lemma run_fine evs : forall st c st' c', (bounded -> Forall (cfg_ev B) (arrivals evs)) -> inv c -> run react evs (st, c) = (st', c') ->
  inv c' /\ exists new, w_log (c_world c') = w_log (c_world c) ++ new /\
    (pot c' + busy react evs (st, c) <= pot c + 16 * amount (arrivals evs) + chores react (w_log (c_world c)) new)%nat.
Proof.
  induction evs as [|[|s] evs IH]; intros st c st' c' Ha Hi E; cbn [run busy arrivals] in *.
  - injection E as <- <-. split; [exact Hi|]. exists []. rewrite app_nil_r. split; [reflexivity|]. cbn [chores amount]. lia.
  - assert (exists new, w_log (c_world (snd (tick react (st, c)))) = w_log (c_world c) ++ new /\ inv (snd (tick react (st, c))) /\
      (pot (snd (tick react (st, c))) + (match fst (tick react (st, c)) with ARun => 1 | _ => 0 end) <= pot c + chores react (w_log (c_world c)) new)%nat) as (n1 & G1 & G2 & G3).
    { assert (forall x, fine c x -> exists new, w_log (c_world (snd x)) = w_log (c_world c) ++ new /\ inv (snd x) /\
        (pot (snd x) + (match fst x with ARun => 1 | _ => 0 end) <= pot c + chores react (w_log (c_world c)) new)%nat) as HF.
      { intros x [X1 (n & X2 & X3)]. eauto. }
      destruct st; cbn [tick]; try (apply HF, step_fine, Hi); (exists []; rewrite app_nil_r; cbn [snd fst chores]; split; [reflexivity|]; split; [exact Hi|lia]). }
    destruct (tick react (st, c)) as [st1 c1] eqn:Et. cbn [fst snd] in *.
    destruct (IH st1 c1 st' c' Ha G2 E) as (I1 & n2 & I2 & I3). split; [exact I1|]. exists (n1 ++ n2). rewrite I2, G1, app_assoc. split; [reflexivity|].
    rewrite chores_app, G1 in *. lia.
  - cbn [fst snd] in *. destruct (IH st (arrive s c) st' c') as (I1 & n2 & I2 & I3); [|apply inv_arrive; [|exact Hi]|exact E|].
    + intros Hb. exact (proj2 (proj1 (Forall_app _ _ _) (Ha Hb))).
    + intros Hb. exact (proj1 (proj1 (Forall_app _ _ _) (Ha Hb))).
    + split; [exact I1|]. exists n2. split; [exact I2|]. rewrite amount_app. unfold pot in *. destruct c as [hh ss kk ww]. cbn [arrive c_world c_stack set_in w_in w_wr w_log c_hdr c_short] in *.
      rewrite amount_app in I3. lia.
Qed.
End Cost.

Lemma start_inv B bounded w : cfg_world B bounded w -> inv B bounded (start_listen w).
Proof. intros Hw. split; [cbn; change (lenN []) with 0; lia|]. split; [exact Hw|]. exists [], [CoListen]. repeat constructor. Qed.

Lemma code_kept B bounded us : code B bounded us -> fold_right N.add 0 (map kept_bytes us) = 0 /\ (length us <= 4)%nat.
Proof. destruct 1 as [|[] ?|? ? ? ? ? []|? ? ? ? ? ? ? []]; cbn; split; try reflexivity; lia. Qed.
Lemma fold_add_app a b : fold_right N.add 0 (a ++ b) = fold_right N.add 0 a + fold_right N.add 0 b.
Proof. induction a as [|x a IH]; cbn [app fold_right]; [reflexivity|]. rewrite IH. lia. Qed.

(** C82: whatever arrives, in whatever pieces, whatever the application does and however the executor schedules: listenAsync keeps at most 125 bytes
    of a control frame's payload, 8 bytes of an unfinished header, one read buffer and one decoded chunk, and at most seven coroutines. *)
Theorem C82_memory : forall react B w evs st c,
  (forall l log, Forall (cfg_cmd B) (react l log)) -> (s_buf (w_sock w) <= B)%Z -> Forall (cfg_ev B) (w_in w ++ arrivals evs) ->
  run react evs (ARun, start_listen w) = (st, c) ->
  lenN (c_short c) <= 125 /\ memory c <= 125 + N.max 8 (2 * Z.to_N B) /\ (length (c_stack c) <= 7)%nat.
Proof.
  intros react B w evs st c Hr Hb Ha E. apply Forall_app in Ha as [Ha1 Ha2].
  destruct (run_fine react B True (fun _ => Hr) evs ARun (start_listen w) st c (fun _ => Ha2)) as [(H1 & H2 & us & K & H3 & H4 & H5) _]; [|exact E|].
  { apply start_inv. intros _. auto. }
  split; [exact H1|]. unfold memory. rewrite H3, map_app, fold_add_app, app_length. destruct (code_kept _ _ _ H4) as [-> H6].
  assert (fold_right N.add 0 (map kept_bytes K) <= N.max 8 (2 * Z.to_N B) /\ (length K <= 3)%nat) as [H7 H8]; [|split; lia].
  destruct H5 as [| |p L Hp|L p|D us0 al pr pp L p Hp (P1 & P2 & _)]; cbn [map fold_right kept_bytes length]; (split; [|lia]); try lia.
  - destruct p; cbn [header_ok] in Hp; lia.
  - specialize (P1 Logic.I). destruct pp; lia.
Qed.
Print Assumptions C82_memory.

(** C83: the number of method calls the executor makes, other than those that end up waiting, is at most sixteen for every byte, failure or call of
    another thread that was consumed, plus one for every answer of write(), plus what the application's own code asks for. *)
Theorem C83_work : forall react w evs st c, run react evs (ARun, start_listen w) = (st, c) ->
  exists new, w_log (c_world c) = w_log w ++ new /\
  (busy react evs (ARun, start_listen w) + 16 * amount (w_in (c_world c)) + length (w_wr (c_world c)) <=
   16 * amount (w_in w ++ arrivals evs) + 4 + length (w_wr w) + chores react (w_log w) new)%nat.
Proof.
  intros react w evs st c E.
  destruct (run_fine react 0%Z False (fun x => match x with end) evs ARun (start_listen w) st c (fun x => match x with end)) as [_ (new & H1 & H2)]; [|exact E|].
  { apply start_inv. intros []. }
  exists new. split; [exact H1|]. unfold pot in H2. cbn [c_world c_stack start_listen rank rk] in H2. change (wts [CoListen]) with 0%nat in H2. rewrite amount_app. lia.
Qed.
Print Assumptions C83_work.

Lemma chores_le react k new : (forall l log, (length (react l log) <= k)%nat) -> forall log, (chores react log new <= (1 + 30 * k) * length new)%nat.
Proof. intros Hk. induction new as [|e new IH]; intros log; cbn [chores length]; [lia|]. specialize (IH (log ++ [e])). specialize (Hk (fst e) (log ++ [e])). nia. Qed.
Lemma bytes_amount s : (length (bytes_of s) <= amount s)%nat.
Proof. induction s as [|[b bs|e|x] s IH]; cbn [bytes_of amount]; [cbn; lia| |exact (Nat.le_trans _ _ _ IH (Nat.le_succ_diag_r _))..]. rewrite ?app_comm_cons, app_length. cbn [length]. lia. Qed.

(** If no callback consists of more than [k] commands, the work is linear in what arrived. *)
Theorem C83_linear : forall react k w evs, (forall l log, (length (react l log) <= k)%nat) ->
  (busy react evs (ARun, start_listen w) <= (17 + 30 * k) * amount (w_in w ++ arrivals evs) + length (w_wr w) + 4)%nat.
Proof.
  intros react k w evs Hk. destruct (run react evs (ARun, start_listen w)) as [st c] eqn:E.
  destruct (C83_work react w evs st c E) as (new & H1 & H2). destruct (C66_async react w evs st c E) as (new' & cns & G1 & G2 & G3 & _).
  assert (new' = new) as -> by (rewrite H1 in G1; apply app_inv_head in G1; congruence).
  pose proof (chores_le react k new Hk (w_log w)) as H3. pose proof (bytes_amount (w_in w ++ arrivals evs)) as H4. rewrite G2, app_length in H4.
  assert (length new <= amount (w_in w ++ arrivals evs))%nat as H5 by (unfold lenN in G3; lia).
  assert ((1 + 30 * k) * length new <= (1 + 30 * k) * amount (w_in w ++ arrivals evs))%nat as H6 by (apply Nat.mul_le_mono_l, H5). lia.
Qed.
Print Assumptions C83_linear.

(** ** ... and therefore the executor gets to do other things: after that many method calls in a row listenAsync has ended or waits. *)
Lemma pending_again n s k s' k' : read_raw n s k = (RPending, s', k') -> s' = [].
Proof. revert k. induction s as [|[b bs|e|x] s IH]; intros k; cbn [read_raw]; [congruence|congruence|congruence|apply IH]. Qed.
Lemma readExact_again n got w w' : readExactAsyncInline n got w = (IWait, w') -> readExactAsyncInline n got w' = (IWait, w').
Proof.
  unfold readExactAsyncInline. destruct (n <=? lenN got); [discriminate|]. destruct (read_raw _ _ _) as [[r s'] k'] eqn:E. cbv zeta.
  destruct r as [d|[]|]; try discriminate. apply pending_again in E. subst s'. intros [= <-]. cbn [set_sock set_in w_in w_sock read_raw]. reflexivity.
Qed.
Lemma readSome_again n w w' : readSomeAsyncInline n w = (IWait, w') -> readSomeAsyncInline n w' = (IWait, w').
Proof.
  unfold readSomeAsyncInline. destruct (n <=? 0)%Z; [discriminate|]. destruct (read_raw _ _ _) as [[r s'] k'] eqn:E. cbv zeta.
  destruct r as [d|[]|]; try discriminate. apply pending_again in E. subst s'. intros [= <-]. cbn [set_sock set_in w_in w_sock read_raw]. reflexivity.
Qed.
Lemma write_again d w w' : writeExactAsyncInline d w = (IWait, w') -> w' = w.
Proof. unfold writeExactAsyncInline. destruct d; [discriminate|]. destruct (w_wr w) as [|[n|[]|] q]; congruence. Qed.
Lemma fail_wait e c c' : fail e c <> (AWait, c').
Proof. unfold fail. destruct (unwind _); congruence. Qed.
Lemma wait_again react c c' : step react c = (AWait, c') -> step react c' = (AWait, c').
Proof.
  destruct c as [h s st w]. cbn [step]. destruct st as [|co K]; [discriminate|].
  destruct co as [|p|l p|l us al pr p|fin op m hh p|hh p|cs f|].
  - destruct (_ =? _); discriminate.
  - unfold step_readFrame. cbv zeta. destruct p as [got|bb|t got|t d|got].
    1,3,5: destruct (readExactAsyncInline _ got w) as [[d|d| |] w1] eqn:E; intros H; try discriminate H; try (now apply fail_wait in H);
      injection H as <-; cbn [step]; unfold step_readFrame; cbv zeta; now rewrite (readExact_again _ _ _ _ E).
    + destruct (unpackHeaderBits _ _) as [h1 l1]. destruct (_ <? _); [discriminate|]. destruct (_ =? _); [discriminate|]. destruct (_ =? _); [discriminate|]. intros H. now apply fail_wait in H.
    + destruct (h_hasMask _); discriminate.
  - unfold step_handle. cbv zeta. intros H. exfalso. revert H.
    assert (forall us nx sh w0, match readPayloadAsync h us w0 with inl e => fail e (Conf h sh K w0) | inr co => (ARun, Conf h sh (co :: CoHandle l nx :: K) w0) end <> (AWait, c')) as HP.
    { intros us nx sh w0. destruct (readPayloadAsync h us w0); [apply fail_wait|discriminate]. }
    destruct p.
    + destruct (h_opcode h) as [|[[[[q|q|]|[q|q|]|]|[[q|q|]|[q|q|]|]|]|[[[q|q|]|[q|q|]|]|[[q|q|]|[q|q|]|]|]|]];
        first [apply fail_wait|apply HP|idtac].
      * destruct (_ <? _)%Z; [apply fail_wait|apply HP].
      * destruct (checkForContinuationA h w) as [[] w1]; [apply HP|apply fail_wait].
      * destruct (checkForContinuationA h w) as [[] w1]; [apply HP|apply fail_wait].
    + destruct l; discriminate.
    + destruct l; discriminate.
    + destruct l; discriminate.
    + discriminate.
  - unfold step_payload. cbv zeta. destruct p as [|n|d|].
    + destruct (_ <? _)%Z; [discriminate|]. destruct (_ && _)%bool; [destruct l; discriminate|discriminate].
    + destruct (readSomeAsyncInline n w) as [[d|d| |] w1] eqn:E; intros H; try discriminate H; try (now apply fail_wait in H).
      * destruct (_ <? _)%Z; discriminate.
      * injection H as <-. cbn [step]. unfold step_payload. cbv zeta. now rewrite (readSome_again _ _ _ E).
    + destruct d; [intros H; now apply fail_wait in H|]. destruct us; [discriminate|]. destruct l; discriminate.
    + discriminate.
  - unfold step_send. destruct p as [| |d|].
    + destruct m as [[|b m]|]; destruct (sendFrameHeaderAsync _ _ _ _ _) as [[? ?] ?]; discriminate.
    + cbv zeta. destruct (h_hasMask hh); [destruct (_ <=? _)|]; discriminate.
    + destruct (writeExactAsyncInline d w) as [[d0|d0| |] w1] eqn:E; intros H; try discriminate H; try (now apply fail_wait in H).
      injection H as <-. pose proof (write_again _ _ _ E) as ->. cbn [step]. unfold step_send. now rewrite E.
    + discriminate.
  - unfold step_writeFrame. cbv zeta. destruct p as [d| |d| |d].
    1,3,5: destruct (writeExactAsyncInline d w) as [[d0|d0| |] w1] eqn:E; intros H; try discriminate H; try (now apply fail_wait in H);
      injection H as <-; pose proof (write_again _ _ _ E) as ->; cbn [step]; unfold step_writeFrame; cbv zeta; now rewrite E.
    + destruct (_ =? 2); [discriminate|]. destruct (_ =? 3); discriminate.
    + destruct (h_hasMask hh); discriminate.
  - unfold step_user. destruct cs as [|[|l|mm b|catch op| | |fin opcode mm] cs]; cbv zeta; try discriminate.
    + destruct f; discriminate.
    + intros H. now apply fail_wait in H.
  - discriminate.
Qed.

Lemma ticks_off react st c n : st <> ARun -> (st = AWait -> step react c = (AWait, c)) -> run react (ticks n) (st, c) = (st, c).
Proof.
  intros H1 H2. induction n as [|n IH]; [reflexivity|]. cbn [ticks run]. destruct st; cbn [tick]; try exact IH; [congruence|]. rewrite (H2 eq_refl). exact IH.
Qed.
Lemma busy_all react n : forall c st c', run react (ticks n) (ARun, c) = (st, c') -> st = ARun -> busy react (ticks n) (ARun, c) = n.
Proof.
  induction n as [|n IH]; intros c st c' E Est; [reflexivity|]. cbn [ticks run busy tick] in *. destruct (step react c) as [st1 c1] eqn:E1. cbn [fst].
  destruct st1.
  - rewrite (IH _ _ _ E Est). reflexivity.
  - rewrite ticks_off in E; [congruence|discriminate|]. intros _. exact (wait_again _ _ _ E1).
  - rewrite ticks_off in E; [congruence|discriminate|discriminate].
  - rewrite ticks_off in E; [congruence|discriminate|discriminate].
  - rewrite ticks_off in E; [congruence|discriminate|discriminate].
Qed.

Lemma busy_app react a : forall b s, busy react (a ++ b) s = (busy react a s + busy react b (run react a s))%nat.
Proof.
  induction a as [|[|x] a IH]; intros b s; [reflexivity| |].
  - change ((Tick :: a) ++ b) with (Tick :: (a ++ b)). cbn [busy run]. rewrite IH. lia.
  - change ((Arrive x :: a) ++ b) with (Arrive x :: (a ++ b)). destruct s as [st c]. cbn [busy run]. apply IH.
Qed.
Lemma busy_all_from react n st0 c0 st c' : run react (ticks n) (st0, c0) = (st, c') -> st = ARun -> busy react (ticks n) (st0, c0) = n.
Proof.
  intros E Est. destruct st0.
  - exact (busy_all _ _ _ _ _ E Est).
  - destruct n as [|n]; [reflexivity|]. cbn [ticks run busy tick] in *. destruct (step react c0) as [st1 c1] eqn:E1. cbn [fst].
    destruct st1.
    + now rewrite (busy_all _ _ _ _ _ E Est).
    + rewrite ticks_off in E; [congruence|discriminate|]. intros _. exact (wait_again _ _ _ E1).
    + rewrite ticks_off in E; [congruence|discriminate|discriminate].
    + rewrite ticks_off in E; [congruence|discriminate|discriminate].
    + rewrite ticks_off in E; [congruence|discriminate|discriminate].
  - rewrite ticks_off in E; [congruence|discriminate|discriminate].
  - rewrite ticks_off in E; [congruence|discriminate|discriminate].
  - rewrite ticks_off in E; [congruence|discriminate|discriminate].
Qed.

(** After any history. *)
Theorem C83_yields : forall react k w evs n, (forall l log, (length (react l log) <= k)%nat) ->
  ((17 + 30 * k) * amount (w_in w ++ arrivals evs) + length (w_wr w) + 4 < n)%nat ->
  fst (run react (evs ++ ticks n) (ARun, start_listen w)) <> ARun.
Proof.
  intros react k w evs n Hk Hn E. rewrite run_app in E. destruct (run react evs (ARun, start_listen w)) as [st0 c0] eqn:E0.
  destruct (run react (ticks n) (st0, c0)) as [st c] eqn:E1. cbn [fst] in E.
  pose proof (busy_all_from react n _ _ _ _ E1 E) as H1. pose proof (C83_linear react k w (evs ++ ticks n) Hk) as H2.
  rewrite busy_app, E0, H1 in H2.
  assert (arrivals (evs ++ ticks n) = arrivals evs) as H3.
  { clear. induction evs as [|[|s] evs IH]; cbn; [induction n; [reflexivity|assumption]|exact IH|now rewrite IH]. }
  rewrite H3 in H2. lia.
Qed.
Print Assumptions C83_yields.

(** Two messages, a Ping answered, a reconfiguration. *)
Definition cost_react : react_t := fun _ log => match last log (0%nat, EvEnd 0) with (_, EvPing m) => [CSend true (SoPong (Some m)); CSetConfig false 3%Z] | _ => [CUseData] end.
Definition cost_world : world := World [] [] [] (fun _ => x00) 0 [] (Sock false 4 (Some 7%nat) (-1) false).
Definition cost_evs : list xev := ticks 3 ++ Arrive [RData x89 [x02; x61; x62; x82]] :: ticks 40 ++ Arrive [RData x07 [x61; x62; x63; x64; x65]; RIo IoRetry] :: ticks 60 ++ [Arrive [RData x66 [x67]]] ++ ticks 40.
Example C82_nonvacuous :
  (forall l log, Forall (cfg_cmd 4) (cost_react l log)) /\ Forall (cfg_ev 4) (w_in cost_world ++ arrivals cost_evs) /\
  match run cost_react cost_evs (ARun, start_listen cost_world) with
  | (st, c) => st = AWait /\ map snd (w_log (c_world c)) = [EvPing [x61; x62]; EvMsg 2 [x61; x62; x63]; EvMsg 2 [x64; x65]; EvMsg 2 [x66; x67]; EvEnd 2] /\
    w_out (c_world c) = [x8a; x02; x61; x62]
  end.
Proof.
  split; [|split; [cbn; repeat constructor|vm_compute; repeat split]].
  intros l log. unfold cost_react. destruct (last log _) as [? []]; repeat constructor; cbn; lia.
Qed.
Example C83_nonvacuous :
  (forall l log, (length (cost_react l log) <= 2)%nat) /\
  busy cost_react cost_evs (ARun, start_listen cost_world) = 53%nat /\ amount (arrivals cost_evs) = 14%nat /\
  fst (run cost_react (ticks 30) (ARun, start_listen cost_world)) = AWait.
Proof.
  split; [|vm_compute; repeat split]. intros l log. unfold cost_react. destruct (last log _) as [? []]; cbn; lia.
Qed.
