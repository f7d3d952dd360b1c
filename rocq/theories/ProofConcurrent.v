(** Lemmas about concurrent senders. *)
From Verif Require Import Bytes Frame World WebSocket AsyncWebSocket SpecFrame SpecSend Concurrent SpecConcurrent
  ProofFrame ProofStream ProofSend.
From Coq Require Import ZifyBool ZifyNat ZifyN.
Local Open Scope N_scope.
Local Open Scope m_scope.
Local Arguments takeN : simpl never.
Local Arguments dropN : simpl never.
Local Arguments lenN : simpl never.
Local Arguments be_enc : simpl never.
Local Arguments be_dec : simpl never.
Local Arguments packHeaderBits : simpl never.

(** * One sendOneFrame is the sequence of its writes *)

Definition as_issue {A} (done : A -> bool) (m : M A) (cs : list bytes) : Prop :=
  forall w, exists o r w', m w = (o, w') /\ issue cs w = (r, w') /\
    same_report (match o with Ret a => Ret (done a) | Throw e => Throw e | Wait => Wait | Ub u => Ub u | OutOfFuel => OutOfFuel end) r.

Lemma issue_app a b w : issue (a ++ b) w = (ok <- issue a ;; if (ok : bool) then issue b else ret false) w.
Proof.
  revert w. induction a as [|c a IH]; intros w; [reflexivity|].
  cbn [app issue]. unfold bind. destruct (writeExactSizeDataSimple c w) as [[n| | | |] w1]; try reflexivity.
  destruct (n =? lenN c); [|reflexivity]. rewrite IH. reflexivity.
Qed.

Lemma as_issue_nil {A} (a : A) : as_issue (fun _ => true) (ret a) [].
Proof. intros w. exists (Ret a), (Ret true), w. repeat split. Qed.

Lemma as_issue_true : as_issue (fun b : bool => b) (ret true) [].
Proof. intros w. exists (Ret true), (Ret true), w. repeat split. Qed.

Lemma as_issue_write d n e : lenN d = n ->
  as_issue (fun _ => true) (res <- writeExactSizeDataSimple d ;; if negb (res =? n) then throw e else ret tt) [d].
Proof.
  intros <- w. cbn [issue]. unfold bind.
  unfold writeExactSizeDataSimple. destruct (writeExact_raw d (w_wr w)) as [[r a] q].
  destruct r.
  - destruct (lenN a =? lenN d); cbn; do 3 eexists; repeat split.
  - destruct (lenN a =? lenN d); cbn; do 3 eexists; repeat split.
  - do 3 eexists; repeat split.
Qed.

Lemma as_issue_seq {A} (m1 : M unit) (m2 : M A) done c1 c2 :
  as_issue (fun _ => true) m1 c1 -> as_issue done m2 c2 -> as_issue done (m1 ;;; m2) (c1 ++ c2).
Proof.
  intros H1 H2 w. rewrite issue_app. unfold bind.
  destruct (H1 w) as (o & r & w' & E1 & E2 & S). rewrite E1, E2.
  destruct o; cbn in S.
  - destruct r; try contradiction. subst. apply H2.
  - destruct r as [[]| | | |]; try contradiction. do 3 eexists; repeat split.
  - destruct r; try contradiction. do 3 eexists; repeat split.
  - destruct r; contradiction.
  - destruct r; contradiction.
Qed.

Lemma as_issue_ext {A} (m m' : M A) done cs : (forall w, m w = m' w) -> as_issue done m' cs -> as_issue done m cs.
Proof. intros H H1 w. rewrite H. apply H1. Qed.

Lemma bind_assoc_if {A} d (n : N) e (k : M A) w :
  (res <- writeExactSizeDataSimple d ;; if negb (res =? n) then throw e else k) w =
  ((res <- writeExactSizeDataSimple d ;; if negb (res =? n) then throw e else ret tt) ;;; k) w.
Proof.
  unfold bind. destruct (writeExactSizeDataSimple d w) as [[] w1]; try reflexivity.
  destruct (a =? n); reflexivity.
Qed.

Lemma writeFrameHeader_issue h :
  as_issue (fun _ => true) (writeFrameHeader h) (be_enc 2 (fst (packHeaderBits h)) :: len_write h ++ mask_write h).
Proof.
  unfold writeFrameHeader, len_write, mask_write. destruct (packHeaderBits h) as [bb sc]. cbn [fst snd].
  eapply as_issue_ext; [intros w; apply bind_assoc_if|].
  match goal with |- as_issue _ _ (?c :: ?r) => change (c :: r) with ([c] ++ r) end.
  apply as_issue_seq; [apply as_issue_write, lenN_be_enc|].
  apply as_issue_seq.
  - destruct (sc =? 2); [apply as_issue_write, lenN_be_enc|].
    destruct (sc =? 3); [|apply as_issue_nil].
    apply as_issue_write. rewrite lenN_app, !lenN_be_enc. reflexivity.
  - destruct (h_hasMask h); [apply as_issue_write; reflexivity|apply as_issue_nil].
Qed.

Lemma sendOneFrame_issue fin opcode m w :
  (s_mask (w_sock w) = true -> lenN (msg_of m) < 2 ^ 31) ->
  exists o r w', sendOneFrame fin opcode m w = (o, w') /\
    issue (writes (fst (frame_header fin opcode m w)) m) (snd (frame_header fin opcode m w)) = (r, w') /\
    same_report o r.
Proof.
  intros Hz.
  assert (forall k,
    (h <- sendFrameHeader header_init fin opcode (match m with Some (b :: bs) => Z.of_N (lenN (b :: bs)) | _ => 0%Z end) ;; k h) w =
    (writeFrameHeader (fst (frame_header fin opcode m w)) ;;; (k (fst (frame_header fin opcode m w)) : M bool))
      (snd (frame_header fin opcode m w))) as Hk.
  { intros k. unfold frame_header, sendFrameHeader.
    cbv beta delta [bind get ret randomBytes] iota zeta. cbn [h_hasMask header_init h_mask].
    destruct (s_mask (w_sock w)) eqn:Em; cbn [fst snd];
      destruct (writeFrameHeader _ _) as [[] w1]; reflexivity. }
  assert (h_hasMask (fst (frame_header fin opcode m w)) = s_mask (w_sock w)) as Hm.
  { unfold frame_header. destruct (s_mask (w_sock w)); reflexivity. }
  destruct m as [[|b bs]|].
  - unfold sendOneFrame.
    destruct (as_issue_seq _ _ (fun b : bool => b) _ [] (writeFrameHeader_issue (fst (frame_header fin opcode (Some []) w)))
      as_issue_true (snd (frame_header fin opcode (Some []) w))) as (o & r & w' & E1 & E2 & S).
    exists o, r, w'. split; [exact (eq_trans (Hk (fun _ => ret true)) E1)|]. split; [|destruct o; exact S].
    unfold writes, payload_write. rewrite app_nil_r in E2. rewrite app_nil_r. exact E2.
  - unfold sendOneFrame.
    set (msg := b :: bs) in *. set (h := fst (frame_header _ _ _ _)) in *.
    assert (as_issue (fun b : bool => b)
       (res <- (if h_hasMask h then
              if 2 ^ 31 <=? lenN msg then undef UbSigned
              else writeExactSizeDataSimple (xor_from (h_mask h) 0 msg)
            else writeExactSizeDataSimple msg) ;;
        ret (res =? lenN msg)) (payload_write h (Some msg))) as Hp.
    { unfold payload_write, msg. fold msg.
      assert (forall d, lenN d = lenN msg -> as_issue (fun b : bool => b)
               (res <- writeExactSizeDataSimple d ;; ret (res =? lenN msg)) [d]) as Hd.
      { intros d Hd w0. cbn [issue]. unfold bind. unfold writeExactSizeDataSimple.
        destruct (writeExact_raw d (w_wr w0)) as [[r a] q]. rewrite Hd.
        destruct r; [| |do 3 eexists; repeat split];
          destruct (lenN a =? lenN msg); cbn; do 3 eexists; repeat split. }
      destruct (h_hasMask h) eqn:Eh.
      - replace (2 ^ 31 <=? lenN msg) with false.
        + apply Hd. apply lenN_xor_from.
        + symmetry. apply N.leb_gt. apply Hz. congruence.
      - apply Hd. reflexivity. }
    destruct (as_issue_seq _ _ _ _ _ (writeFrameHeader_issue h) Hp (snd (frame_header fin opcode (Some msg) w)))
      as (o & r & w' & E1 & E2 & S).
    exists o, r, w'. split.
    + exact (eq_trans (Hk (fun h => res <- (if h_hasMask h then
              if 2 ^ 31 <=? lenN msg then undef UbSigned
              else writeExactSizeDataSimple (xor_from (h_mask h) 0 msg)
            else writeExactSizeDataSimple msg) ;;
        ret (res =? lenN msg))) E1).
    + split; [|destruct o; exact S].
      unfold writes. rewrite app_assoc. exact E2.
  - unfold sendOneFrame.
    destruct (as_issue_seq _ _ (fun b : bool => b) _ [] (writeFrameHeader_issue (fst (frame_header fin opcode None w)))
      as_issue_true (snd (frame_header fin opcode None w))) as (o & r & w' & E1 & E2 & S).
    exists o, r, w'. split; [exact (eq_trans (Hk (fun _ => ret true)) E1)|]. split; [|destruct o; exact S].
    unfold writes, payload_write. rewrite app_nil_r in E2. rewrite app_nil_r. exact E2.
Qed.

(** On a connection that takes everything. *)
Lemma issue_all cs w : w_wr w = [] -> exists w', issue cs w = (Ret true, w') /\ w_out w' = w_out w ++ concat cs.
Proof.
  revert w. induction cs as [|c cs IH]; intros w Hw.
  - exists w. cbn [issue concat]. rewrite app_nil_r. split; reflexivity.
  - cbn [issue concat]. unfold bind, writeExactSizeDataSimple. rewrite Hw.
    assert (writeExact_raw c [] = (WDone, c, [])) as -> by (destruct c; reflexivity).
    rewrite N.eqb_refl. destruct (IH (set_wr w (w_out w ++ c) []) eq_refl) as (w' & E & Ho).
    exists w'. split; [exact E|]. rewrite Ho. cbn [w_out set_wr]. now rewrite app_assoc.
Qed.

Definition key_now (w : world) : option mask4 := next_key_opt w.

(** The writes of one call, one after the other, are the RFC frame. *)
Lemma concat_writes fin opcode m w :
  lenN (msg_of m) < 2 ^ 63 -> (s_mask (w_sock w) = true -> lenN (msg_of m) < 2 ^ 31) ->
  concat (writes (fst (frame_header fin opcode m w)) m) = raw_wire (next_key_opt w) fin opcode (msg_of m).
Proof.
  intros Hl Hz.
  set (w0 := set_wr w [] []).
  assert (fst (frame_header fin opcode m w) = fst (frame_header fin opcode m w0)) as ->.
  { unfold frame_header, w0. cbn [w_sock set_wr w_rnd w_rpos]. destruct (s_mask (w_sock w)); reflexivity. }
  assert (next_key_opt w = next_key_opt w0) as -> by reflexivity.
  destruct (sendOneFrame_issue fin opcode m w0 Hz) as (o & r & w' & E1 & E2 & _).
  destruct (issue_all (writes (fst (frame_header fin opcode m w0)) m) (snd (frame_header fin opcode m w0))) as (w2 & E3 & Ho).
  { unfold frame_header. destruct (s_mask (w_sock w0)); reflexivity. }
  assert (w2 = w') as -> by congruence.
  apply sendOneFrame_spec in E1; [|exact Hl]. destruct E1 as (_ & _ & _ & _ & H).
  destruct (H (Forall_nil _) Hz) as (_ & Ho' & _).
  assert (w_out (snd (frame_header fin opcode m w0)) = []) as Hn.
  { unfold frame_header. destruct (s_mask (w_sock w0)); reflexivity. }
  rewrite Hn in Ho. change (w_out w0) with (@nil byte) in Ho'. cbn [app] in *. congruence.
Qed.

(** * Steps *)

Lemma upd_same {A} (f : nat -> A) i x : upd f i x i = x.
Proof. unfold upd. now rewrite Nat.eqb_refl. Qed.
Lemma upd_other {A} (f : nat -> A) i j x : j <> i -> upd f i x j = f j.
Proof. unfold upd. intros H. destruct (Nat.eqb_spec j i); congruence. Qed.

Lemma write_step c w : healthy (w_wr w) ->
  match writeExactAsyncInline c w with
  | (INext _, w') => c = [] /\ w' = w
  | (IAgain c', w') => exists a, c = a ++ c' /\ w_out w' = w_out w ++ a /\ healthy (w_wr w') /\ w_sock w' = w_sock w
  | _ => False
  end.
Proof.
  intros Hh. unfold writeExactAsyncInline. destruct c as [|b c]; [auto|].
  destruct (w_wr w) as [|[n|[]|] q] eqn:Eq; try (inversion Hh; subst; contradiction).
  - exists (b :: c). rewrite app_nil_r. repeat split; auto.
  - inversion Hh; subst. exists (takeN (N.pos n) (b :: c)). rewrite take_drop. repeat split; auto.
  - inversion Hh; subst. exists []. cbn. rewrite app_nil_r. repeat split; auto.
Qed.

Lemma send_args_request op : match send_args op with (fin, opcode, m) => request op = (fin, opcode, msg_of m) end.
Proof. destruct op as [fin c [m|]|code [m|]| |[m|]|[m|]|[m|]|[m|]]; reflexivity. Qed.

Lemma enter_call op w h w' fin opcode m :
  fits (s_mask (w_sock w)) op -> send_args op = (fin, opcode, m) -> frame_header fin opcode m w = (h, w') ->
  concat (writes h m) = sent_wire (next_key_opt w) op /\ w_out w' = w_out w /\ w_wr w' = w_wr w /\ w_sock w' = w_sock w.
Proof.
  intros [H1 H2] Ea Ef. pose proof (send_args_request op) as Hr. rewrite Ea in Hr.
  assert (req_payload op = msg_of m) as Hp by (unfold req_payload; now rewrite Hr). rewrite Hp in *.
  pose proof (concat_writes fin opcode m w H1 H2) as Hc. rewrite Ef in Hc. cbn [fst] in Hc. rewrite Hc.
  split. { unfold sent_wire, frame_for, raw_wire, raw_frame, req_fin, req_opcode. rewrite Hp, Hr. reflexivity. }
  unfold frame_header in Ef. destruct (s_mask (w_sock w)) eqn:Em; injection Ef as <- <-; repeat split; auto.
Qed.

Lemma fits_any b op : fits true op -> fits b op.
Proof. intros [H1 H2]. split; auto. Qed.

(** * Locked schedules *)

Definition ops_by (i : nat) (l : list sent) : list sendop := map sent_op (filter (sent_by i) l).

Lemma ops_by_app i a b : ops_by i (a ++ b) = ops_by i a ++ ops_by i b.
Proof. unfold ops_by. now rewrite filter_app, map_app. Qed.
Lemma ops_by_one i j op k : ops_by i [(j, op, k)] = if Nat.eqb j i then [op] else [].
Proof. unfold ops_by, sent_by. cbn. destruct (Nat.eqb j i); reflexivity. Qed.

Definition lock_inv (todo : nat -> list sendop) (out0 : bytes) (s : (nat -> sender) * world) : Prop :=
  healthy (w_wr (snd s)) /\
  exists done cur part,
    w_out (snd s) = out0 ++ concat (map sent_bytes done) ++ part /\
    match cur with
    | None => part = [] /\ (forall j, d_now (fst s j) = []) /\ forall j, ops_by j done ++ d_todo (fst s j) = todo j
    | Some (i, op, k) =>
      part ++ concat (d_now (fst s i)) = sent_wire k op /\
      (forall j, j <> i -> d_now (fst s j) = []) /\
      (forall j, ops_by j (done ++ [(i, op, k)]) ++ d_todo (fst s j) = todo j)
    end.

Lemma lock_normalise todo out0 f w done i op k part :
  w_out w = out0 ++ concat (map sent_bytes done) ++ part ->
  part ++ concat (d_now (f i)) = sent_wire k op -> d_now (f i) = [] ->
  (forall j, j <> i -> d_now (f j) = []) ->
  (forall j, ops_by j (done ++ [(i, op, k)]) ++ d_todo (f j) = todo j) ->
  exists done', w_out w = out0 ++ concat (map sent_bytes done') ++ [] /\ (forall j, d_now (f j) = []) /\
    forall j, ops_by j done' ++ d_todo (f j) = todo (j : nat).
Proof.
  intros Ho Hp Hn Hj Ht. exists (done ++ [(i, op, k)]).
  rewrite Hn in Hp. cbn in Hp. rewrite app_nil_r in Hp. subst part. split.
  - rewrite Ho, map_app, concat_app. cbn. now rewrite !app_nil_r.
  - split; [|exact Ht]. intros j. destruct (Nat.eq_dec j i) as [->|]; auto.
Qed.

Lemma lock_step todo out0 i s :
  all_fit todo -> lock_inv todo out0 s -> (forall j, j <> i -> d_now (fst s j) = []) -> lock_inv todo out0 (cstep i s).
Proof.
  intros Hfit (Hh & done & cur & part & Ho & Hc) Hothers. destruct s as [f w]. cbn [fst snd] in *.
  (* the start of a call, everybody outside *)
  assert (forall done', w_out w = out0 ++ concat (map sent_bytes done') ++ [] -> (forall j, d_now (f j) = []) ->
    (forall j, ops_by j done' ++ d_todo (f j) = todo j) -> lock_inv todo out0 (cstep i (f, w))) as Hstart.
  { intros done' Ho' Hn' Ht'. unfold cstep. rewrite Hn'. destruct (d_todo (f i)) as [|op r] eqn:Et.
    - split; [exact Hh|]. exists done', None, []. split; [exact Ho'|]. auto.
    - destruct (send_args op) as [[fin opcode] m] eqn:Ea. destruct (frame_header fin opcode m w) as [h w'] eqn:Ef.
      assert (fits true op) as Hf.
      { specialize (Ht' i). rewrite Et in Ht'. pose proof (Hfit i) as Hi. rewrite <- Ht' in Hi.
        rewrite Forall_app in Hi. destruct Hi as [_ Hi]. now inversion Hi. }
      destruct (enter_call op w h w' fin opcode m (fits_any _ _ Hf) Ea Ef) as (Hw & Hout & Hwr & _).
      split; [cbn; now rewrite Hwr|]. exists done', (Some (i, op, next_key_opt w)), []. cbn [fst snd]. rewrite Hout.
      split; [exact Ho'|]. rewrite upd_same. cbn [d_now app]. split; [exact Hw|]. split.
      + intros j Hj. now rewrite upd_other by auto.
      + intros j. rewrite ops_by_app, ops_by_one. destruct (Nat.eqb_spec i j) as [<-|Hne].
        * rewrite upd_same. cbn [d_todo]. rewrite <- (Ht' i), Et, <- app_assoc. reflexivity.
        * rewrite upd_other by auto. rewrite app_nil_r. apply Ht'. }
  destruct cur as [[[a op] k]|].
  - destruct Hc as (Hp & Hj & Ht).
    destruct (d_now (f a)) as [|c cs] eqn:Ea.
    + destruct (lock_normalise todo out0 f w done a op k part) as (done' & H1 & H2 & H3); auto.
      { now rewrite Ea. } eauto.
    + destruct (Nat.eq_dec a i) as [->|Hne]; [|rewrite Hothers in Ea by auto; discriminate].
      unfold cstep. rewrite Ea. pose proof (write_step c w Hh) as Hw.
      destruct (writeExactAsyncInline c w) as [[x|c'| |] w'] eqn:Ew; try contradiction.
      * destruct Hw as [-> ->]. split; [exact Hh|]. exists done, (Some (i, op, k)), part. cbn [fst snd].
        split; [exact Ho|]. rewrite upd_same. cbn [d_now]. split; [exact Hp|]. split.
        -- intros j Hjn. rewrite upd_other by auto. auto.
        -- intros j. rewrite <- (Ht j). destruct (Nat.eq_dec j i) as [->|]; [now rewrite upd_same|now rewrite upd_other by auto].
      * destruct Hw as (b & -> & Hout & Hh' & _). split; [exact Hh'|]. exists done, (Some (i, op, k)), (part ++ b).
        cbn [fst snd]. split; [rewrite Hout, Ho; now rewrite <- !app_assoc|].
        rewrite upd_same. cbn [d_now concat]. split.
        { rewrite <- Hp. cbn [concat]. now rewrite <- !app_assoc. }
        split.
        -- intros j Hjn. rewrite upd_other by auto. auto.
        -- intros j. rewrite <- (Ht j). destruct (Nat.eq_dec j i) as [->|]; [now rewrite upd_same|now rewrite upd_other by auto].
  - destruct Hc as (-> & Hn & Ht). eauto.
Qed.

Lemma lock_run todo out0 sch s :
  all_fit todo -> lock_inv todo out0 s -> locked sch s -> lock_inv todo out0 (crun sch s).
Proof.
  intros Hf. revert s. induction sch as [|i r IH]; intros s Hi Hl; [exact Hi|].
  destruct Hl as [H1 H2]. cbn [crun]. apply IH; [|exact H2]. now apply lock_step.
Qed.

Lemma lock_start todo w : healthy (w_wr w) -> lock_inv todo (w_out w) (threads todo, w).
Proof.
  intros H. split; [exact H|]. exists [], None, []. cbn. rewrite app_nil_r. auto.
Qed.

Lemma lock_end todo out0 s : lock_inv todo out0 s -> all_done (fst s) ->
  exists l, merge_of todo l /\ w_out (snd s) = out0 ++ concat (map sent_bytes l).
Proof.
  intros (_ & done & cur & part & Ho & Hc) Hd. destruct cur as [[[i op] k]|].
  - destruct Hc as (Hp & Hj & Ht).
    destruct (lock_normalise todo out0 (fst s) (snd s) done i op k part) as (done' & H1 & _ & H3); auto; [apply Hd|].
    exists done'. rewrite app_nil_r in H1. split; [|exact H1]. intros j. rewrite <- (H3 j). destruct (Hd j) as [_ ->].
    now rewrite app_nil_r.
  - destruct Hc as (-> & _ & Ht). exists done. rewrite app_nil_r in Ho. split; [|exact Ho].
    intros j. rewrite <- (Ht j). destruct (Hd j) as [_ ->]. now rewrite app_nil_r.
Qed.

(** * Any schedule: a shuffle of the byte streams *)

Lemma from_app i a b : from i (a ++ b) = from i a ++ from i b.
Proof. unfold from. now rewrite filter_app, map_app. Qed.
Lemma from_label i j (b : bytes) : from i (map (pair j) b) = if Nat.eqb j i then b else [].
Proof.
  unfold from. induction b as [|x b IH]; [now destruct (Nat.eqb j i)|]. cbn.
  destruct (Nat.eqb_spec j i) as [->|]; cbn; [now rewrite IH|exact IH].
Qed.
Lemma snd_label j (b : bytes) : map snd (map (pair (j : nat)) b) = b.
Proof. induction b; cbn; congruence. Qed.

Definition shuffle_inv (todo : nat -> list sendop) (out0 : bytes) (s : (nat -> sender) * world) : Prop :=
  healthy (w_wr (snd s)) /\
  exists lab, w_out (snd s) = out0 ++ map snd lab /\
  forall i, exists done : list (sendop * option mask4),
    from i lab ++ concat (d_now (fst s i)) = concat (map (fun x => sent_wire (snd x) (fst x)) done) /\
    map fst done ++ d_todo (fst s i) = todo i.

Lemma shuffle_step todo out0 i s : all_fit todo -> shuffle_inv todo out0 s -> shuffle_inv todo out0 (cstep i s).
Proof.
  intros Hfit (Hh & lab & Ho & Hi). destruct s as [f w]. cbn [fst snd] in *. unfold cstep.
  destruct (d_now (f i)) as [|c cs] eqn:En.
  - destruct (d_todo (f i)) as [|op r] eqn:Et.
    + split; [exact Hh|]. exists lab. auto.
    + destruct (send_args op) as [[fin opcode] m] eqn:Ea. destruct (frame_header fin opcode m w) as [h w'] eqn:Ef.
      destruct (Hi i) as (done & H1 & H2).
      assert (fits true op) as Hf.
      { rewrite Et in H2. pose proof (Hfit i) as Hfi. rewrite <- H2 in Hfi.
        rewrite Forall_app in Hfi. destruct Hfi as [_ Hfi]. now inversion Hfi. }
      destruct (enter_call op w h w' fin opcode m (fits_any _ _ Hf) Ea Ef) as (Hw & Hout & Hwr & _).
      split; [cbn; now rewrite Hwr|]. exists lab. cbn [fst snd]. rewrite Hout. split; [exact Ho|].
      intros j. destruct (Nat.eq_dec j i) as [->|Hj]; [|rewrite upd_other by auto; apply Hi].
      rewrite upd_same. exists (done ++ [(op, next_key_opt w)]). cbn [d_now d_todo].
      rewrite Hw, !map_app, concat_app. cbn [map concat fst snd]. rewrite app_nil_r. split.
      * rewrite <- H1, En. cbn. now rewrite app_nil_r.
      * rewrite <- H2, Et, <- app_assoc. reflexivity.
  - pose proof (write_step c w Hh) as Hw.
    destruct (writeExactAsyncInline c w) as [[x|c'| |] w'] eqn:Ew; try contradiction.
    + destruct Hw as [-> ->]. split; [exact Hh|]. exists lab. split; [exact Ho|].
      intros j. destruct (Nat.eq_dec j i) as [->|Hj]; [|cbn [fst]; rewrite upd_other by auto; apply Hi].
      destruct (Hi i) as (done & H1 & H2). rewrite En in H1. exists done. cbn [fst]. rewrite upd_same. cbn in *. auto.
    + destruct Hw as (b & -> & Hout & Hh' & _). split; [exact Hh'|]. exists (lab ++ map (pair i) b). cbn [fst snd].
      split; [rewrite Hout, Ho, map_app, snd_label; now rewrite <- app_assoc|].
      intros j. destruct (Hi j) as (done & H1 & H2). exists done. rewrite from_app, from_label.
      destruct (Nat.eqb_spec i j) as [<-|Hj].
      * rewrite upd_same. cbn [d_now d_todo concat]. split; [|exact H2]. rewrite <- H1, En. cbn [concat].
        now rewrite <- !app_assoc.
      * rewrite upd_other by auto. rewrite app_nil_r. auto.
Qed.

Lemma shuffle_run todo out0 sch s : all_fit todo -> shuffle_inv todo out0 s -> shuffle_inv todo out0 (crun sch s).
Proof. intros Hf. revert s. induction sch as [|i r IH]; intros s Hi; [exact Hi|]. apply IH. now apply shuffle_step. Qed.

Lemma shuffle_start todo w : healthy (w_wr w) -> shuffle_inv todo (w_out w) (threads todo, w).
Proof.
  intros H. split; [exact H|]. exists []. cbn. rewrite app_nil_r. split; [reflexivity|].
  intros i. exists []. split; reflexivity.
Qed.

(** * Coroutines take the same steps *)

Definition wf_left (h : header) (p : wf_pc) : list bytes :=
  match p with
  | WfAct d => d :: len_write h ++ mask_write h
  | WfOnBb => len_write h ++ mask_write h
  | WfWriteLen d => d :: mask_write h
  | WfOnLen => mask_write h
  | WfWriteMask d => [d]
  end.
Definition wf_ok (h : header) (p : wf_pc) : Prop :=
  match p with
  | WfWriteMask _ => h_hasMask h = true
  | _ => True
  end.

Lemma writes_left h m : writes h m = wf_left h (WfAct (be_enc 2 (fst (packHeaderBits h)))) ++ payload_write h m.
Proof. unfold writes. cbn [wf_left app]. now rewrite <- app_assoc. Qed.

Inductive same_sender : asender -> sender -> Prop :=
| ss_idle todo : same_sender (ASender [] todo) (Sender [] todo)
| ss_act op todo : fits true op -> same_sender (ASender [start_send op] todo) (Sender [] (op :: todo))
| ss_header h p fin opcode m pc todo :
    pc = match m with Some (_ :: _) => SfPrepare | _ => SfFinish end -> lenN (msg_of m) < 2 ^ 31 ->
    same_sender (ASender [CoWrite h p; CoSend fin opcode m h pc] todo) (Sender (wf_left h p ++ payload_write h m) todo)
| ss_prepare h fin opcode b bs todo : lenN (b :: bs) < 2 ^ 31 ->
    same_sender (ASender [CoSend fin opcode (Some (b :: bs)) h SfPrepare] todo) (Sender (payload_write h (Some (b :: bs))) todo)
| ss_write h fin opcode m d todo :
    same_sender (ASender [CoSend fin opcode m h (SfWrite d)] todo) (Sender [d] todo)
| ss_finish h fin opcode m todo :
    same_sender (ASender [CoSend fin opcode m h SfFinish] todo) (Sender [] todo).

Definition same_senders (f : nat -> asender) (g : nat -> sender) : Prop :=
  forall i, same_sender (f i) (g i) /\ Forall (fits true) (d_todo (g i)).

Lemma same_upd f g i a d : same_senders f g -> same_sender a d -> Forall (fits true) (d_todo d) ->
  same_senders (upd f i a) (upd g i d).
Proof.
  intros H Ha Hd j. destruct (Nat.eq_dec j i) as [->|]; [rewrite !upd_same; auto|rewrite !upd_other by auto; apply H].
Qed.

Definition zero_or_one (i : nat) (sch : list nat) : Prop := sch = [] \/ sch = [i].

Lemma wait_same c w : fst (writeExactAsyncInline c w) = IWait -> snd (writeExactAsyncInline c w) = w.
Proof. unfold writeExactAsyncInline. destruct c as [|b c]; [discriminate|]. destruct (w_wr w) as [|[n|[]|] q]; try discriminate. reflexivity. Qed.

Lemma same_step f g w i :
  same_senders f g ->
  exists g' sch, zero_or_one i sch /\ crun sch (g, w) = (g', snd (astep i (f, w))) /\
    same_senders (fst (astep i (f, w))) g'.
Proof.
  intros Hs. destruct (Hs i) as [Hi Hf]. unfold astep.
  inversion Hi as [todo Ea Ed|op todo Hop Ea Ed|h p fin opcode m pc todo Hpc Hm Ea Ed|h fin opcode b bs todo Hm Ea Ed|
                   h fin opcode m d todo Ea Ed|h fin opcode m todo Ea Ed]; cbn [a_stack a_todo].
  - destruct todo as [|op r].
    + exists g, []. split; [now left|]. split; [reflexivity|]. exact Hs.
    + exists g, []. split; [now left|]. split; [reflexivity|]. cbn [fst]. intros j. destruct (Nat.eq_dec j i) as [->|]; [rewrite upd_same|rewrite upd_other by auto; apply Hs].
      rewrite <- Ed in Hf |- *. split; [|exact Hf]. constructor. now inversion Hf.
  - (* SfAct: enters the call *)
    unfold start_send in Ea |- *. destruct (send_args op) as [[fin opcode] m] eqn:Esa.
    cbn [step step_send].
    pose proof (send_args_request op) as Hr. rewrite Esa in Hr.
    assert (lenN (msg_of m) < 2 ^ 31) as Hm.
    { destruct Hop as [_ Hop]. unfold req_payload in Hop. rewrite Hr in Hop. now apply Hop. }
    exists (upd g i (Sender (writes (fst (frame_header fin opcode m w)) m) todo)), [i].
    split; [now right|]. cbn [crun]. unfold cstep. rewrite <- Ed. cbn [d_now d_todo]. rewrite Esa.
    unfold frame_header, sendFrameHeaderAsync, header_init. cbn [h_hasMask h_mask].
    rewrite <- Ed in Hf. cbn [d_todo] in Hf. inversion Hf as [|? ? _ Hf'].
    destruct m as [[|b bs]|]; destruct (s_mask (w_sock w)) eqn:Em; cbn [fst snd c_stack c_world];
      (split; [reflexivity|]);
      (apply same_upd; [exact Hs| |exact Hf']); rewrite writes_left.
    all: match goal with |- same_sender (ASender [CoWrite ?h (WfAct ?d); CoSend ?a ?b ?c ?h ?e] ?t) _ =>
           apply (ss_header h (WfAct d) a b c e t); [reflexivity|exact Hm] end.
  - (* writing the header *)
    rewrite <- Ed in Hf. cbn [d_todo] in Hf.
    assert (forall p', wf_left h p' = wf_left h p ->
       exists g' sch, zero_or_one i sch /\
         crun sch (g, w) = (g', w) /\
         same_senders (upd f i (ASender [CoWrite h p'; CoSend fin opcode m h pc] todo)) g') as Hstutter.
    { intros p' Hp'. exists g, []. split; [now left|]. split; [reflexivity|].
      intros j. destruct (Nat.eq_dec j i) as [->|]; [rewrite upd_same|rewrite upd_other by auto; apply Hs].
      rewrite <- Ed. split; [|exact Hf]. rewrite <- Hp'. now constructor. }
    assert (forall d cs, d_now (g i) = d :: cs -> forall a,
       match writeExactAsyncInline d w with
       | (INext _, w') => same_sender a (Sender cs todo) -> exists g' sch, zero_or_one i sch /\
            crun sch (g, w) = (g', w') /\ same_senders (upd f i a) g'
       | (IAgain d', w') => same_sender a (Sender (d' :: cs) todo) -> exists g' sch, zero_or_one i sch /\
            crun sch (g, w) = (g', w') /\ same_senders (upd f i a) g'
       | (IWait, w') => same_sender a (g i) -> exists g' sch, zero_or_one i sch /\
            crun sch (g, w) = (g', w') /\ same_senders (upd f i a) g'
       | (IFail, w') => exists g' sch, zero_or_one i sch /\
            crun sch (g, w) = (g', w') /\ same_senders (upd f i (ASender [] [])) g'
       end) as Hwrite.
    { intros d cs Hd a.
      assert (fst (writeExactAsyncInline d w) = IWait -> snd (writeExactAsyncInline d w) = w) as Hwt by apply wait_same.
      assert (crun [i] (g, w) = match writeExactAsyncInline d w with
         | (INext _, w') => (upd g i (Sender cs todo), w')
         | (IAgain c', w') => (upd g i (Sender (c' :: cs) todo), w')
         | (IWait, _) => (g, w)
         | (IFail, w') => (upd g i (Sender [] []), w')
         end) as Hc.
      { cbn [crun]. unfold cstep. rewrite Hd, <- Ed. reflexivity. }
      destruct (writeExactAsyncInline d w) as [[x|d'| |] w'] eqn:Ew.
      - intros Ha. exists (upd g i (Sender cs todo)), [i]. split; [now right|].
        rewrite Hc. split; [reflexivity|]. apply same_upd; auto.
      - intros Ha. exists (upd g i (Sender (d' :: cs) todo)), [i]. split; [now right|].
        rewrite Hc. split; [reflexivity|]. apply same_upd; auto.
      - intros Ha. assert (w' = w) as -> by exact (Hwt eq_refl). exists g, []. split; [now left|]. split; [reflexivity|].
        intros j. destruct (Nat.eq_dec j i) as [->|]; [rewrite upd_same|rewrite upd_other by auto; apply Hs].
        split; [exact Ha|]. rewrite <- Ed. exact Hf.
      - exists (upd g i (Sender [] [])), [i]. split; [now right|].
        rewrite Hc. split; [reflexivity|]. apply same_upd; [auto|constructor|constructor]. }
    cbn [step]. unfold step_writeFrame. destruct p as [d| |d| |d].
    + specialize (Hwrite d (len_write h ++ mask_write h ++ payload_write h m)).
      rewrite <- Ed in Hwrite. cbn [d_now wf_left] in Hwrite. cbn [app] in Hwrite. rewrite <- app_assoc in Hwrite.
      specialize (Hwrite eq_refl). 
      destruct (writeExactAsyncInline d w) as [[x|d'| |] w'] eqn:Ew; cbn [fst snd c_stack c_world];
        [apply Hwrite|apply Hwrite|apply Hwrite|exact (Hwrite (f i))].
      * rewrite app_assoc. apply (ss_header h WfOnBb); auto.
      * rewrite app_assoc. apply (ss_header h (WfAct d')); auto.
      * rewrite app_assoc. apply (ss_header h (WfAct d)); auto.
    + unfold len_write in Hstutter |- *. set (sc := snd (packHeaderBits h)) in *.
      assert (wf_left h WfOnBb = len_write h ++ mask_write h) as Hb by reflexivity. unfold len_write in Hb. fold sc in Hb.
      destruct (sc =? 2) eqn:E2; [|destruct (sc =? 3) eqn:E3]; cbn [fst snd c_stack c_world]; apply Hstutter;
        rewrite Hb; reflexivity.
    + specialize (Hwrite d (mask_write h ++ payload_write h m)).
      rewrite <- Ed in Hwrite. cbn [d_now wf_left] in Hwrite. specialize (Hwrite eq_refl).
      destruct (writeExactAsyncInline d w) as [[x|d'| |] w'] eqn:Ew; cbn [fst snd c_stack c_world];
        [apply Hwrite|apply Hwrite|apply Hwrite|exact (Hwrite (f i))];
        [apply (ss_header h WfOnLen); auto|apply (ss_header h (WfWriteLen d')); auto|apply (ss_header h (WfWriteLen d)); auto].
    + destruct (h_hasMask h) eqn:Ehm; cbn [fst snd c_stack c_world].
      * apply Hstutter. cbn [wf_left]. unfold mask_write. now rewrite Ehm.
      * exists g, []. split; [now left|]. split; [reflexivity|].
        intros j. destruct (Nat.eq_dec j i) as [->|]; [rewrite upd_same|rewrite upd_other by auto; apply Hs].
        rewrite <- Ed. split; [|exact Hf]. cbn [wf_left]. unfold mask_write. rewrite Ehm. cbn [app].
        subst pc. destruct m as [[|b bs]|]; [apply ss_finish|apply ss_prepare; exact Hm|apply ss_finish].
    + specialize (Hwrite d (payload_write h m)).
      rewrite <- Ed in Hwrite. cbn [d_now wf_left] in Hwrite. specialize (Hwrite eq_refl).
      destruct (writeExactAsyncInline d w) as [[x|d'| |] w'] eqn:Ew; cbn [fst snd c_stack c_world];
        [apply Hwrite|apply Hwrite|apply Hwrite|exact (Hwrite (f i))]; [|apply (ss_header h (WfWriteMask d')); auto|apply (ss_header h (WfWriteMask d)); auto].
      subst pc. destruct m as [[|b bs]|]; [apply ss_finish|apply ss_prepare; exact Hm|apply ss_finish].
  - (* SfPrepare *)
    rewrite <- Ed in Hf. cbn [d_todo] in Hf. cbn [step step_send].
    replace (2 ^ 31 <=? lenN (b :: bs)) with false by (symmetry; apply N.leb_gt; exact Hm).
    destruct (h_hasMask h) eqn:Ehm; cbn [fst snd c_stack c_world];
      (exists g, []; split; [now left|]; split; [reflexivity|];
       intros j; destruct (Nat.eq_dec j i) as [->|]; [rewrite upd_same|rewrite upd_other by auto; apply Hs];
       rewrite <- Ed; split; [|exact Hf]; unfold payload_write; try rewrite Ehm; apply ss_write).
  - (* SfWrite *)
    rewrite <- Ed in Hf. cbn [d_todo] in Hf. cbn [step step_send].
    pose proof (wait_same d w) as Hwt.
    assert (crun [i] (g, w) = match writeExactAsyncInline d w with
         | (INext _, w') => (upd g i (Sender [] todo), w')
         | (IAgain c', w') => (upd g i (Sender [c'] todo), w')
         | (IWait, _) => (g, w)
         | (IFail, w') => (upd g i (Sender [] []), w')
         end) as Hc.
    { cbn [crun]. unfold cstep. rewrite <- Ed. reflexivity. }
    destruct (writeExactAsyncInline d w) as [[x|d'| |] w'] eqn:Ew; cbn [fst snd c_stack c_world] in *.
    + exists (upd g i (Sender [] todo)), [i]. split; [now right|].
      rewrite Hc. split; [reflexivity|]. apply same_upd; auto. constructor.
    + exists (upd g i (Sender [d'] todo)), [i]. split; [now right|].
      rewrite Hc. split; [reflexivity|]. apply same_upd; auto. constructor.
    + assert (w' = w) as -> by exact (Hwt eq_refl). exists g, []. split; [now left|]. split; [reflexivity|].
      intros j. destruct (Nat.eq_dec j i) as [->|]; [rewrite upd_same|rewrite upd_other by auto; apply Hs].
      rewrite <- Ed. split; [constructor|exact Hf].
    + exists (upd g i (Sender [] [])), [i]. split; [now right|].
      rewrite Hc. split; [reflexivity|]. apply same_upd; [auto|constructor|constructor].
  - (* SfFinish *)
    rewrite <- Ed in Hf. cbn [d_todo] in Hf. cbn [step step_send fst snd c_stack c_world].
    exists g, []; split; [now left|]; split; [reflexivity|].
    intros j; destruct (Nat.eq_dec j i) as [->|]; [rewrite upd_same|rewrite upd_other by auto; apply Hs].
    rewrite <- Ed; split; [|exact Hf]. apply ss_idle.
Qed.

Lemma crun_app a b s : crun (a ++ b) s = crun b (crun a s).
Proof. revert s. induction a; intros s; [reflexivity|]. cbn. auto. Qed.

Lemma locked_app a b s : locked a s -> locked b (crun a s) -> locked (a ++ b) s.
Proof.
  revert s. induction a as [|i a IH]; intros s Ha Hb; [exact Hb|].
  destruct Ha as [H1 H2]. cbn. split; [exact H1|]. now apply IH.
Qed.

(** Every schedule of the coroutines is one of the threads, and a locked one is a locked one. *)
Lemma same_run sch : forall f g w,
  same_senders f g ->
  exists g' sch', crun sch' (g, w) = (g', snd (arun sch (f, w))) /\ same_senders (fst (arun sch (f, w))) g' /\
    (locked_async sch (f, w) -> locked sch' (g, w)).
Proof.
  induction sch as [|i r IH]; intros f g w Hs.
  - exists g, []. repeat split; auto; apply Hs.
  - cbn [arun]. destruct (same_step f g w i Hs) as (g1 & s1 & Hz & E1 & Hs1).
    destruct (astep i (f, w)) as [f1 w1] eqn:Ea. cbn [fst snd] in *.
    destruct (IH f1 g1 w1 Hs1) as (g' & s2 & E2 & Hs2 & Hl2).
    exists g', (s1 ++ s2). rewrite crun_app, E1. split; [exact E2|]. split; [exact Hs2|].
    intros Hl. cbn [locked_async] in Hl. rewrite Ea in Hl. destruct Hl as [Hl1 Hl]. apply locked_app.
    + destruct Hz as [->| ->]; [exact I|]. split; [|exact I].
      intros j Hj. specialize (Hl1 j Hj). destruct (Hs j) as [Hsj _]. cbn [fst] in *.
      inversion Hsj as [todo Ej Ed|op todo ? Ej Ed|? ? ? ? ? ? ? ? ? Ej Ed|? ? ? ? ? ? ? Ej Ed|? ? ? ? ? ? Ej Ed|? ? ? ? ? Ej Ed];
        rewrite <- Ej in Hl1; try discriminate; reflexivity.
    + rewrite E1. auto.
Qed.

Lemma same_start todo : all_fit todo -> same_senders (coroutines todo) (threads todo).
Proof. intros H i. split; [constructor|apply H]. Qed.

Lemma same_done f g : same_senders f g -> all_done_async f -> all_done g.
Proof.
  intros Hs Hd i. destruct (Hs i) as [Hi _]. destruct (Hd i) as [H1 H2].
  inversion Hi as [todo Ej Ed|op todo ? Ej Ed|? ? ? ? ? ? ? ? ? Ej Ed|? ? ? ? ? ? ? Ej Ed|? ? ? ? ? ? Ej Ed|? ? ? ? ? Ej Ed];
    rewrite <- Ej in H1, H2; try discriminate. cbn in H2. subst. auto.
Qed.

(** * Any connection *)
Lemma write_step_any c w :
  match writeExactAsyncInline c w with
  | (INext _, w') => c = [] /\ w' = w
  | (IAgain c', w') => exists a, c = a ++ c' /\ w_out w' = w_out w ++ a /\ failures (w_wr w') = failures (w_wr w)
  | (IWait, w') => w' = w
  | (IFail, w') => w_out w' = w_out w /\ S (failures (w_wr w')) = failures (w_wr w)
  end.
Proof.
  unfold writeExactAsyncInline. destruct c as [|b c]; [auto|].
  destruct (w_wr w) as [|[n|[]|] q] eqn:Eq; cbn [set_wr w_out w_wr]; auto.
  - exists (b :: c). rewrite app_nil_r. auto.
  - exists (takeN (N.pos n) (b :: c)). rewrite take_drop. auto.
  - exists []. cbn [app]. rewrite app_nil_r. auto.
Qed.

Definition any_inv (todo : nat -> list sendop) (w0 : world) (s : (nat -> sender) * world) : Prop :=
  exists lab failed, w_out (snd s) = w_out w0 ++ map snd lab /\
  (length failed + failures (w_wr (snd s)) = failures (w_wr w0))%nat /\
  forall i, exists (done : list (sendop * option mask4)) later, map fst done ++ later = todo i /\
    if in_dec Nat.eq_dec i failed
    then fst s i = Sender [] [] /\ prefix (from i lab) (concat (map (fun x => sent_wire (snd x) (fst x)) done))
    else from i lab ++ concat (d_now (fst s i)) = concat (map (fun x => sent_wire (snd x) (fst x)) done) /\ later = d_todo (fst s i).

Lemma any_step todo w0 i s : all_fit todo -> any_inv todo w0 s -> any_inv todo w0 (cstep i s).
Proof.
  intros Hfit (lab & failed & Ho & Hn & Hi). destruct s as [f w]. cbn [fst snd] in *. unfold cstep.
  assert (any_inv todo w0 (f, w)) as Hsame by (exists lab, failed; auto).
  destruct (d_now (f i)) as [|c cs] eqn:En.
  - destruct (d_todo (f i)) as [|op r] eqn:Et; [exact Hsame|].
    destruct (send_args op) as [[fin opcode] m] eqn:Ea. destruct (frame_header fin opcode m w) as [h w'] eqn:Ef.
    destruct (Hi i) as (done & later & H1 & H2).
    destruct (in_dec Nat.eq_dec i failed) as [Hin|Hin]; [destruct H2 as [H2 _]; rewrite H2 in Et; discriminate|].
    destruct H2 as [H2 H3]. subst later.
    assert (fits true op) as Hf.
    { rewrite Et in H1. pose proof (Hfit i) as Hfi. rewrite <- H1 in Hfi. rewrite Forall_app in Hfi. destruct Hfi as [_ Hfi]. now inversion Hfi. }
    destruct (enter_call op w h w' fin opcode m (fits_any _ _ Hf) Ea Ef) as (Hw & Hout & Hwr & _).
    exists lab, failed. cbn [fst snd]. rewrite Hout, Hwr. split; [exact Ho|]. split; [exact Hn|].
    intros j. destruct (Nat.eq_dec j i) as [->|Hj]; [|rewrite upd_other by auto; apply Hi].
    rewrite upd_same. exists (done ++ [(op, next_key_opt w)]), r. destruct (in_dec Nat.eq_dec i failed); [contradiction|]. cbn [d_now d_todo].
    rewrite Hw, !map_app, concat_app. cbn [map concat fst snd]. rewrite app_nil_r. split; [|split].
    + rewrite <- H1, Et, <- app_assoc. reflexivity.
    + rewrite <- H2, En. cbn [concat]. now rewrite app_nil_r.
    + reflexivity.
  - pose proof (write_step_any c w) as Hw.
    assert (~ In i failed) as Hin.
    { destruct (Hi i) as (done & later & _ & H2). destruct (in_dec Nat.eq_dec i failed); [|assumption]. destruct H2 as [H2 _]. rewrite H2 in En. discriminate. }
    destruct (writeExactAsyncInline c w) as [[x|c'| |] w'] eqn:Ew.
    + destruct Hw as [-> ->]. exists lab, failed. split; [exact Ho|]. split; [exact Hn|].
      intros j. destruct (Nat.eq_dec j i) as [->|Hj]; [|cbn [fst]; rewrite upd_other by auto; apply Hi].
      destruct (Hi i) as (done & later & H1 & H2). exists done, later. cbn [fst]. rewrite upd_same.
      destruct (in_dec Nat.eq_dec i failed); [contradiction|]. rewrite En in H2. auto.
    + destruct Hw as (b & -> & Hout & Hfl). exists (lab ++ map (pair i) b), failed. cbn [fst snd].
      split; [rewrite Hout, Ho, map_app, snd_label; now rewrite <- app_assoc|]. split; [congruence|].
      intros j. destruct (Hi j) as (done & later & H1 & H2). exists done, later. split; [exact H1|]. rewrite from_app, from_label.
      destruct (Nat.eqb_spec i j) as [<-|Hj].
      * rewrite upd_same. destruct (in_dec Nat.eq_dec i failed); [contradiction|]. cbn [d_now d_todo concat]. destruct H2 as [H2 H3]. split; [|exact H3].
        rewrite <- H2, En. cbn [concat]. now rewrite <- !app_assoc.
      * rewrite upd_other by auto. rewrite app_nil_r. exact H2.
    + exact Hsame.
    + destruct Hw as [Hout Hfl]. exists lab, (i :: failed). cbn [fst snd length]. split; [congruence|]. split; [lia|].
      intros j. destruct (Hi j) as (done & later & H1 & H2). exists done, later. split; [exact H1|].
      destruct (Nat.eq_dec j i) as [->|Hj].
      * rewrite upd_same. destruct (in_dec Nat.eq_dec i (i :: failed)) as [_|Hx]; [|destruct Hx; now left].
        split; [reflexivity|]. destruct (in_dec Nat.eq_dec i failed); [contradiction|]. destruct H2 as [H2 _].
        exists (concat (d_now (f i))). now rewrite H2.
      * rewrite upd_other by auto. destruct (in_dec Nat.eq_dec j (i :: failed)) as [Hx|Hx]; destruct (in_dec Nat.eq_dec j failed) as [Hy|Hy]; auto; exfalso.
        -- destruct Hx as [Hx|Hx]; [now apply Hj|contradiction].
        -- apply Hx. now right.
Qed.
Lemma any_run todo w0 sch s : all_fit todo -> any_inv todo w0 s -> any_inv todo w0 (crun sch s).
Proof. intros Hf. revert s. induction sch as [|i r IH]; intros s Hi; [exact Hi|]. apply IH. now apply any_step. Qed.
Lemma any_start todo w : any_inv todo w (threads todo, w).
Proof.
  exists [], []. cbn [map fst snd length]. rewrite app_nil_r. split; [reflexivity|]. split; [reflexivity|].
  intros i. exists [], (todo i). split; [reflexivity|]. cbn. auto.
Qed.
