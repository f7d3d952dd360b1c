(** C30: several threads or coroutines sending on one socket. *)
From Verif Require Import Bytes Frame World WebSocket AsyncWebSocket SpecFrame SpecSend Concurrent SpecConcurrent
  ProofFrame ProofStream ProofSend ProofConcurrent.
From Coq Require Import ZifyBool ZifyNat ZifyN.
Local Open Scope N_scope.
Local Open Scope m_scope.
Local Arguments takeN : simpl never.
Local Arguments dropN : simpl never.
Local Arguments lenN : simpl never.
Local Arguments be_enc : simpl never.
Local Arguments be_dec : simpl never.
Local Arguments packHeaderBits : simpl never.

(** One sendOneFrame of the blocking socket has exactly the effect of its list of writes, on every connection. *)
Theorem C30_call_is_its_writes : forall fin opcode m w,
  (s_mask (w_sock w) = true -> lenN (msg_of m) < 2 ^ 31) ->
  exists o r w', sendOneFrame fin opcode m w = (o, w') /\
    issue (writes (fst (frame_header fin opcode m w)) m) (snd (frame_header fin opcode m w)) = (r, w') /\
    same_report o r.
Proof. exact sendOneFrame_issue. Qed.

(** With a lock around every call (that the library does not take): the peer receives the frames of all callers, each
    intact, in an order that keeps the order of each caller. Missing for C30: callers without a lock. *)
Theorem C30_locked_partial : forall todo w sch,
  all_fit todo -> healthy (w_wr w) ->
  locked sch (threads todo, w) -> all_done (fst (crun sch (threads todo, w))) ->
  exists l, merge_of todo l /\ w_out (snd (crun sch (threads todo, w))) = w_out w ++ concat (map sent_bytes l).
Proof.
  intros todo w sch Hf Hh Hl Hd. apply lock_end; [|exact Hd].
  apply lock_run; [exact Hf| |exact Hl]. now apply lock_start.
Qed.

Theorem C30_async_locked_partial : forall todo w sch,
  all_fit todo -> healthy (w_wr w) ->
  locked_async sch (coroutines todo, w) -> all_done_async (fst (arun sch (coroutines todo, w))) ->
  exists l, merge_of todo l /\ w_out (snd (arun sch (coroutines todo, w))) = w_out w ++ concat (map sent_bytes l).
Proof.
  intros todo w sch Hf Hh Hl Hd.
  destruct (same_run sch (coroutines todo) (threads todo) w (same_start _ Hf)) as (g' & sch' & E & Hs & Hl').
  pose proof (same_done _ _ Hs Hd) as Hd'.
  destruct (C30_locked_partial todo w sch' Hf Hh (Hl' Hl)) as (l & Hm & Ho); [now rewrite E|].
  exists l. split; [exact Hm|]. rewrite E in Ho. exact Ho.
Qed.

(** Without a lock: no byte is lost, invented, or moved before an earlier byte of the same caller. *)
Theorem C30_bytes_kept_partial : forall todo w sch,
  all_fit todo -> healthy (w_wr w) -> all_done (fst (crun sch (threads todo, w))) ->
  exists labelled, w_out (snd (crun sch (threads todo, w))) = w_out w ++ map snd labelled /\
    forall i, exists keys, length keys = length (todo i) /\
      from i labelled = concat (map (fun x => sent_wire (snd x) (fst x)) (combine (todo i) keys)).
Proof.
  intros todo w sch Hf Hh Hd.
  destruct (shuffle_run todo (w_out w) sch (threads todo, w) Hf (shuffle_start todo w Hh)) as (_ & lab & Ho & Hi).
  exists lab. split; [exact Ho|]. intros i. destruct (Hi i) as (done & H1 & H2). destruct (Hd i) as [Hn Ht].
  rewrite Hn in H1. rewrite Ht in H2. cbn [concat] in H1. rewrite app_nil_r in H1, H2.
  exists (map snd done). rewrite <- H2, !map_length. split; [reflexivity|].
  assert (forall l : list (sendop * option mask4), combine (map fst l) (map snd l) = l) as Hcm.
  { induction l as [|[a b] l IH]; cbn; congruence. }
  rewrite Hcm. exact H1.
Qed.

Theorem C30_async_bytes_kept_partial : forall todo w sch,
  all_fit todo -> healthy (w_wr w) -> all_done_async (fst (arun sch (coroutines todo, w))) ->
  exists labelled, w_out (snd (arun sch (coroutines todo, w))) = w_out w ++ map snd labelled /\
    forall i, exists keys, length keys = length (todo i) /\
      from i labelled = concat (map (fun x => sent_wire (snd x) (fst x)) (combine (todo i) keys)).
Proof.
  intros todo w sch Hf Hh Hd.
  destruct (same_run sch (coroutines todo) (threads todo) w (same_start _ Hf)) as (g' & sch' & E & Hs & _).
  pose proof (same_done _ _ Hs Hd) as Hd'.
  destruct (C30_bytes_kept_partial todo w sch' Hf Hh) as (l & Ho & Hi); [now rewrite E|].
  exists l. split; [|exact Hi]. rewrite E in Ho. exact Ho.
Qed.

(** Whatever the connection does: the bytes of each caller stay in order, and each failure it answers ends at most one caller;
    when all have finished, the others have sent everything. *)
Theorem C30_any_connection_partial : forall todo w sch,
  all_fit todo ->
  exists labelled failed, w_out (snd (crun sch (threads todo, w))) = w_out w ++ map snd labelled /\
    (length failed + failures (w_wr (snd (crun sch (threads todo, w)))) = failures (w_wr w))%nat /\
    forall i, exists keys, length keys = length (todo i) /\
      prefix (from i labelled) (concat (map (fun x => sent_wire (snd x) (fst x)) (combine (todo i) keys))) /\
      (all_done (fst (crun sch (threads todo, w))) -> ~ In i failed ->
       from i labelled = concat (map (fun x => sent_wire (snd x) (fst x)) (combine (todo i) keys))).
Proof.
  intros todo w sch Hf.
  destruct (any_run todo w sch (threads todo, w) Hf (any_start todo w)) as (lab & failed & Ho & Hn & Hi).
  exists lab, failed. split; [exact Ho|]. split; [exact Hn|]. intros i. destruct (Hi i) as (done & later & H1 & H2).
  exists (map snd done ++ map (fun _ => None) later).
  assert (combine (todo i) (map snd done ++ map (fun _ => None) later) = done ++ map (fun op => (op, None)) later) as Hc.
  { rewrite <- H1. clear. induction done as [|[a b] done IH]; cbn [map fst snd app combine].
    - induction later as [|x r IH]; cbn; [reflexivity|now rewrite IH].
    - now rewrite IH. }
  rewrite Hc, map_app, concat_app. split; [rewrite <- H1, !app_length, !map_length; reflexivity|].
  destruct (in_dec Nat.eq_dec i failed) as [Hin|Hin].
  - destruct H2 as [_ [r Hr]]. split; [|intros; contradiction]. rewrite Hr, <- app_assoc. eexists. reflexivity.
  - destruct H2 as [H2 H3]. split.
    + rewrite <- H2, <- app_assoc. eexists. reflexivity.
    + intros Hd _. destruct (Hd i) as [Hd1 Hd2]. rewrite Hd1 in H2. rewrite Hd2 in H3. subst later. cbn [map concat] in *.
      rewrite !app_nil_r in *. exact H2.
Qed.
Theorem C30_async_any_connection_partial : forall todo w sch,
  all_fit todo ->
  exists labelled failed, w_out (snd (arun sch (coroutines todo, w))) = w_out w ++ map snd labelled /\
    (length failed + failures (w_wr (snd (arun sch (coroutines todo, w)))) = failures (w_wr w))%nat /\
    forall i, exists keys, length keys = length (todo i) /\
      prefix (from i labelled) (concat (map (fun x => sent_wire (snd x) (fst x)) (combine (todo i) keys))) /\
      (all_done_async (fst (arun sch (coroutines todo, w))) -> ~ In i failed ->
       from i labelled = concat (map (fun x => sent_wire (snd x) (fst x)) (combine (todo i) keys))).
Proof.
  intros todo w sch Hf.
  destruct (same_run sch (coroutines todo) (threads todo) w (same_start _ Hf)) as (g' & sch' & E & Hs & _).
  destruct (C30_any_connection_partial todo w sch' Hf) as (l & failed & Ho & Hn & Hi). rewrite E in *. cbn [fst snd] in *.
  exists l, failed. split; [exact Ho|]. split; [exact Hn|]. intros i. destruct (Hi i) as (keys & H1 & H2 & H3).
  exists keys. split; [exact H1|]. split; [exact H2|]. intros Hd. apply H3. exact (same_done _ _ Hs Hd).
Qed.

(** * Refutation *)

Lemma short_writes p w : short_ascii p -> s_mask (w_sock w) = false ->
  frame_header true OPCODE_TEXT (Some p) w = (Header true false false false 1 false (Z.of_N (lenN p)) mask0, w) /\
  writes (Header true false false false 1 false (Z.of_N (lenN p)) mask0) (Some p) = [[x81; n2b (lenN p)]; p] /\
  len_write (Header true false false false 1 false (Z.of_N (lenN p)) mask0) = [].
Proof.
  intros (Hn & Hl & Ha) Hm. destruct p as [|b p]; [contradiction|].
  assert (frame_header true OPCODE_TEXT (Some (b :: p)) w = (Header true false false false 1 false (Z.of_N (lenN (b :: p))) mask0, w)) as Ef.
  { unfold frame_header. rewrite Hm. reflexivity. }
  split; [exact Ef|].
  pose proof (concat_writes true OPCODE_TEXT (Some (b :: p)) w) as Hc.
  rewrite Ef in Hc. cbn [fst msg_of] in Hc. specialize (Hc ltac:(lia) ltac:(congruence)).
  set (h := Header _ _ _ _ _ _ _ _) in *.
  assert (len_write h = []) as Hlw.
  { unfold len_write. unfold packHeaderBits. replace (h_len h <? 126)%Z with true by (unfold h; cbn [h_len]; lia). reflexivity. }
  split; [|exact Hlw].
  unfold writes in *. rewrite Hlw in *. unfold mask_write, payload_write in *. change (h_hasMask h) with false in *. cbn [app concat] in *.
  rewrite app_nil_r in Hc. unfold next_key_opt in Hc. rewrite Hm in Hc.
  assert (raw_wire None true OPCODE_TEXT (b :: p) = [x81; n2b (lenN (b :: p))] ++ b :: p) as Hr.
  { unfold raw_wire, raw_frame, wire, rfc_header, lform_min.
    cbn [f_fin f_rsv1 f_rsv2 f_rsv3 f_opcode f_key f_payload has_key key_bytes masked_opt bitv].
    replace (lenN (b :: p) <? 126) with true by lia. reflexivity. }
  rewrite Hr in Hc. apply app_inv_tail in Hc. now rewrite Hc.
Qed.

(** The schedule: both enter their calls, both write their header, then their payload. *)
Definition both : list nat := [0; 1; 0; 0; 1; 1; 0; 0; 1; 1]%nat.

Lemma both_run p q w : short_ascii p -> short_ascii q -> s_mask (w_sock w) = false -> w_wr w = [] ->
  all_done (fst (crun both (threads (two (SoText (Some p)) (SoText (Some q))), w))) /\
  w_out (snd (crun both (threads (two (SoText (Some p)) (SoText (Some q))), w))) =
    w_out w ++ [x81; n2b (lenN p); x81; n2b (lenN q)] ++ p ++ q.
Proof.
  intros Hp Hq Hm Hw.
  destruct (short_writes p w Hp Hm) as (Fp & Wp & _). destruct (short_writes q w Hq Hm) as (Fq & Wq & _).
  destruct Hp as (Hp & _). destruct Hq as (Hq & _). destruct p as [|a p]; [contradiction|]. destruct q as [|b q]; [contradiction|].
  unfold both. cbn [crun].
  assert (forall f w i, d_now (f i) = [] -> forall p r, d_todo (f i) = SoText (Some p) :: r -> forall h, frame_header true OPCODE_TEXT (Some p) w = (h, w) ->
     cstep i (f, w) = (upd f i (Sender (writes h (Some p)) r), w)) as Hstart.
  { intros f w1 i H1 p1 r H2 h H3. unfold cstep. rewrite H1, H2. cbn [send_args]. rewrite H3. reflexivity. }
  assert (forall f w i c x cs, d_now (f i) = (x :: c) :: cs -> w_wr w = [] ->
     cstep i (f, w) = (upd f i (Sender ([] :: cs) (d_todo (f i))), set_wr w (w_out w ++ x :: c) [])) as Hwr.
  { intros f w1 i c x cs H1 H2. unfold cstep. rewrite H1. unfold writeExactAsyncInline. rewrite H2. reflexivity. }
  assert (forall f w i cs, d_now (f i) = [] :: cs -> cstep i (f, w) = (upd f i (Sender cs (d_todo (f i))), w)) as Hnx.
  { intros f w1 i cs H1. unfold cstep. rewrite H1. reflexivity. }
  erewrite (Hstart (threads _) w 0%nat); [|reflexivity|reflexivity|exact Fp]. rewrite Wp.
  erewrite (Hstart _ w 1%nat); [|reflexivity|reflexivity|exact Fq]. rewrite Wq.
  do 2 (erewrite Hwr; [|reflexivity|assumption || reflexivity]; erewrite Hnx; [|reflexivity]).
  do 2 (erewrite Hwr; [|reflexivity|assumption || reflexivity]; erewrite Hnx; [|reflexivity]).
  cbn [fst snd w_out set_wr]. split.
  - intros [|[|i]]; split; reflexivity.
  - rewrite <- !app_assoc. reflexivity.
Qed.

Lemma merge_two (a b : sendop) l : merge_of (two a b) l ->
  exists x l', l = x :: l' /\ (sent_op x = a \/ sent_op x = b).
Proof.
  intros H. destruct l as [|[[i op] k] l].
  - specialize (H 0%nat). discriminate.
  - exists (i, op, k), l. split; [reflexivity|]. specialize (H i). cbn [filter] in H. unfold sent_by in H. cbn [fst] in H.
    rewrite Nat.eqb_refl in H. cbn in H. destruct i as [|[|i]]; cbn in H; inversion H; auto.
Qed.

Lemma not_merge p q l : short_ascii p -> short_ascii q ->
  merge_of (two (SoText (Some p)) (SoText (Some q))) l ->
  forall a r, b2n a < 126 -> x81 :: a :: x81 :: r <> concat (map sent_bytes l).
Proof.
  intros Hp Hq Hm a r Ha E. destruct (merge_two _ _ _ Hm) as (x & l' & -> & Hx).
  cbn [map concat] in E.
  assert (exists p0, short_ascii p0 /\ sent_op x = SoText (Some p0)) as (p0 & Hp0 & Hx0) by (destruct Hx; eauto).
  unfold sent_bytes in E. rewrite Hx0 in E. destruct Hp0 as (Hn & Hl & Hasc).
  destruct p0 as [|b p0]; [contradiction|].
  unfold sent_wire, frame_for, wire, rfc_header, lform_min in E.
  cbn [f_fin f_rsv1 f_rsv2 f_rsv3 f_opcode f_key f_payload req_payload request snd msg_of] in E.
  change (req_payload (SoText (Some (b :: p0)))) with (b :: p0) in E.
  replace (lenN (b :: p0) <? 126) with true in E by lia.
  cbn [app] in E. injection E as E2 E3.
  destruct (snd x) as [k|] eqn:Ek.
  - cbn [has_key bitv] in E2. subst a. rewrite b2n_n2b in Ha. rewrite N.mod_small in Ha; lia.
  - cbn [key_bytes masked_opt app] in E3. injection E3 as E3 _. inversion Hasc as [|? ? H1 _]. subst. vm_compute in H1. discriminate.
Qed.

Lemma mixed_stream p q : short_ascii p -> short_ascii q ->
  (forall l, merge_of (two (SoText (Some p)) (SoText (Some q))) l -> x81 :: n2b (lenN p) :: x81 :: n2b (lenN q) :: p ++ q <> concat (map sent_bytes l)) /\
  exists rest, stream_reading false (x81 :: n2b (lenN p) :: x81 :: n2b (lenN q) :: p ++ q) = OByte 1 x81 :: rest.
Proof.
  intros Hp Hq. split.
  - intros l Hl. apply (not_merge p q l); auto.
    destruct Hp as (_ & Hp & _). rewrite b2n_n2b. rewrite N.mod_small; lia.
  - destruct Hp as (Hn & Hp & _). assert (1 <= lenN p) as Hp1.
    { destruct p; [contradiction|]. rewrite lenN_cons. lia. }
    unfold stream_reading. set (r := x81 :: n2b (lenN q) :: p ++ q).
    generalize (length (x81 :: n2b (lenN p) :: r)). intros k. cbn [reading].
    unfold rd_header. assert (b2n (n2b (lenN p)) = lenN p) as Hb by (rewrite b2n_n2b; apply N.mod_small; lia).
    rewrite Hb. rewrite (N.mod_small (lenN p)) by lia.
    replace (lenN p =? 126) with false by lia. replace (lenN p =? 127) with false by lia.
    cbn [N.eqb]. replace (lenN r <? 0) with false by lia. replace (lenN p <? 128) with true by lia.
    cbn [i_fin i_rsv i_opcode i_key i_len].
    change (b2n x81 mod 16) with 1. change (128 <=? b2n x81) with true.
    unfold accepts. cbn [i_opcode negb]. unfold eff_len. replace (lenN p <? 2 ^ 63) with true by lia.
    unfold shown. rewrite dropN_0. cbn [masked_opt].
    assert (exists t, takeN (lenN p) r = x81 :: t) as (t & ->).
    { rewrite takeN_firstn. unfold r. destruct (N.to_nat (lenN p)) as [|n] eqn:En; [lia|]. cbn. eauto. }
    cbn [map app]. destruct (negb (lenN p <=? lenN r)); [eexists; reflexivity|].
    change (1 =? 8) with false. cbn iota. match goal with |- context [reading ?a ?b ?c] => destruct (reading a b c) as [more e] end. cbn [fst app]. eexists. reflexivity.
Qed.

(** Without a lock C30 is false: whatever short texts two callers send, there is a schedule of whole writes on a connection
    that accepts everything after which the peer's stream is not made of the two frames in either order (whatever the
    keys), and starts with a text message whose first byte (0x81) occurs in neither text. *)
Theorem C30_unlocked_refuted : forall p q w,
  short_ascii p -> short_ascii q -> s_mask (w_sock w) = false -> w_wr w = [] -> w_out w = [] ->
  let todo := two (SoText (Some p)) (SoText (Some q)) in
  exists sch, all_done (fst (crun sch (threads todo, w))) /\
    (forall l, merge_of todo l -> w_out (snd (crun sch (threads todo, w))) <> concat (map sent_bytes l)) /\
    exists rest, stream_reading false (w_out (snd (crun sch (threads todo, w)))) = OByte 1 x81 :: rest.
Proof.
  intros p q w Hp Hq Hm Hw Ho todo. exists both. destruct (both_run p q w Hp Hq Hm Hw) as (Hd & Hout). fold todo in Hd, Hout.
  split; [exact Hd|]. rewrite Hout, Ho. cbn [app]. now apply mixed_stream.
Qed.

Lemma astep_idle f w i op r : f i = ASender [] (op :: r) -> astep i (f, w) = (upd f i (ASender [start_send op] r), w).
Proof. intros H. unfold astep. rewrite H. reflexivity. Qed.
Lemma astep_run f w i co K r st' w' : f i = ASender (co :: K) r ->
  step (fun _ _ => []) (Conf header_init [] (co :: K) w) = (ARun, Conf header_init [] st' w') ->
  astep i (f, w) = (upd f i (ASender st' r), w').
Proof. intros H1 H2. unfold astep. rewrite H1. cbn [a_stack a_todo]. rewrite H2. reflexivity. Qed.

Lemma both_async_run p q w : short_ascii p -> short_ascii q -> s_mask (w_sock w) = false -> w_wr w = [] ->
  exists sch,
  all_done_async (fst (arun sch (coroutines (two (SoText (Some p)) (SoText (Some q))), w))) /\
  w_out (snd (arun sch (coroutines (two (SoText (Some p)) (SoText (Some q))), w))) =
    w_out w ++ [x81; n2b (lenN p); x81; n2b (lenN q)] ++ p ++ q.
Proof.
  intros Hp Hq Hm Hw.
  destruct (short_writes p w Hp Hm) as (_ & Wp & Lp). destruct (short_writes q w Hq Hm) as (_ & Wq & Lq).
  assert (be_enc 2 (fst (packHeaderBits (Header true false false false 1 false (Z.of_N (lenN p)) mask0))) = [x81; n2b (lenN p)]) as Bp
    by exact (f_equal (hd []) Wp).
  assert (be_enc 2 (fst (packHeaderBits (Header true false false false 1 false (Z.of_N (lenN q)) mask0))) = [x81; n2b (lenN q)]) as Bq
    by exact (f_equal (hd []) Wq).
  destruct Hp as (Hp & _). destruct Hq as (Hq & _). destruct p as [|a p]; [contradiction|]. destruct q as [|b q]; [contradiction|].
  (* the five stages of one coroutine *)
  set (hp := Header true false false false 1 false (Z.of_N (lenN (a :: p))) mask0) in *.
  set (hq := Header true false false false 1 false (Z.of_N (lenN (b :: q))) mask0) in *.
  set (sp := CoSend true OPCODE_TEXT (Some (a :: p))). set (sq := CoSend true OPCODE_TEXT (Some (b :: q))).
  set (nil_react := fun (_ : nat) (_ : list (nat * event)) => @nil cmd).
  assert (forall (x : byte) (m : bytes) w1, s_mask (w_sock w1) = false ->
    step nil_react (Conf header_init [] [start_send (SoText (Some (x :: m)))] w1) =
      (ARun, Conf header_init [] [CoWrite (Header true false false false 1 false (Z.of_N (lenN (x :: m))) mask0) (WfAct (be_enc 2 (fst (packHeaderBits (Header true false false false 1 false (Z.of_N (lenN (x :: m))) mask0)))));
                              CoSend true OPCODE_TEXT (Some (x :: m)) (Header true false false false 1 false (Z.of_N (lenN (x :: m))) mask0) SfPrepare] w1)) as S1.
  { intros x m w1 H. cbn [start_send send_args step step_send]. unfold sendFrameHeaderAsync. rewrite H. reflexivity. }
  assert (forall h (x : byte) (d : bytes) K w1, w_wr w1 = [] ->
    step nil_react (Conf header_init [] (CoWrite h (WfAct (x :: d)) :: K) w1) =
      (ARun, Conf header_init [] (CoWrite h (WfAct []) :: K) (set_wr w1 (w_out w1 ++ x :: d) []))) as S2.
  { intros h x d K w1 H. cbn [step step_writeFrame writeExactAsyncInline]. rewrite H. reflexivity. }
  assert (forall h K w1,
    step nil_react (Conf header_init [] (CoWrite h (WfAct []) :: K) w1) =
      (ARun, Conf header_init [] (CoWrite h WfOnBb :: K) w1)) as S3 by reflexivity.
  assert (forall h K w1, len_write h = [] ->
    step nil_react (Conf header_init [] (CoWrite h WfOnBb :: K) w1) =
      (ARun, Conf header_init [] (CoWrite h WfOnLen :: K) w1)) as S4.
  { intros h K w1 H. unfold len_write in H. cbn [step step_writeFrame].
    destruct (snd (packHeaderBits h) =? 2); [discriminate|]. destruct (snd (packHeaderBits h) =? 3); [discriminate|]. reflexivity. }
  assert (forall h K w1, h_hasMask h = false ->
    step nil_react (Conf header_init [] (CoWrite h WfOnLen :: K) w1) = (ARun, Conf header_init [] K w1)) as S5.
  { intros h K w1 H. cbn [step step_writeFrame]. rewrite H. reflexivity. }
  assert (forall h x m w1, h_hasMask h = false ->
    step nil_react (Conf header_init [] [CoSend true OPCODE_TEXT (Some (x :: m)) h SfPrepare] w1) =
      (ARun, Conf header_init [] [CoSend true OPCODE_TEXT (Some (x :: m)) h (SfWrite (x :: m))] w1)) as S6.
  { intros h x m w1 H. cbn [step step_send]. rewrite H. reflexivity. }
  assert (forall h x m w1, w_wr w1 = [] ->
    step nil_react (Conf header_init [] [CoSend true OPCODE_TEXT (Some (x :: m)) h (SfWrite (x :: m))] w1) =
      (ARun, Conf header_init [] [CoSend true OPCODE_TEXT (Some (x :: m)) h (SfWrite [])] (set_wr w1 (w_out w1 ++ x :: m) []))) as S7.
  { intros h x m w1 H. cbn [step step_send writeExactAsyncInline]. rewrite H. reflexivity. }
  assert (forall h x m w1,
    step nil_react (Conf header_init [] [CoSend true OPCODE_TEXT (Some (x :: m)) h (SfWrite [])] w1) =
      (ARun, Conf header_init [] [] w1)) as S8 by reflexivity.
  exists [0; 0; 1; 1; 0; 0; 0; 0; 1; 1; 1; 1; 0; 0; 0; 1; 1; 1]%nat. cbn [arun].
  rewrite (astep_idle _ _ 0%nat (SoText (Some (a :: p))) []) by reflexivity.
  erewrite (astep_run _ _ 0%nat) by (reflexivity || (apply S1; assumption)). fold hp. rewrite Bp.
  rewrite (astep_idle _ _ 1%nat (SoText (Some (b :: q))) []) by reflexivity.
  erewrite (astep_run _ _ 1%nat) by (reflexivity || (apply S1; assumption)). fold hq. rewrite Bq.
  do 2 (erewrite astep_run; [|reflexivity|apply S2; assumption || reflexivity];
        erewrite astep_run; [|reflexivity|apply S3];
        erewrite astep_run; [|reflexivity|apply S4; assumption];
        erewrite astep_run; [|reflexivity|apply S5; reflexivity]).
  do 2 (erewrite astep_run; [|reflexivity|apply S6; reflexivity];
        erewrite astep_run; [|reflexivity|apply S7; reflexivity];
        erewrite astep_run; [|reflexivity|apply S8]).
  cbn [fst snd w_out set_wr]. split.
  - intros [|[|i]]; split; reflexivity.
  - rewrite <- !app_assoc. reflexivity.
Qed.

Theorem C30_async_unlocked_refuted : forall p q w,
  short_ascii p -> short_ascii q -> s_mask (w_sock w) = false -> w_wr w = [] -> w_out w = [] ->
  let todo := two (SoText (Some p)) (SoText (Some q)) in
  exists sch, all_done_async (fst (arun sch (coroutines todo, w))) /\
    (forall l, merge_of todo l -> w_out (snd (arun sch (coroutines todo, w))) <> concat (map sent_bytes l)) /\
    exists rest, stream_reading false (w_out (snd (arun sch (coroutines todo, w)))) = OByte 1 x81 :: rest.
Proof.
  intros p q w Hp Hq Hm Hw Ho todo. destruct (both_async_run p q w Hp Hq Hm Hw) as (sch & Hd & Hout). fold todo in Hd, Hout.
  exists sch. split; [exact Hd|]. rewrite Hout, Ho. cbn [app]. now apply mixed_stream.
Qed.

(** * The hypotheses are met *)

Definition w_two (msk : bool) : world := World [] [WAccept 1; WIo IoRetry] [] (fun n => n2b (N.of_nat n)) 0 [] (sock_new msk).
Definition todo_two : nat -> list sendop := fun i =>
  match i with 0%nat => [SoText (Some [x68; x69]); SoPing None] | 1%nat => [SoClose 1000 (Some [x62])] | _ => [] end.
Definition sch_two : list nat := (repeat 0 9 ++ repeat 1 10 ++ repeat 0 10)%list%nat.
Definition sch_two_async : list nat := (repeat 0 13 ++ repeat 1 14 ++ repeat 0 12)%list%nat.

Lemma todo_two_fit : all_fit todo_two.
Proof.
  intros [|[|i]]; repeat constructor; cbn -[N.lt N.pow]; lia.
Qed.

(** Thread 0 sends "hi" on a masking socket, thread 1 a Close, thread 0 a Ping; the first write accepts one byte. *)
Example C30_nonvacuous :
  all_fit todo_two /\ healthy (w_wr (w_two true)) /\
  locked sch_two (threads todo_two, w_two true) /\
  all_done (fst (crun sch_two (threads todo_two, w_two true))) /\
  w_out (snd (crun sch_two (threads todo_two, w_two true))) =
    [x81; x82; x00; x01; x02; x03; x68; x68] ++
    [x88; x83; x04; x05; x06; x07; x07; xed; x64] ++ [x89; x80; x08; x09; x0a; x0b].
Proof.
  split; [exact todo_two_fit|]. split; [repeat constructor|]. split.
  { unfold sch_two. cbn [repeat app]. repeat (split; [intros [|[|j]] Hj; try (now contradiction Hj); vm_compute; reflexivity|]). exact I. }
  split.
  - intros [|[|i]]; vm_compute; auto.
  - vm_compute. reflexivity.
Qed.
Example C30_async_nonvacuous :
  locked_async sch_two_async (coroutines todo_two, w_two true) /\
  all_done_async (fst (arun sch_two_async (coroutines todo_two, w_two true))) /\
  w_out (snd (arun sch_two_async (coroutines todo_two, w_two true))) =
    w_out (snd (crun sch_two (threads todo_two, w_two true))).
Proof.
  split.
  { unfold sch_two_async. cbn [repeat app]. repeat (split; [intros [|[|j]] Hj; try (now contradiction Hj); vm_compute; reflexivity|]). exact I. }
  split.
  - intros [|[|i]]; vm_compute; auto.
  - vm_compute. reflexivity.
Qed.
Example C30_unlocked_nonvacuous : short_ascii [x68; x69] /\ short_ascii [x62] /\
  w_out (snd (crun both (threads (two (SoText (Some [x68; x69])) (SoText (Some [x62]))), World [] [] [] (fun _ => x00) 0 [] (sock_new false)))) =
  [x81; x02; x81; x01; x68; x69; x62].
Proof.
  split; [|split; [|vm_compute; reflexivity]]; (split; [discriminate|]; split; [vm_compute; discriminate|]; repeat constructor).
Qed.
(** The connection breaks in the middle of caller 0's frame; caller 1 is not affected. *)
Example C30_any_connection_nonvacuous :
  let todo := two (SoText (Some [x68; x69])) (SoText (Some [x62])) in
  let w := World [] [WAccept 2; WIo IoBroken] [] (fun _ => x00) 0 [] (sock_new false) in
  let sch := (repeat 0 10 ++ repeat 1 10)%list%nat in
  all_fit todo /\ all_done (fst (crun sch (threads todo, w))) /\ w_out (snd (crun sch (threads todo, w))) = [x81; x02; x81; x01; x62] /\
  all_done_async (fst (arun sch (coroutines todo, w))) /\ w_out (snd (arun sch (coroutines todo, w))) = [x81; x02; x81; x01; x62].
Proof.
  cbv zeta. split.
  { intros [|[|i]]; repeat constructor. }
  split; [intros [|[|i]]; vm_compute; auto|]. split; [vm_compute; reflexivity|].
  split; [intros [|[|i]]; vm_compute; auto|]. vm_compute. reflexivity.
Qed.
