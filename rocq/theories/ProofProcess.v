(** Programs of Process.v and the functions of Threads.v: a thread of the interleaved system on its own. *)
From Verif Require Import Bytes Frame World WebSocket AsyncWebSocket SpecFrame SpecSend SpecListen SpecApi SpecConfig SpecAsync Threads SpecThreads Process
  ProofFrame ProofStream ProofSend ProofHeader ProofListen ProofInv ProofAsync ProofThreads.
From Coq Require Import ZifyBool ZifyNat ZifyN.
Local Open Scope N_scope.
Local Arguments takeN : simpl never.
Local Arguments dropN : simpl never.
Local Arguments lenN : simpl never.
Local Arguments be_enc : simpl never.
Local Arguments be_dec : simpl never.
Local Arguments packHeaderBits : simpl never.

Definition put_priv (v : priv) (w : world) : world :=
  World (v_in v) (w_wr w) (w_out w) (w_rnd w) (w_rpos w) (v_log v) (set_last (w_sock w) (v_last v)).
Definition on_world (t : tworld) (w : world) : tworld := TWorld w (t_calls t) (t_trace t).

(** A program as a computation of Threads.v. *)
Fixpoint interp {A} (p : prog A) : TM A :=
  match p with
  | PDone o => tfail o
  | PAtom u k => fun t => interp (k (priv_of (t_world t))) (on_world t (put_priv (u (priv_of (t_world t))) (t_world t)))
  | PAcc k => fun t => let t' := snd (interleave t) in interp (k (shf_of (w_sock (t_world t')))) t'
  | PExt x k => fun t => let t' := snd (interleave t) in interp k (on_world t' (set_sock (t_world t') (apply_ext x (w_sock (t_world t')))))
  | PBegin k => fun t => let t' := snd (interleave t) in
      interp k (TWorld (set_sock (t_world t') (set_listening (w_sock (t_world t')) true)) (t_calls t') (t_trace t' ++ [TListen]))
  | PStop k => fun t => interp k (on_world t (set_sock (t_world t) (set_listening (w_sock (t_world t)) false)))
  | PRand n k => fun t => interp (k (map (w_rnd (t_world t)) (seq (w_rpos (t_world t)) n))) (on_world t (set_rpos (t_world t) (w_rpos (t_world t) + n)))
  | PWrite d got k => fun t =>
      match writeExact_raw d (w_wr (t_world t)) with
      | (r, a, q') =>
        let t' := on_world t (set_wr (t_world t) (w_out (t_world t) ++ a) q') in
        match r with
        | WPending => (Wait, t')
        | _ => interp (k (got + lenN a)) t'
        end
      end
  | PMark e k => fun t => interp k (TWorld (t_world t) (t_calls t) (t_trace t ++ [e]))
  end.

Lemma interp_bind {A B} (p : prog A) (f : A -> prog B) t : interp (pbind p f) t = tbind (interp p) (fun a => interp (f a)) t.
Proof.
  revert t. induction p as [o|u k IH|k IH|x k IH|k IH|k IH|n k IH|d got k IH|e k IH]; intros t; cbn [pbind interp]; unfold tbind; cbn [interp].
  - unfold tfail. destruct o; reflexivity.
  - apply IH.
  - apply IH.
  - apply IH.
  - apply IH.
  - apply IH.
  - apply IH.
  - destruct (writeExact_raw d (w_wr (t_world t))) as [[r a] q']. destruct r; try reflexivity; apply IH.
  - apply IH.
Qed.
Lemma interp_try (p : prog unit) t : interp (ptry p) t = ttry (interp p) t.
Proof.
  revert t. induction p as [o|u k IH|k IH|x k IH|k IH|k IH|n k IH|d got k IH|e k IH]; intros t; cbn [ptry interp]; unfold ttry; cbn [interp].
  - unfold tfail. destruct o; reflexivity.
  - apply IH.
  - apply IH.
  - apply IH.
  - apply IH.
  - apply IH.
  - apply IH.
  - destruct (writeExact_raw d (w_wr (t_world t))) as [[r a] q']. destruct r; try reflexivity; apply IH.
  - apply IH.
Qed.

(** * Sending *)
Lemma interp_ext {A} (m m' : TM A) (t : tworld) : (forall t, m t = m' t) -> m t = m' t.
Proof. intros H. apply H. Qed.
Lemma local_bind {A B} (m : M A) (f : A -> M B) t : local (bind m f) t = tbind (local m) (fun a => local (f a)) t.
Proof. unfold local, tbind, bind. destruct (m (t_world t)) as [[a|e| |u|] w1]; reflexivity. Qed.
Lemma local_try (m : M unit) t : local (try_ m) t = ttry (local m) t.
Proof. unfold local, ttry, try_. destruct (m (t_world t)) as [[a|e| |u|] w1]; reflexivity. Qed.
Lemma tbind_ext {A B} (m m' : TM A) (f f' : A -> TM B) t :
  m t = m' t -> (forall a t, f a t = f' a t) -> tbind m f t = tbind m' f' t.
Proof. intros H1 H2. unfold tbind. rewrite H1. destruct (m' t) as [[a|e| |u|] t1]; auto. Qed.
Lemma tbind_assoc {A B C} (m : TM A) (f : A -> TM B) (g : B -> TM C) t : tbind (tbind m f) g t = tbind m (fun a => tbind (f a) g) t.
Proof. unfold tbind. destruct (m t) as [[a|e| |u|] t1]; reflexivity. Qed.

Definition same {A} (p : prog A) (m : M A) : Prop := forall t, interp p t = local m t.
Lemma same_bind {A B} (p : prog A) (m : M A) (f : A -> prog B) (g : A -> M B) :
  same p m -> (forall a, same (f a) (g a)) -> same (pbind p f) (bind m g).
Proof. intros H1 H2 t. rewrite interp_bind, local_bind. apply tbind_ext; [apply H1|intros a; apply H2]. Qed.
Lemma same_done {A} (o : outcome A) : same (PDone o) (fun w => (o, w)).
Proof. intros [w c r]. reflexivity. Qed.
Lemma same_write d : same (pwrite d) (writeExactSizeDataSimple d).
Proof.
  intros t. unfold pwrite. cbn [interp]. unfold local, writeExactSizeDataSimple. destruct (writeExact_raw d (w_wr (t_world t))) as [[r a] q'].
  destruct r; try reflexivity; cbn [interp pret]; unfold tfail; rewrite N.add_0_l; reflexivity.
Qed.
Lemma same_header h : same (pwriteFrameHeader h) (writeFrameHeader h).
Proof.
  unfold pwriteFrameHeader, writeFrameHeader. destruct (packHeaderBits h) as [bb sc].
  apply same_bind; [apply same_write|]. intros r. destruct (negb (r =? 2)); [apply same_done|].
  apply same_bind.
  - destruct (sc =? 2); [|destruct (sc =? 3); [|apply same_done]].
    + apply same_bind; [apply same_write|]. intros r'. destruct (negb _); apply same_done.
    + apply same_bind; [apply same_write|]. intros r'. destruct (negb _); apply same_done.
  - intros _. destruct (h_hasMask h); [|apply same_done]. apply same_bind; [apply same_write|]. intros r'. destruct (negb _); apply same_done.
Qed.

(** After one access. *)
Definition asame {A} (p : prog A) (m : M A) : Prop := forall t, interp p t = tbind interleave (fun _ => local m) t.
Lemma interleave_ret t : interleave t = (Ret tt, snd (interleave t)).
Proof. unfold interleave. destruct (t_calls t); reflexivity. Qed.
Lemma asame_bind {A B} (p : prog A) (m : M A) (f : A -> prog B) (g : A -> M B) :
  asame p m -> (forall a, same (f a) (g a)) -> asame (pbind p f) (bind m g).
Proof.
  intros H1 H2 t. rewrite interp_bind. unfold tbind at 1. rewrite (H1 t). unfold tbind. rewrite interleave_ret.
  rewrite local_bind. unfold tbind. destruct (local m (snd (interleave t))) as [[a|e| |u|] t1]; try reflexivity. apply H2.
Qed.
Lemma same_sendFrameHeader h fin opc n : asame (psendFrameHeader h fin opc n) (sendFrameHeader h fin opc n).
Proof.
  intros t. unfold psendFrameHeader, sendFrameHeader.
  assert (forall msk : bool, same (pbind (if msk then PRand 4 (fun mk => pret (set_mask (Header fin false false false opc msk n (h_mask h)) (mask_of mk))) else pret (Header fin false false false opc msk n (h_mask h)))
     (fun h2 => pbind (pwriteFrameHeader h2) (fun _ => pret h2)))
    (bind (if msk then bind (randomBytes 4) (fun mk => ret (set_mask (Header fin false false false opc msk n (h_mask h)) (mask_of mk))) else ret (Header fin false false false opc msk n (h_mask h)))
     (fun h2 => bind (writeFrameHeader h2) (fun _ => ret h2)))) as HS.
  { intros msk. apply same_bind.
    - destruct msk; [|apply same_done]. intros []. reflexivity.
    - intros h2. apply same_bind; [apply same_header|]. intros _. apply same_done. }
  unfold tbind. rewrite interleave_ret. unfold local. unfold bind at 1, get. 
  cbn [pbind paccess pret]. cbn [interp]. etransitivity; [exact (HS (s_mask (w_sock (t_world (snd (interleave t))))) (snd (interleave t)))|]. reflexivity.
Qed.
Lemma same_sendOneFrame fin opc m : asame (psendOneFrame fin opc m) (sendOneFrame fin opc m).
Proof.
  unfold psendOneFrame, sendOneFrame. destruct m as [[|b bs]|].
  1,3: apply asame_bind; [apply same_sendFrameHeader|]; intros; apply same_done.
  apply asame_bind; [apply same_sendFrameHeader|]. intros h'. apply same_bind.
  - destruct (h_hasMask h'); [|apply same_write]. destruct (2 ^ 31 <=? lenN (b :: bs)); [apply same_done|apply same_write].
  - intros. apply same_done.
Qed.
Lemma same_sendChecked fin opc m : asame (psendChecked fin opc m) (sendChecked fin opc m).
Proof.
  unfold psendChecked, sendChecked. apply asame_bind; [apply same_sendOneFrame|]. intros []; [apply same_done|]. intros []. reflexivity.
Qed.
Lemma same_send op : asame (psend op) (send op).
Proof.
  destruct op; cbn [psend send]; try apply same_sendChecked. apply asame_bind; [apply same_sendOneFrame|]. intros; apply same_done.
Qed.
Lemma asame_try p m : asame p m -> asame (ptry p) (try_ m).
Proof.
  intros H t. rewrite interp_try. unfold ttry. rewrite (H t). unfold tbind. rewrite interleave_ret, local_try. reflexivity.
Qed.

Lemma interp_cmd c t : interp (pexec_cmd c) t = texec_cmd c t.
Proof.
  assert (is_send_cmd c \/ ~ is_send_cmd c) as [H|H] by (destruct c; cbn; auto).
  - assert (asame (pexec_cmd c) (exec_cmd c)) as HA.
    { destruct c as [| | |[] op| | |fin opc m]; try destruct H; cbn [pexec_cmd exec_cmd].
      - apply asame_try, same_send.
      - apply same_send.
      - unfold demand. apply asame_bind; [apply same_sendOneFrame|]. intros []; apply same_done. }
    rewrite (HA t). unfold texec_cmd. apply tbind_ext; [reflexivity|]. intros a t'. destruct c; try destruct H; reflexivity.
  - unfold texec_cmd. unfold tbind. rewrite interleave_ret. destruct c; try (exfalso; apply H; exact Logic.I); cbn [pexec_cmd interp pret]; destruct (snd (interleave t)); reflexivity.
Qed.
Lemma interp_cmds cs t : interp (pexec_cmds cs) t = texec_cmds cs t.
Proof.
  revert t. induction cs as [|c cs IH]; intros t; cbn [pexec_cmds texec_cmds]; [reflexivity|].
  rewrite interp_bind. apply tbind_ext; [apply interp_cmd|intros; apply IH].
Qed.

(** * Listening: what is private depends on private state alone *)
Definition tio (t : tworld) : Prop := io_only (w_in (t_world t)).
Definition lsame {A} (p : prog A) (m : TM A) : Prop := forall t, tio t -> interp p t = m t /\ tio (snd (m t)).
Lemma lsame_bind {A B} (p : prog A) (m : TM A) (f : A -> prog B) (g : A -> TM B) :
  lsame p m -> (forall a, lsame (f a) (g a)) -> lsame (pbind p f) (tbind m g).
Proof.
  intros H1 H2 t Ht. rewrite interp_bind. unfold tbind. destruct (H1 t Ht) as [-> Hio]. destruct (m t) as [[a|e| |u|] t1]; auto. apply H2, Hio.
Qed.
Lemma lsame_done {A} (o : outcome A) : lsame (PDone o) (tfail o).
Proof. intros t Ht. split; [reflexivity|exact Ht]. Qed.
Lemma lsame_access {A} (f : shf -> A) (g : sock -> A) : (forall k, f (shf_of k) = g k) -> lsame (paccess f) (access g).
Proof.
  intros H t Ht. unfold paccess, access, tbind, tget, tret. cbn [interp pret]. rewrite interleave_ret. cbn [snd]. rewrite H. split; [reflexivity|].
  unfold tio, interleave in *. destruct (t_calls t); exact Ht.
Qed.
Definition private {A} (m : M A) : Prop := forall w, io_only (w_in w) ->
  m w = (fst (m (world_of (priv_of w))), put_priv (priv_of (snd (m (world_of (priv_of w))))) w) /\ io_only (w_in (snd (m w))).
Lemma lsame_local {A} (m : M A) : private m -> lsame (plocal m) (local m).
Proof.
  intros H t Ht. destruct (H (t_world t) Ht) as [E Hio]. unfold plocal, local. cbn [interp]. unfold tfail, tio. destruct (m (t_world t)) as [o w'] eqn:E0.
  injection E as -> ->. split; [reflexivity|]. exact Hio.
Qed.
Lemma lsame_mark {A} e (p : prog A) m : lsame p m -> lsame (PMark e p) (tbind (mark e) (fun _ => m)).
Proof. intros H t Ht. cbn [interp]. unfold tbind, mark. apply H. exact Ht. Qed.

Lemma put_same w : put_priv (priv_of w) w = w.
Proof. destruct w as [i q o r n l [a b c d e]]. reflexivity. Qed.
Lemma readExact_io n s k : io_only s -> readExact_raw n s k = (fst (readExact_raw n s (Sock false 0 None 0 false)), k) /\ io_only (snd (fst (readExact_raw n s k))).
Proof.
  intros H. revert n. induction H as [|[b bs|e|x] s Hx Hs IH]; intros n; cbn [readExact_raw].
  - destruct (n =? 0); split; try reflexivity; constructor.
  - destruct (n =? 0); [split; [reflexivity|constructor; assumption]|]. destruct (n <=? lenN (b :: bs)).
    + split; [reflexivity|]. cbn [fst snd]. unfold unread. destruct (dropN n (b :: bs)); [exact Hs|constructor; [exact Logic.I|exact Hs]].
    + destruct (IH (n - lenN (b :: bs))) as [-> G].
      destruct (readExact_raw (n - lenN (b :: bs)) s k) as [[r s1] k1]. destruct (readExact_raw (n - lenN (b :: bs)) s _) as [[r2 s2] k2]. cbn [fst snd] in *.
      destruct r2; split; try reflexivity; exact G.
  - destruct (n =? 0); [split; [reflexivity|constructor; assumption]|]. destruct e; [apply IH|split; [reflexivity|exact Hs]..].
  - destruct Hx.
Qed.
Lemma private_same {A} (o : outcome A) : private (fun w => (o, w)).
Proof. intros w Hw. cbn [fst snd]. split; [|exact Hw]. destruct w as [i q ou r n l [a b c d e]]. reflexivity. Qed.
Lemma private_exact n : private (readExactSizeDataSimple n).
Proof.
  intros w Hw. unfold readExactSizeDataSimple. destruct w as [i q ou r n1 l [a b c d e]]. cbn [w_in] in Hw.
  destruct (readExact_io n i (Sock a b c d e) Hw) as [E1 G]. destruct (readExact_io n i (Sock false 0 None d false) Hw) as [E2 _].
  unfold world_of, priv_of. cbn [w_in w_sock v_in v_last v_log s_last w_log]. rewrite E1, E2. rewrite E1 in G.
  destruct (fst (readExact_raw n i (Sock false 0 None 0 false))) as [rr s]. cbn [fst snd] in *.
  destruct rr; (split; [reflexivity|exact G]).
Qed.
Lemma private_bind {A B} (m : M A) (f : A -> M B) : private m -> (forall a, private (f a)) -> private (bind m f).
Proof.
  intros Hm Hf w Hw. destruct (Hm w Hw) as [E1 G1]. destruct (Hm (world_of (priv_of w)) Hw) as [E2 G2].
  change (priv_of (world_of (priv_of w))) with (priv_of w) in E2.
  unfold bind. remember (m (world_of (priv_of w))) as r eqn:Er. destruct r as [o w2]. cbn [fst snd] in E1, E2, G1, G2. rewrite E1 in *. cbn [fst snd] in G1.
  injection E2 as E2.
  destruct o as [a|e| |u|]; cbn [fst snd]; try (split; [reflexivity|exact G1]).
  destruct (Hf a _ G1) as [E3 G3]. destruct (Hf a _ G2) as [E4 _].
  change (priv_of (put_priv (priv_of w2) w)) with (priv_of w2) in E3. split; [|exact G3].
  rewrite E3. rewrite E4. cbn [fst snd]. reflexivity.
Qed.
Lemma private_header h : private (readFrameHeader h).
Proof.
  unfold readFrameHeader. apply private_bind; [apply private_exact|]. intros bb. destruct (negb _); [apply private_same|].
  destruct (unpackHeaderBits (be_dec bb) h) as [h1 m1]. apply private_bind.
  - destruct (m1 <? 126); [apply private_same|]. destruct (m1 =? 126); [|destruct (m1 =? 127); [|apply private_same]].
    + apply private_bind; [apply private_exact|]. intros l. destruct (negb _); apply private_same.
    + apply private_bind; [apply private_exact|]. intros l. destruct (negb _); apply private_same.
  - intros h2. destruct (h_hasMask h2); [|apply private_same]. apply private_bind; [apply private_exact|]. intros l. destruct (negb _); apply private_same.
Qed.
Lemma private_read n : private (readSimple n).
Proof.
  intros w Hw. unfold readSimple. destruct (n <? 0)%Z; [apply private_same, Hw|]. destruct (n =? 0)%Z; [apply private_same, Hw|].
  cbn [world_of priv_of w_in w_sock v_in v_last v_log].
  destruct w as [i q ou r n1 l [a b c d1 e]]. cbn [w_in w_sock s_last] in *. destruct Hw as [|[bb bs|er|x] s Hx Hs]; cbn [read_raw].
  - split; [reflexivity|constructor].
  - split; [reflexivity|]. cbn. unfold unread. destruct (dropN _ _); [exact Hs|constructor; [exact Logic.I|exact Hs]].
  - split; [reflexivity|exact Hs].
  - destruct Hx.
Qed.
Lemma private_check h : private (checkForContinuation h).
Proof.
  intros w Hw. unfold checkForContinuation, bind, get, modify_sock, ret. cbn [world_of priv_of w_sock s_last v_last].
  destruct (_ || _)%bool; (split; [|exact Hw]); destruct w as [i q ou r n1 l [a b c d1 e]]; reflexivity.
Qed.

Section Listening.
Variable react : react_t.

Lemma lsame_get {A} (f : priv -> prog A) (g : world -> TM A) : (forall v w, v = priv_of w -> lsame (f v) (g w)) -> lsame (pbind pget f) (tbind tget g).
Proof.
  intros H t Ht. unfold pget. cbn [pbind interp pret]. unfold tbind, tget. rewrite put_same. destruct t as [w c tr]. apply (H _ w eq_refl), Ht.
Qed.
Lemma lsame_cmds cs : lsame (pexec_cmds cs) (texec_cmds cs).
Proof.
  intros t Ht. rewrite interp_cmds. split; [reflexivity|]. revert t Ht. induction cs as [|c cs IH]; intros t Ht; cbn [texec_cmds]; [exact Ht|].
  unfold tbind. destruct (texec_cmd c t) as [o t1] eqn:E.
  assert (tio t1) as H1.
  { unfold texec_cmd in E. unfold tbind in E. rewrite interleave_ret in E. set (t0 := snd (interleave t)) in *.
    assert (tio t0) as H0 by (unfold t0, tio, interleave in *; destruct (t_calls t); exact Ht). clearbody t0.
    set (m := match c with CStop => mark TStop | CSetListener l => mark (TInstall l) | CSetConfig m b => mark (TConfig m b) | _ => tret tt end) in E.
    destruct (m t0) as [o1 t2] eqn:E1.
    assert (o1 = Ret tt /\ tio t2) as [-> H2] by (unfold m in E1; destruct c; injection E1 as <- <-; auto).
    unfold local in E. destruct (exec_cmd c (t_world t2)) as [o2 w2] eqn:E2. injection E as <- <-. apply exec_cmd_effect in E2.
    unfold tio in *. cbn [t_world]. destruct E2 as (-> & _). exact H2. }
  destruct o as [[]|e| |u|]; auto.
Qed.
Lemma lsame_notify ev : lsame (pnotify react ev) (tnotify react ev).
Proof.
  unfold pnotify, tnotify. apply lsame_bind; [apply lsame_access; reflexivity|]. intros [l0|].
  2: { intros t Ht. split; [reflexivity|exact Ht]. }
  apply lsame_bind; [apply lsame_access; reflexivity|]. intros [l|]; [|apply lsame_done].
  apply lsame_mark. intros t Ht. cbn [interp]. unfold tbind, local, tget. cbn [fst snd t_world t_calls t_trace].
  set (t1 := TWorld (set_log (t_world t) (w_log (t_world t) ++ [(l, ev)])) (t_calls t) (t_trace t)).
  assert (on_world t (put_priv (Priv (w_in (t_world t)) (w_log (t_world t) ++ [(l, ev)]) (s_last (w_sock (t_world t)))) (t_world t)) = t1) as E.
  { unfold t1, on_world, put_priv, set_log. destruct t as [[i q ou r n1 lg [a b c d1 e]] cc tr]. reflexivity. }
  cbn [priv_of v_in v_log v_last]. rewrite E. apply lsame_cmds. exact Ht.
Qed.
Lemma lsame_loop fuel : forall h short alloc progress, lsame (preadPayload_loop react fuel h short alloc progress) (treadPayload_loop react fuel h short alloc progress).
Proof.
  induction fuel as [|fuel IH]; intros h short alloc progress; cbn [preadPayload_loop treadPayload_loop]; [apply lsame_done|].
  destruct (progress <? h_len h)%Z; [|apply lsame_done]. apply lsame_bind; [apply lsame_access; reflexivity|]. intros des. cbv zeta.
  apply lsame_bind; [apply lsame_local, private_read|]. intros [data|[| |]].
  - destruct (alloc <? Z.of_N (lenN data))%Z; [apply lsame_done|]. destruct short; [apply IH|].
    apply lsame_bind; [apply lsame_notify|]. intros _. apply IH.
  - apply IH.
  - apply lsame_done.
  - apply lsame_done.
Qed.
Lemma lsame_payload h short : lsame (preadPayload react h short) (treadPayload react h short).
Proof.
  unfold preadPayload, treadPayload. destruct (_ && _)%bool; [apply lsame_done|]. apply lsame_bind; [apply lsame_access; reflexivity|]. intros alloc.
  destruct (alloc <? 0)%Z; [apply lsame_done|]. apply lsame_get. intros v w ->. cbn [priv_of v_in].
  apply lsame_bind; [apply lsame_loop|]. intros short'. apply lsame_bind; [|intros _; apply lsame_done].
  destruct short; [apply lsame_done|]. destruct (h_fin h); [apply lsame_notify|apply lsame_done].
Qed.
Lemma lsame_handle h : lsame (phandleFrame react h) (thandleFrame react h).
Proof.
  assert (forall h, lsame (pbind (preadPayload react h None) (fun _ => pret tt)) (tbind (treadPayload react h None) (fun _ => tret tt))) as HP.
  { intros h'. apply lsame_bind; [apply lsame_payload|intros _; apply lsame_done]. }
  assert (lsame (pbind (plocal (checkForContinuation h)) (fun ok : bool => if ok then pbind (preadPayload react h None) (fun _ => pret tt) else pthrow ExContinuationExpected))
     (tbind (local (checkForContinuation h)) (fun ok : bool => if ok then tbind (treadPayload react h None) (fun _ => tret tt) else tfail (Throw ExContinuationExpected)))) as HC.
  { apply lsame_bind; [apply lsame_local, private_check|]. intros []; [apply HP|apply lsame_done]. }
  assert (forall f, lsame (pbind (preadPayload react h (Some [])) (fun p => pnotify react (f p))) (tbind (treadPayload react h (Some [])) (fun p => tnotify react (f p)))) as HN.
  { intros f. apply lsame_bind; [apply lsame_payload|]. intros p. apply lsame_notify. }
  unfold phandleFrame, thandleFrame. destruct (h_opcode h) as [|p].
  - apply lsame_get. intros v w ->. cbn [priv_of v_last]. destruct (_ <? 0)%Z; [apply lsame_done|apply HP].
  - destruct p as [p|p|]; [destruct p as [p|p|]|destruct p as [p|p|]|exact HC]; try apply lsame_done; try exact HC;
      destruct p as [p|p|]; try apply lsame_done; destruct p as [p|p|]; try apply lsame_done; apply HN.
Qed.
Lemma lsame_listen_loop fuel : forall h, lsame (plisten_loop react fuel h) (tlisten_loop react fuel h).
Proof.
  induction fuel as [|fuel IH]; intros h; cbn [plisten_loop tlisten_loop]; [apply lsame_done|].
  apply lsame_mark. apply lsame_bind; [apply lsame_local, private_header|]. intros h'.
  apply lsame_bind; [apply lsame_handle|]. intros _. apply lsame_bind; [apply lsame_access; reflexivity|]. intros b.
  destruct (_ && _)%bool; [apply IH|apply lsame_done].
Qed.
Lemma lsame_try (p : prog unit) m : lsame p m -> lsame (ptry p) (ttry m).
Proof.
  intros H t Ht. rewrite interp_try. unfold ttry. destruct (H t Ht) as [-> Hio]. split; [reflexivity|]. destruct (m t) as [[] t1]; exact Hio.
Qed.
Lemma lsame_listen : lsame (plisten react) (tlisten react).
Proof.
  intros t Ht. set (t0 := snd (interleave t)).
  assert (tio t0) as H0 by (unfold t0, tio, interleave in *; destruct (t_calls t); exact Ht).
  set (t1 := TWorld (set_sock (t_world t0) (set_listening (w_sock (t_world t0)) true)) (t_calls t0) (t_trace t0 ++ [TListen])).
  assert (tlisten react t = (w <- tget;; ttry (tlisten_loop react (S (script_size (w_in w))) header_init))%t t1) as E.
  { unfold tlisten. unfold tbind at 1. rewrite interleave_ret. reflexivity. }
  rewrite E. change (interp (plisten react) t) with (interp (v <- pget ;; ptry (plisten_loop react (S (script_size (v_in v))) header_init))%p t1).
  apply lsame_get; [|exact H0]. intros v w ->. cbn [priv_of v_in]. apply lsame_try, lsame_listen_loop.
Qed.
End Listening.
