(** Two runs of the listening code, on an input script and on an extension of it. *)
From Verif Require Import Bytes Frame World WebSocket SpecFrame SpecSend SpecListen SpecCausal
  ProofFrame ProofStream ProofSend ProofHeader ProofListen ProofInv ProofRel.
From Coq Require Import ZifyBool ZifyNat ZifyN.
Local Open Scope N_scope.
Local Open Scope m_scope.
Local Arguments takeN : simpl never.
Local Arguments dropN : simpl never.
Local Arguments lenN : simpl never.
Local Arguments be_enc : simpl never.
Local Arguments be_dec : simpl never.

Lemma unread_app d s t : unread d s ++ t = unread d (s ++ t).
Proof. destruct d; reflexivity. Qed.

Lemma read_raw_app n t s : forall k r s' k', read_raw n s k = (r, s', k') ->
  match r with
  | RPending => s' = [] /\ read_raw n (s ++ t) k = read_raw n t k'
  | _ => read_raw n (s ++ t) k = (r, s' ++ t, k')
  end.
Proof.
  induction s as [|e s IH]; intros k r s' k' E; cbn [read_raw app] in *.
  - injection E as <- <- <-. auto.
  - destruct e as [b bs|e|x].
    + injection E as <- <- <-. now rewrite unread_app.
    + injection E as <- <- <-. reflexivity.
    + now apply IH in E.
Qed.

Definition xcons (d : bytes) (r : xres) : xres :=
  match r with XAll a => XAll (d ++ a) | XShort a => XShort (d ++ a) | XPending => XPending end.

Lemma readExact_raw_app t s : forall n k r s' k', readExact_raw n s k = (r, s', k') ->
  match r with
  | XPending => s' = [] /\ exists m d, 0 < m /\ n = lenN d + m /\
      readExact_raw n (s ++ t) k = (let '(r2, s2, k2) := readExact_raw m t k' in (xcons d r2, s2, k2))
  | _ => readExact_raw n (s ++ t) k = (r, s' ++ t, k')
  end.
Proof.
  induction s as [|e s IH]; intros n k r s' k' E.
  - cbn [readExact_raw app] in *. destruct (N.eqb_spec n 0) as [->|Hn].
    + injection E as <- <- <-. apply readExact_raw_0.
    + injection E as <- <- <-. split; [reflexivity|]. exists n, []. split; [lia|]. split; [reflexivity|].
      destruct (readExact_raw n t k) as [[[] s2] k2]; reflexivity.
  - cbn [readExact_raw app] in *. destruct (N.eqb_spec n 0) as [->|Hn].
    + injection E as <- <- <-. reflexivity.
    + destruct e as [b bs|[]|x].
      * destruct (n <=? lenN (b :: bs)) eqn:Hle.
        -- injection E as <- <- <-. now rewrite unread_app.
        -- destruct (readExact_raw (n - lenN (b :: bs)) s k) as [[r1 s1] k1] eqn:E1. apply IH in E1.
           destruct r1; injection E as <- <- <-.
           ++ rewrite E1. reflexivity.
           ++ rewrite E1. reflexivity.
           ++ destruct E1 as (-> & m & d & Hm & Hd & ->). split; [reflexivity|].
              exists m, ((b :: bs) ++ d). rewrite lenN_app. split; [exact Hm|]. split; [lia|].
              destruct (readExact_raw m t k1) as [[[] s2] k2]; cbn [xcons]; rewrite ?app_assoc; reflexivity.
      * now apply IH in E.
      * injection E as <- <- <-. reflexivity.
      * injection E as <- <- <-. reflexivity.
      * now apply IH in E.
Qed.

(** * Code that does not read *)
Definition blind {A} (m : M A) : Prop := forall t w o w', m w = (o, w') -> m (more t w) = (o, more t w').

Lemma blind_ret {A} (a : A) : blind (ret a).
Proof. intros t w o w' E. injection E as <- <-. reflexivity. Qed.
Lemma blind_throw {A} e : blind (@throw A e).
Proof. intros t w o w' E. injection E as <- <-. reflexivity. Qed.
Lemma blind_undef {A} e : blind (@undef A e).
Proof. intros t w o w' E. injection E as <- <-. reflexivity. Qed.
Lemma blind_bind {A B} (m : M A) (f : A -> M B) : blind m -> (forall a, blind (f a)) -> blind (bind m f).
Proof.
  intros Hm Hf t w o w' E. unfold bind in *. destruct (m w) as [o1 w1] eqn:E1. apply (Hm t) in E1. rewrite E1.
  destruct o1; try (injection E as <- <-; reflexivity). now apply Hf.
Qed.
Lemma blind_get {A} (f : world -> M A) : (forall w0, blind (f w0)) -> (forall t w0, f (more t w0) = f w0) -> blind (bind get f).
Proof.
  intros Hf Hs t w o w' E. unfold bind, get in *. rewrite Hs. now apply Hf.
Qed.
Lemma blind_try m : blind m -> blind (try_ m).
Proof.
  intros Hm t w o w' E. unfold try_ in *. destruct (m w) as [o1 w1] eqn:E1. apply (Hm t) in E1. rewrite E1.
  destruct o1; injection E as <- <-; reflexivity.
Qed.
Lemma blind_sock f : blind (modify_sock f).
Proof. intros t w o w' E. injection E as <- <-. reflexivity. Qed.
Lemma blind_rnd n : blind (randomBytes n).
Proof. intros t w o w' E. injection E as <- <-. reflexivity. Qed.
Lemma blind_write d : blind (writeExactSizeDataSimple d).
Proof.
  intros t w o w' E. unfold writeExactSizeDataSimple in *. cbn [w_wr w_out more set_in].
  destruct (writeExact_raw d (w_wr w)) as [[r a] q]. destruct r; injection E as <- <-; reflexivity.
Qed.
Create HintDb blind.
Global Hint Resolve blind_ret blind_throw blind_undef blind_sock blind_rnd blind_write : blind.
Ltac blind_tac :=
  repeat first
    [ match goal with
      | |- blind (bind get _) => fail 1
      | |- blind (bind _ _) => apply blind_bind; [|intros ?]
      | |- blind (if ?b then _ else _) => destruct b
      | |- blind (let (_, _) := ?p in _) => destruct p
      end
    | solve [auto with blind] ].
Lemma blind_writeFrameHeader h : blind (writeFrameHeader h).
Proof. unfold writeFrameHeader. blind_tac. Qed.
Global Hint Resolve blind_writeFrameHeader : blind.
Lemma blind_sendFrameHeader h fin op n : blind (sendFrameHeader h fin op n).
Proof. unfold sendFrameHeader. apply blind_get; [intros w0; cbv zeta; blind_tac|reflexivity]. Qed.
Global Hint Resolve blind_sendFrameHeader : blind.
Lemma blind_sendOneFrame fin op m : blind (sendOneFrame fin op m).
Proof. unfold sendOneFrame. destruct m as [[|b bs]|]; cbv zeta; blind_tac. Qed.
Global Hint Resolve blind_sendOneFrame : blind.
Lemma blind_send op : blind (send op).
Proof. destruct op; cbn [send]; unfold sendChecked, stopListening; blind_tac. Qed.
Global Hint Resolve blind_send blind_try : blind.
Lemma blind_cmds cs : blind (exec_cmds cs).
Proof.
  induction cs as [|c cs IH]; cbn [exec_cmds]; [apply blind_ret|]. apply blind_bind; [|intros _; exact IH].
  destruct c as [|l|m b|[] op| | |fin0 opc0 msg0]; cbn [exec_cmd]; unfold stopListening; auto with blind.
  unfold demand. blind_tac.
Qed.
Lemma blind_notify react ev : blind (notify react ev).
Proof.
  intros t w o w' E. unfold notify in *. cbn [w_sock w_log more set_in].
  destruct (s_listener (w_sock w)) as [l|]; [|injection E as <- <-; reflexivity].
  change (set_log (more t w) (w_log w ++ [(l, ev)])) with (more t (set_log w (w_log w ++ [(l, ev)]))).
  now apply blind_cmds.
Qed.

Section Two.
Variable react : react_t.
Variable px : ext -> Prop.
Variable R : bool -> world -> world -> Prop.
Hypothesis R_refl : forall w, R true w w.
Hypothesis R_trans : forall c a b d, R true a b -> R c b d -> R c a d.
Hypothesis R_weak : forall c a b, R true a b -> R c a b.
Hypothesis R_in : forall w s, R true w (set_in w s).
Hypothesis R_ext : forall w x, px x -> R true w (set_sock w (apply_ext x (w_sock w))).
Hypothesis R_last : forall w z, R true w (set_sock w (set_last (w_sock w) z)).
Hypothesis R_on : forall w, R true w (set_sock w (set_listening (w_sock w) true)).
Hypothesis R_notify : forall ev w o w', notify react ev w = (o, w') -> R (is_ret o) w w'.

(** What comes later: calls [xs] of other threads first, then [s2]. *)
Variable xs : list ext.
Variable s2 : list rev.
Hypothesis Hs2 : script_ok px any_err s2.
Definition tail : list rev := map RExt xs ++ s2.
Definition settled (w : world) : world := set_sock w (fold_left (fun k x => apply_ext x k) xs (w_sock w)).

Definition later {A} (w1 : world) (o2 : outcome A) (w2 : world) : Prop := pok px w2 /\ R (is_ret o2) (settled w1) w2.

(** Run 1 from [w], run 2 from [more tail w]. *)
Definition two {A} (m1 m2 : M A) (w : world) : Prop := forall o w1, m1 w = (o, w1) -> o <> OutOfFuel ->
  m2 (more tail w) = (o, more tail w1) \/
  (o = Wait /\ w_in w1 = [] /\ exists o2 w2, m2 (more tail w) = (o2, w2) /\ later w1 o2 w2).

Lemma two_blind {A} (m : M A) w : blind m -> two m m w.
Proof. intros H o w1 E _. left. now apply H. Qed.

Lemma two_bind {A B} (m1 m2 : M A) (f1 f2 : A -> M B) w :
  two m1 m2 w -> (forall a w1, m1 w = (Ret a, w1) -> two (f1 a) (f2 a) w1) -> (forall a, rinv px R (f2 a)) ->
  two (bind m1 f1) (bind m2 f2) w.
Proof.
  intros Hm Hf Hr o w1 E Ho. unfold bind in *. destruct (m1 w) as [o1 wm] eqn:E1.
  assert (o1 <> OutOfFuel) as Ho1 by (intros ->; injection E as <- <-; congruence).
  destruct (Hm _ _ E1 Ho1) as [H|(-> & Hin & o2 & w2 & H2 & Hp & HR)].
  - rewrite H. destruct o1 as [a|e| |u|]; try (injection E as <- <-; left; reflexivity).
    apply (Hf _ _ eq_refl); assumption.
  - injection E as <- <-. right. split; [reflexivity|]. split; [exact Hin|]. rewrite H2.
    destruct o2 as [a|e| |u|]; try (eexists _, _; split; [reflexivity|split; assumption]).
    destruct (f2 a w2) as [o3 w3] eqn:E3. apply Hr in E3; [|exact Hp]. destruct E3 as [Hp3 HR3].
    eexists _, _. split; [reflexivity|]. split; [exact Hp3|]. eapply R_trans; eassumption.
Qed.

Lemma two_get {A} (f1 f2 : world -> M A) w : two (f1 w) (f2 (more tail w)) w -> two (bind get f1) (bind get f2) w.
Proof. intros H. exact H. Qed.

(** ** Reads *)
Lemma read_raw_ext n l : forall k, read_raw n (map RExt l ++ s2) k = read_raw n s2 (fold_left (fun k x => apply_ext x k) l k).
Proof. induction l as [|x l IH]; intros k; cbn; [reflexivity|apply IH]. Qed.
Lemma readExact_raw_ext n l : 0 < n -> forall k,
  readExact_raw n (map RExt l ++ s2) k = readExact_raw n s2 (fold_left (fun k x => apply_ext x k) l k).
Proof.
  intros Hn. induction l as [|x l IH]; intros k; cbn [map app fold_left]; [reflexivity|].
  cbn [readExact_raw]. destruct (N.eqb_spec n 0); [lia|]. apply IH.
Qed.

(** Any read from the settled world. *)
Lemma R_read w1 s' k' c :
  (forall (J : sock -> Prop) (px' : ext -> Prop) pe, (forall x k, px' x -> J k -> J (apply_ext x k)) -> script_ok px' pe s2 ->
     J (w_sock (settled w1)) -> script_ok px' pe s' /\ J k') ->
  pok px (set_sock (set_in w1 s') k') /\ R c (settled w1) (set_sock (set_in w1 s') k').
Proof.
  intros H. destruct (H (fun k => R true (settled w1) (set_sock (set_in w1 s') k)) px any_err) as [H7 H8]; [|exact Hs2| |].
  - intros x k Hx HR. eapply R_trans; [exact HR|]. apply (R_ext (set_sock (set_in w1 s') k) x Hx).
  - change (set_sock (set_in w1 s') (w_sock (settled w1))) with (set_in (settled w1) s'). apply R_in.
  - split; [exact H7|]. now apply R_weak.
Qed.

Lemma two_readSimple n w : two (readSimple n) (readSimple n) w.
Proof.
  intros o w1 E Ho. unfold readSimple in *. destruct (n <? 0)%Z; [injection E as <- <-; left; reflexivity|].
  destruct (n =? 0)%Z; [injection E as <- <-; left; reflexivity|].
  cbn [more set_in w_in w_sock] in *.
  destruct (read_raw (Z.to_N n) (w_in w) (w_sock w)) as [[r s1] k1] eqn:E1.
  apply (read_raw_app _ tail) in E1. destruct r.
  - rewrite E1. injection E as <- <-. left. reflexivity.
  - rewrite E1. injection E as <- <-. left. reflexivity.
  - destruct E1 as [-> E1]. injection E as <- <-. right. split; [reflexivity|]. split; [reflexivity|].
    rewrite E1. unfold tail. rewrite read_raw_ext.
    set (w1 := set_sock (set_in w []) k1).
    change (fold_left (fun k x => apply_ext x k) xs k1) with (w_sock (settled w1)).
    destruct (read_raw (Z.to_N n) s2 (w_sock (settled w1))) as [[r s'] k'] eqn:E2.
    assert (forall c, later w1 (A := bytes + ioerr) (if c : bool then Ret (inr IoZero) else Wait) (set_sock (set_in w1 s') k')) as HL.
    { intros c. apply R_read. intros J px' pe HJ Hs' Hk. split; [eapply read_raw_ok; eassumption|eapply read_raw_inv; eassumption]. }
    destruct r; eexists _, _; (split; [reflexivity|]); [apply (HL true)|apply (HL true)|apply (HL false)].
Qed.

Lemma two_readExact n w : two (readExactSizeDataSimple n) (readExactSizeDataSimple n) w.
Proof.
  intros o w1 E Ho. unfold readExactSizeDataSimple in *.
  cbn [more set_in w_in w_sock] in *.
  destruct (readExact_raw n (w_in w) (w_sock w)) as [[r s1] k1] eqn:E1.
  apply (readExact_raw_app tail) in E1. destruct r.
  - rewrite E1. injection E as <- <-. left. reflexivity.
  - rewrite E1. injection E as <- <-. left. reflexivity.
  - destruct E1 as (-> & m & d & Hm & Hd & E1). injection E as <- <-. right. split; [reflexivity|]. split; [reflexivity|].
    rewrite E1. unfold tail. rewrite readExact_raw_ext by exact Hm.
    set (w1 := set_sock (set_in w []) k1).
    change (fold_left (fun k x => apply_ext x k) xs k1) with (w_sock (settled w1)).
    destruct (readExact_raw m s2 (w_sock (settled w1))) as [[r s'] k'] eqn:E2.
    assert (forall c a, later w1 (A := bytes) (if c : bool then Ret a else Wait) (set_sock (set_in w1 s') k')) as HL.
    { intros c a. destruct (R_read w1 s' k' c) as [H1 H2].
      - intros J px' pe HJ Hs' Hk. split; [eapply readExact_ok; eassumption|eapply readExact_inv; eassumption].
      - split; [exact H1|]. destruct c; exact H2. }
    destruct r; cbn [xcons]; eexists _, _; (split; [reflexivity|]); [apply (HL true)|apply (HL true)|apply (HL false [])].
Qed.


Ltac rules := first [exact R_refl | exact R_trans | exact R_weak | exact R_in | exact R_ext | exact R_last | exact R_on | exact R_notify].

Lemma two_ret {A} (a : A) w : two (ret a) (ret a) w.
Proof. apply two_blind, blind_ret. Qed.
Lemma two_throw {A} e w : two (@throw A e) (throw e) w.
Proof. apply two_blind, blind_throw. Qed.

Lemma two_header h w : two (readFrameHeader h) (readFrameHeader h) w.
Proof.
  unfold readFrameHeader.
  assert (forall n, rinv px R (readExactSizeDataSimple n)) as Hre.
  { intros n w0 o w' Hp E. apply readExact_spec in E; destruct E as [Hro _]. eapply R_ronly; try rules; eassumption. }
  assert (forall {A} (a : A), rinv px R (ret a)) as Hret by (intros; apply rinv_ret; rules).
  assert (forall {A} e, rinv px R (@throw A e)) as Hth by (intros; apply rinv_throw; rules).
  assert (forall {A B} (m : M A) (f : A -> M B), rinv px R m -> (forall a, rinv px R (f a)) -> rinv px R (bind m f)) as Hb
    by (intros; apply rinv_bind; try assumption; rules).
  apply two_bind; [apply two_readExact| |].
  - intros bb w1 _. destruct (negb _); [apply two_throw|]. destruct (unpackHeaderBits _ _) as [h1 n1].
    apply two_bind.
    + destruct (n1 <? 126); [apply two_ret|]. destruct (n1 =? 126); [|destruct (n1 =? 127); [|apply two_ret]].
      * apply two_bind; [apply two_readExact| |]; intros; destruct (negb _); auto using two_ret, two_throw.
      * apply two_bind; [apply two_readExact| |]; intros; destruct (negb _); auto using two_ret, two_throw.
    + intros h2 w2 _. destruct (h_hasMask h2); [|apply two_ret].
      apply two_bind; [apply two_readExact| |]; intros; destruct (negb _); auto using two_ret, two_throw.
    + intros h2. destruct (h_hasMask h2); [|auto]. apply Hb; [auto|]. intros mk. destruct (negb _); auto.
  - intros bb. destruct (negb _); [auto|]. destruct (unpackHeaderBits _ _) as [h1 n1]. apply Hb.
    + destruct (n1 <? 126); [auto|]. destruct (n1 =? 126); [|destruct (n1 =? 127); [|auto]].
      * apply Hb; [auto|]. intros l2. destruct (negb _); auto.
      * apply Hb; [auto|]. intros l2. destruct (negb _); auto.
    + intros h2. destruct (h_hasMask h2); [|auto]. apply Hb; [auto|]. intros mk. destruct (negb _); auto.
Qed.

Lemma two_loop f1 : forall f2 h short alloc progress w, (f1 <= f2)%nat ->
  two (readPayload_loop react f1 h short alloc progress) (readPayload_loop react f2 h short alloc progress) w.
Proof.
  induction f1 as [|f1 IH]; intros f2 h short alloc progress w Hf.
  - intros o w1 E Ho. cbn in E. injection E as <- <-. congruence.
  - destruct f2 as [|f2]; [lia|]. cbn [readPayload_loop]. destruct (progress <? h_len h)%Z; [|apply two_ret].
    apply two_get. cbn [more set_in w_sock]. cbv zeta.
    assert (forall short' p, rinv px R (readPayload_loop react f2 h short' alloc p)) as Hloop by (intros; apply rinv_loop; rules).
    assert (forall {A} e, rinv px R (@throw A e)) as Hth by (intros; apply rinv_throw; rules).
    apply two_bind; [apply two_readSimple| |].
    + intros [d|e] w1 _.
      * destruct (_ <? _)%Z; [apply two_blind; auto with blind|]. destruct short; [apply IH; lia|].
        apply two_bind; [apply two_blind, blind_notify|intros; apply IH; lia|auto].
      * destruct e; [apply IH; lia|apply two_throw..].
    + intros [d|e].
      * destruct (_ <? _)%Z; [apply rinv_undef; rules|]. destruct short; [auto|].
        apply rinv_bind; [rules|apply rinv_notify; rules|auto].
      * destruct e; auto.
Qed.

Lemma two_payload h short w : two (readPayload react h short) (readPayload react h short) w.
Proof.
  unfold readPayload. destruct (_ && _)%bool; [apply two_throw|]. apply two_get. cbn [more set_in w_sock w_in].
  destruct (_ <? 0)%Z; [apply two_throw|]. apply two_bind.
  - apply two_loop. apply le_n_S. clear. induction (w_in w) as [|[] s IH]; cbn; lia.
  - intros s w1 _. apply two_blind. apply blind_bind; [|auto with blind].
    destruct short; [auto with blind|]. destruct (h_fin h); [apply blind_notify|auto with blind].
  - intros s. apply rinv_bind; [rules| |intros _; apply rinv_ret; rules].
    destruct short; [apply rinv_ret; rules|]. destruct (h_fin h); [apply rinv_notify; rules|apply rinv_ret; rules].
Qed.

Lemma two_handle h w : two (handleFrame react h) (handleFrame react h) w.
Proof.
  unfold handleFrame.
  assert (forall short, rinv px R (readPayload react h short)) as Hri by (intros; apply rinv_payload; rules).
  assert (forall {A} (a : A), rinv px R (ret a)) as Hret by (intros; apply rinv_ret; rules).
  assert (forall {A} e, rinv px R (@throw A e)) as Hth by (intros; apply rinv_throw; rules).
  assert (forall {A B} (m : M A) (f : A -> M B), rinv px R m -> (forall a, rinv px R (f a)) -> rinv px R (bind m f)) as Hb
    by (intros; apply rinv_bind; try assumption; rules).
  assert (forall short w, two (readPayload react h short ;;; ret tt) (readPayload react h short ;;; ret tt) w) as Hrp.
  { intros short w0. apply two_bind; [apply two_payload|intros; apply two_ret|auto]. }
  assert (forall f w, two (p <- readPayload react h (Some []) ;; notify react (f p)) (p <- readPayload react h (Some []) ;; notify react (f p)) w) as Hc.
  { intros f w0. apply two_bind; [apply two_payload|intros; apply two_blind, blind_notify|intros; apply rinv_notify; rules]. }
  assert (two (ok <- checkForContinuation h ;;
      if (ok : bool) then readPayload react h None ;;; ret tt else throw ExContinuationExpected)
      (ok <- checkForContinuation h ;;
      if (ok : bool) then readPayload react h None ;;; ret tt else throw ExContinuationExpected) w) as Hd.
  { apply two_bind.
    - apply two_blind. unfold checkForContinuation. apply blind_get; [|reflexivity]. intros w0. cbv zeta. blind_tac.
    - intros [] w1 _; [apply Hrp|apply two_throw].
    - intros []; auto. }
  assert (two (w0 <- get ;; if (s_last (w_sock w0) <? 0)%Z then throw ExInvalidState
            else readPayload react h None ;;; ret tt)
            (w0 <- get ;; if (s_last (w_sock w0) <? 0)%Z then throw ExInvalidState
            else readPayload react h None ;;; ret tt) w) as H0.
  { apply two_get. cbn [more set_in w_sock]. destruct (_ <? 0)%Z; [apply two_throw|apply Hrp]. }
  destruct (h_opcode h) as [|[[[[p|p|]|[p|p|]|]|[[p|p|]|[p|p|]|]|]|[[[p|p|]|[p|p|]|]|[[p|p|]|[p|p|]|]|]|]];
    first [exact H0|exact Hd|apply Hc|apply two_throw].
Qed.

Lemma two_iterate h w : two (iterateFrame react h) (iterateFrame react h) w.
Proof.
  unfold iterateFrame. apply two_bind; [apply two_header| |].
  - intros h' w1 _. apply two_bind; [apply two_handle|intros; apply two_ret|intros; apply rinv_ret; rules].
  - intros h'. apply rinv_bind; [rules|apply rinv_handle; rules|intros; apply rinv_ret; rules].
Qed.

Lemma two_listen_loop f1 : forall f2 h w, (f1 <= f2)%nat ->
  two (listen_loop react f1 h) (listen_loop react f2 h) w.
Proof.
  induction f1 as [|f1 IH]; intros f2 h w Hf.
  - intros o w1 E Ho. cbn in E. injection E as <- <-. congruence.
  - destruct f2 as [|f2]; [lia|]. cbn [listen_loop].
    assert (forall h, rinv px R (listen_loop react f2 h)) as Hl by (intros; apply rinv_listen_loop; rules).
    assert (forall h', rinv px R (w <- get ;; if (negb (h_opcode h' =? OPCODE_CLOSE) && s_listening (w_sock w))%bool
            then listen_loop react f2 h' else ret tt)) as Hk.
    { intros h'. apply rinv_bind; [rules|apply rinv_get; rules|]. intros w0. destruct (_ && _)%bool; [auto|apply rinv_ret; rules]. }
    apply two_bind; [apply two_header| |].
    + intros h' w1 _. apply two_bind; [apply two_handle| |auto].
      intros _ w2 _. apply two_get. cbn [more set_in w_sock]. destruct (_ && _)%bool; [apply IH; lia|apply two_ret].
    + intros h'. apply rinv_bind; [rules|apply rinv_handle; rules|auto].
Qed.

Lemma script_size_app s t : script_size (s ++ t) = (script_size s + script_size t)%nat.
Proof. induction s as [|[] s IH]; cbn; lia. Qed.

(** listen on the shorter and on the longer script. *)
Lemma listen_two w o w1 : listen react w = (o, w1) ->
  listen react (more tail w) = (o, more tail w1) \/
  (o = Wait /\ w_in w1 = [] /\ exists o2 w2, listen react (more tail w) = (o2, w2) /\ pok px w2 /\ R false (settled w1) w2).
Proof.
  intros E. pose proof (listen_total _ _ _ _ E) as Htot.
  assert (o <> OutOfFuel) as Ho by (destruct Htot as [->|[->|[u ->]]]; discriminate).
  set (w0 := set_sock w (set_listening (w_sock w) true)) in *.
  change (listen react w) with (try_ (listen_loop react (S (script_size (w_in w0))) header_init) w0) in E.
  change (listen react (more tail w)) with
    (try_ (listen_loop react (S (script_size (w_in (more tail w0)))) header_init) (more tail w0)).
  unfold try_ in *.
  destruct (listen_loop react (S (script_size (w_in w0))) header_init w0) as [o1 wl] eqn:E1.
  assert (o1 <> OutOfFuel) as Ho1 by (intros ->; injection E as <- <-; congruence).
  assert (S (script_size (w_in w0)) <= S (script_size (w_in (more tail w0))))%nat as Hf.
  { cbn [more set_in w_in]. rewrite script_size_app. lia. }
  destruct (two_listen_loop _ _ header_init w0 Hf _ _ E1 Ho1) as [H|(-> & Hin & o2 & w2 & H2 & Hp & HR)].
  - rewrite H. left. destruct o1; injection E as <- <-; reflexivity.
  - injection E as <- <-. right. split; [reflexivity|]. split; [exact Hin|].
    rewrite H2. destruct o2; eexists _, _; (split; [reflexivity|]); (split; [exact Hp|]); auto.
Qed.
End Two.
