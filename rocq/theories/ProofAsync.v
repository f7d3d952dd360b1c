(** The coroutine machine simulates the blocking functions. *)
From Verif Require Import Bytes Frame World WebSocket AsyncWebSocket SpecFrame SpecSend SpecListen SpecAsync
  ProofFrame ProofStream ProofSend.
From Coq Require Import ZifyBool ZifyNat ZifyN.
Local Open Scope N_scope.
Local Arguments takeN : simpl never.
Local Arguments dropN : simpl never.
Local Arguments lenN : simpl never.
Local Arguments be_enc : simpl never.
Local Arguments be_dec : simpl never.
Local Arguments packHeaderBits : simpl never.
Local Arguments unpackHeaderBits : simpl never.

(** * Scripts without external calls *)
Lemma no_ext_read n s k r s' k' : io_only s -> read_raw n s k = (r, s', k') -> k' = k /\ io_only s'.
Proof.
  intros Hs E. split.
  - eapply (read_raw_inv (fun y => y = k) no_ext any_err); [|exact E|exact Hs|reflexivity]. intros x y [].
  - eapply read_raw_ok; eassumption.
Qed.
Lemma no_ext_exact n s k r s' k' : io_only s -> readExact_raw n s k = (r, s', k') -> k' = k /\ io_only s'.
Proof.
  intros Hs E. split.
  - eapply (readExact_inv (fun y => y = k) no_ext any_err); [|exact E|exact Hs|reflexivity]. intros x y [].
  - eapply readExact_ok; eassumption.
Qed.
Lemma read_raw_sock n s k k2 r s' k' : io_only s -> read_raw n s k = (r, s', k') -> read_raw n s k2 = (r, s', k2).
Proof.
  intros Hs. induction Hs as [|e s He _ IH]; intros E; cbn in *; [congruence|].
  destruct e as [b bs|i|x]; [congruence|congruence|destruct He].
Qed.

Lemma healthy_never q : healthy q -> never_fails q.
Proof.
  intros Hq. eapply Forall_impl; [|exact Hq]. intros [n|[]|] He; cbn in He |- *; tauto.
Qed.
Lemma writeExact_never q : forall d r a q', writeExact_raw d q = (r, a, q') -> never_fails q -> r <> WFailed /\ never_fails q'.
Proof.
  induction q as [|e q IH]; intros d r a q' E Hq; destruct d as [|b d].
  - cbn in E. injection E as <- <- <-. split; [discriminate|constructor].
  - cbn in E. injection E as <- <- <-. split; [discriminate|constructor].
  - cbn in E. injection E as <- <- <-. split; [discriminate|exact Hq].
  - inversion Hq as [|? ? He Hq']; subst. cbn [writeExact_raw] in E. destruct e as [n|[]|].
    + destruct (writeExact_raw (dropN (N.pos n) (b :: d)) q) as [[r1 a1] q1] eqn:E1.
      injection E as <- <- <-. eapply IH; [exact E1|exact Hq'].
    + eapply IH; [exact E|exact Hq'].
    + cbn in He. tauto.
    + cbn in He. tauto.
    + injection E as <- <- <-. split; [discriminate|exact Hq].
Qed.

Section Sim.
Variable react : react_t.
Notation step := (step react).

Inductive star : conf -> conf -> Prop :=
| star_refl c : star c c
| star_step c c1 c2 : step c = (ARun, c1) -> star c1 c2 -> star c c2.

Lemma star_trans a b c : star a b -> star b c -> star a c.
Proof. induction 1; intros; [assumption|]. econstructor; [eassumption|auto]. Qed.
Lemma star_one a b : step a = (ARun, b) -> star a b.
Proof. intros. econstructor; [eassumption|constructor]. Qed.

Variable lf : bool.
Variable li : option nat.
Variable B : Z.
Variable strict : bool.
Hypothesis Hre : async_react strict react.

Definition inv (w : world) : Prop :=
  io_only (w_in w) /\ s_listening (w_sock w) = lf /\ s_listener (w_sock w) = li /\ s_buf (w_sock w) = B /\ env_ok strict w.

(** The machine in [c] does what a blocking function with outcome [o] and final world [w'] does, and then goes on
    with the stack [K]. *)
Definition sim {A} (Q : A -> header -> bytes -> Prop) (K : list cor) (o : outcome A) (w' : world) (c : conf) : Prop :=
  match o with
  | Ret a => inv w' /\ exists h s, Q a h s /\ star c (Conf h s K (er w'))
  | Throw _ => exists e h s c1, star c c1 /\ step c1 = fail e (Conf h s K (er w'))
  | Wait => exists c1, star c c1 /\ step c1 = (AWait, c1) /\ c_world c1 = er w'
  | Ub u => exists c1 c2, star c c1 /\ step c1 = (AUb u, c2) /\ c_world c2 = er w'
  | OutOfFuel => True
  end.

Lemma sim_star {A} (Q : A -> header -> bytes -> Prop) K o w' c c' : star c c' -> sim Q K o w' c' -> sim Q K o w' c.
Proof.
  intros Hs H. destruct o; cbn in *.
  - destruct H as (Hi & h & s & HQ & H). split; [exact Hi|]. exists h, s. split; [exact HQ|]. eapply star_trans; eassumption.
  - destruct H as (e' & h & s & c1 & H & H'). exists e', h, s, c1. split; [eapply star_trans; eassumption|exact H'].
  - destruct H as (c1 & H & H'). exists c1. split; [eapply star_trans; eassumption|exact H'].
  - destruct H as (c1 & c2 & H & H'). exists c1, c2. split; [eapply star_trans; eassumption|exact H'].
  - exact I.
Qed.
Lemma sim_step {A} (Q : A -> header -> bytes -> Prop) K o w' c c' : step c = (ARun, c') -> sim Q K o w' c' -> sim Q K o w' c.
Proof. intros H. apply sim_star. now apply star_one. Qed.

(** The same, and an error leaves the shared header and short message stream as [T] says. *)
Definition simT {A} (T : header -> bytes -> Prop) (Q : A -> header -> bytes -> Prop) (K : list cor) (o : outcome A) (w' : world) (c : conf) : Prop :=
  match o with
  | Throw _ => exists e h s c1, T h s /\ star c c1 /\ step c1 = fail e (Conf h s K (er w'))
  | _ => sim Q K o w' c
  end.
Lemma simT_sim {A} T (Q : A -> header -> bytes -> Prop) K o w' c : simT T Q K o w' c -> sim Q K o w' c.
Proof. destruct o; cbn [simT sim]; try (intros H; exact H). intros (e' & h & s & c1 & _ & H). exists e', h, s, c1. exact H. Qed.
Lemma simT_star {A} T (Q : A -> header -> bytes -> Prop) K o w' c c' : star c c' -> simT T Q K o w' c' -> simT T Q K o w' c.
Proof.
  intros Hs H. destruct o; cbn [simT] in *; try (eapply sim_star; eassumption).
  destruct H as (e' & h & s & c1 & HT & H & H'). exists e', h, s, c1. split; [exact HT|]. split; [eapply star_trans; eassumption|exact H'].
Qed.
Lemma simT_step {A} T (Q : A -> header -> bytes -> Prop) K o w' c c' : step c = (ARun, c') -> simT T Q K o w' c' -> simT T Q K o w' c.
Proof. intros H. apply simT_star. now apply star_one. Qed.

(** Popping frames that do not catch errors. *)
Definition passes (X : cor) : Prop := X <> CoCatch.
Lemma fail_pass X K e h s w : passes X -> fail e (Conf h s (X :: K) w) = fail e (Conf h s K w).
Proof. unfold passes, fail. intros H. destruct X; try reflexivity. congruence. Qed.

(** After [m] with continuation frame [X]. *)
Lemma sim_bind {A C} (P : A -> header -> bytes -> Prop) (Q : C -> header -> bytes -> Prop) X K (m : M A) (f : A -> M C) w o w' c :
  passes X ->
  (forall o1 w1, m w = (o1, w1) -> sim P (X :: K) o1 w1 c) ->
  (forall a h s w1, P a h s -> inv w1 -> forall o' w', f a w1 = (o', w') -> sim Q K o' w' (Conf h s (X :: K) (er w1))) ->
  bind m f w = (o, w') -> sim Q K o w' c.
Proof.
  intros HX Hm Hf E. unfold bind in E. destruct (m w) as [o1 w1] eqn:E1. specialize (Hm _ _ eq_refl).
  destruct o1 as [a|e| |u|].
  - destruct Hm as (Hi & h & s & HP & Hst). eapply sim_star; [exact Hst|]. eapply Hf; eassumption.
  - injection E as <- <-. destruct Hm as (e' & h & s & c1 & H1 & H2). exists e', h, s, c1. split; [exact H1|].
    rewrite H2. now apply fail_pass.
  - injection E as <- <-. exact Hm.
  - injection E as <- <-. exact Hm.
  - injection E as <- <-. exact I.
Qed.

Lemma fail_passes Xs K e h s w : Forall passes Xs -> fail e (Conf h s (Xs ++ K) w) = fail e (Conf h s K w).
Proof. induction 1; [reflexivity|]. cbn [app]. now rewrite fail_pass. Qed.
Lemma sim_binds {A C} (P : A -> header -> bytes -> Prop) (Q : C -> header -> bytes -> Prop) Xs K (m : M A) (f : A -> M C) w o w' c :
  Forall passes Xs ->
  (forall o1 w1, m w = (o1, w1) -> sim P (Xs ++ K) o1 w1 c) ->
  (forall a h s w1, P a h s -> inv w1 -> forall o' w', f a w1 = (o', w') -> sim Q K o' w' (Conf h s (Xs ++ K) (er w1))) ->
  bind m f w = (o, w') -> sim Q K o w' c.
Proof.
  intros HX Hm Hf E. unfold bind in E. destruct (m w) as [o1 w1] eqn:E1. specialize (Hm _ _ eq_refl).
  destruct o1 as [a|e| |u|].
  - destruct Hm as (Hi & h & s & HP & Hst). eapply sim_star; [exact Hst|]. eapply Hf; eassumption.
  - injection E as <- <-. destruct Hm as (e' & h & s & c1 & H1 & H2). exists e', h, s, c1. split; [exact H1|].
    rewrite H2. now apply fail_passes.
  - injection E as <- <-. exact Hm.
  - injection E as <- <-. exact Hm.
  - injection E as <- <-. exact I.
Qed.

(** * Exact reads *)
Section Exact.
Variables (h : header) (s : bytes) (K : list cor) (n : N) (mk : bytes -> cor) (cont : bytes -> world -> conf).
Hypothesis Hmk : forall got w,
  step (Conf h s (mk got :: K) w) =
  match readExactAsyncInline n got w with
  | (INext d, w') => (ARun, cont d w')
  | (IAgain got', w') => (ARun, Conf h s (mk got' :: K) w')
  | (IWait, w') => (AWait, Conf h s (mk got :: K) w')
  | (IFail, w') => fail ExAsyncIO (Conf h s K w')
  end.

Lemma exact_star scr : io_only scr -> forall w m got r s' k', n = lenN got + m ->
  readExact_raw m scr (w_sock w) = (r, s', k') ->
  match r with
  | XAll d => star (Conf h s (mk got :: K) (set_in w scr)) (cont (got ++ d) (set_in w s'))
  | XShort d => exists c1, star (Conf h s (mk got :: K) (set_in w scr)) c1 /\ step c1 = fail ExAsyncIO (Conf h s K (set_in w s'))
  | XPending => exists c1, star (Conf h s (mk got :: K) (set_in w scr)) c1 /\ step c1 = (AWait, c1) /\ c_world c1 = set_in w s'
  end.
Proof.
  intros Hio. induction Hio as [|e scr He Hio IH]; intros w m got r s' k' Hn E; cbn [readExact_raw] in E.
  - destruct (N.eqb_spec m 0) as [->|Hm].
    + injection E as <- <- <-. apply star_one. rewrite Hmk. unfold readExactAsyncInline.
      destruct (N.leb_spec n (lenN got)); [|lia]. now rewrite app_nil_r.
    + injection E as <- <- <-. eexists. split; [constructor|]. rewrite Hmk. unfold readExactAsyncInline.
      destruct (N.leb_spec n (lenN got)); [lia|]. destruct w. split; reflexivity.
  - destruct (N.eqb_spec m 0) as [->|Hm].
    + injection E as <- <- <-. apply star_one. rewrite Hmk. unfold readExactAsyncInline.
      destruct (N.leb_spec n (lenN got)); [|lia]. now rewrite app_nil_r.
    + assert (forall w0, readExactAsyncInline n got w0 =
         match read_raw m (w_in w0) (w_sock w0) with
         | (r, s', k') =>
         let w' := set_sock (set_in w0 s') k' in
         match r with
         | RGot d => (IAgain (got ++ d), w')
         | RErr IoRetry => (IAgain got, w')
         | RErr _ => (IFail, w')
         | RPending => (IWait, w')
         end end) as Hx.
      { intros w0. unfold readExactAsyncInline. destruct (N.leb_spec n (lenN got)); [lia|].
        replace (n - lenN got) with m by lia. reflexivity. }
      pose proof (Hmk got (set_in w (e :: scr))) as Hst. rewrite Hx in Hst.
      destruct e as [b bs|[]|x].
      * cbn [w_in w_sock set_in read_raw] in Hst.
        destruct (N.leb_spec m (lenN (b :: bs))).
        -- assert (r = XAll (takeN m (b :: bs)) /\ s' = unread (dropN m (b :: bs)) scr) as [-> ->] by (split; congruence).
           cbn [set_sock] in Hst. 
           econstructor; [exact Hst|]. apply star_one. rewrite Hmk. unfold readExactAsyncInline.
           replace (n <=? lenN (got ++ takeN m (b :: bs))) with true; [destruct w; reflexivity|].
           rewrite lenN_app, lenN_takeN. lia.
        -- rewrite takeN_all, dropN_all in Hst by lia. cbn [unread] in Hst.
           destruct (readExact_raw (m - lenN (b :: bs)) scr (w_sock w)) as [[r0 s0] k0] eqn:E0.
           specialize (IH w (m - lenN (b :: bs)) (got ++ b :: bs) r0 s0 k0).
           rewrite lenN_app in IH. specialize (IH ltac:(lia) E0).
           assert (star (Conf h s (mk got :: K) (set_in w (RData b bs :: scr))) (Conf h s (mk (got ++ b :: bs) :: K) (set_in w scr))) as Hs1.
           { apply star_one. rewrite Hst. destruct w; reflexivity. }
           destruct r0 as [d|d|].
           ++ assert (r = XAll ((b :: bs) ++ d) /\ s' = s0) as [-> ->] by (split; congruence).
              eapply star_trans; [exact Hs1|]. rewrite app_assoc. exact IH.
           ++ assert (r = XShort ((b :: bs) ++ d) /\ s' = s0) as [-> ->] by (split; congruence).
              destruct IH as (c1 & I1 & I2). exists c1. split; [eapply star_trans; eassumption|exact I2].
           ++ assert (r = XPending /\ s' = s0) as [-> ->] by (split; congruence).
              destruct IH as (c1 & I1 & I2). exists c1. split; [eapply star_trans; eassumption|exact I2].
      * cbn [w_in w_sock set_in read_raw] in Hst. specialize (IH w m got r s' k' Hn E).
        assert (star (Conf h s (mk got :: K) (set_in w (RIo IoRetry :: scr))) (Conf h s (mk got :: K) (set_in w scr))) as Hs1.
        { apply star_one. rewrite Hst. destruct w; reflexivity. }
        destruct r.
        -- eapply star_trans; eassumption.
        -- destruct IH as (c1 & I1 & I2). exists c1. split; [eapply star_trans; eassumption|exact I2].
        -- destruct IH as (c1 & I1 & I2). exists c1. split; [eapply star_trans; eassumption|exact I2].
      * injection E as <- <- <-. eexists. split; [constructor|]. rewrite Hst. destruct w; reflexivity.
      * injection E as <- <- <-. eexists. split; [constructor|]. rewrite Hst. destruct w; reflexivity.
      * destruct He.
Qed.

Lemma er_in w scr : er (set_in w scr) = set_in (er w) scr.
Proof. reflexivity. Qed.

(** A blocking exact read whose result of the wrong size is an exception, then [f]. *)
Lemma exact_sim {A} (Q : A -> header -> bytes -> Prop) e (f : bytes -> M A) w o w' :
  inv w ->
  (forall d w1, inv w1 -> forall o' w', f d w1 = (o', w') -> sim Q K o' w' (cont d (er w1))) ->
  (bb <- readExactSizeDataSimple n ;; if negb (lenN bb =? n) then throw e else f bb)%m w = (o, w') ->
  sim Q K o w' (Conf h s (mk [] :: K) (er w)).
Proof.
  intros Hi Hf E. unfold bind in E. destruct (readExactSizeDataSimple n w) as [o1 w1] eqn:E1.
  unfold readExactSizeDataSimple in E1. destruct (readExact_raw n (w_in w) (w_sock w)) as [[r s'] k'] eqn:Er.
  pose proof Hi as (Hio & Hl & Hls & Hb & He).
  destruct (no_ext_exact _ _ _ _ _ _ Hio Er) as [-> Hio'].
  assert (set_sock (set_in w s') (w_sock w) = set_in w s') as Hw by (destruct w; reflexivity).
  assert (readExact_raw n (w_in w) (w_sock (er w)) = (r, s', w_sock (er w))) as Er2.
  { clear -Hio Er. revert n r s' Er. generalize (w_in w) Hio. clear. intros scr Hio.
    induction Hio as [|ev scr He _ IH]; intros n r s' E; cbn [readExact_raw] in *;
      (destruct (n =? 0); [congruence|]); [congruence|].
    destruct ev as [b bs|[]|x]; [|now apply IH|congruence|congruence|destruct He].
    destruct (n <=? lenN (b :: bs)); [congruence|].
    destruct (readExact_raw (n - lenN (b :: bs)) scr (w_sock w)) as [[r0 s0] k0] eqn:E0.
    assert (k0 = w_sock w) as -> by (destruct r0; congruence).
    rewrite (IH _ _ _ E0). destruct r0; congruence. }
  pose proof (exact_star (w_in w) Hio (er w) n [] r s' _ ltac:(rewrite lenN_nil; lia) Er2) as HS.
  assert (set_in (er w) (w_in w) = er w) as Hw2 by (destruct w; reflexivity). rewrite Hw2 in HS.
  pose proof (readExact_bytes _ _ _ _ _ _ Er) as Hbs.
  assert (inv (set_in w s')) as Hi' by (split; [exact Hio'|split; [exact Hl|split; [exact Hls|split; [exact Hb|exact He]]]]).
  destruct r as [d|d|].
  - assert (o1 = Ret d /\ w1 = set_in w s') as [-> ->] by (split; congruence). destruct Hbs as (_ & Hd & _).
    destruct (N.eqb_spec (lenN d) n); [|lia]. cbn [negb] in E.
    eapply sim_star; [exact HS|]. cbn [app]. rewrite <- er_in. eapply Hf; eassumption.
  - assert (o1 = Ret d /\ w1 = set_in w s') as [-> ->] by (split; congruence). destruct Hbs as (_ & Hd).
    destruct (N.eqb_spec (lenN d) n); [lia|]. cbn [negb] in E. injection E as <- <-.
    destruct HS as (c1 & H1 & H2). exists ExAsyncIO, h, s, c1. split; [exact H1|exact H2].
  - assert (o1 = Wait /\ w1 = set_in w s') as [-> ->] by (split; congruence). injection E as <- <-.
    destruct HS as (c1 & H1 & H2 & H3). exists c1. auto.
Qed.
End Exact.

(** * Writes *)
Section Write.
Variables (h : header) (s : bytes) (K : list cor) (mk : bytes -> cor) (cont : world -> conf).
Hypothesis Hmk : forall d w,
  step (Conf h s (mk d :: K) w) =
  match writeExactAsyncInline d w with
  | (INext _, w') => (ARun, cont w')
  | (IAgain d', w') => (ARun, Conf h s (mk d' :: K) w')
  | (IWait, w') => (AWait, Conf h s (mk d :: K) w')
  | (IFail, w') => fail ExAsyncIO (Conf h s K w')
  end.

Lemma write_star q : forall d w r a q', writeExact_raw d q = (r, a, q') ->
  match r with
  | WDone => star (Conf h s (mk d :: K) (set_wr w (w_out w) q)) (cont (set_wr w (w_out w ++ a) q'))
  | WFailed => exists c1, star (Conf h s (mk d :: K) (set_wr w (w_out w) q)) c1 /\ step c1 = fail ExAsyncIO (Conf h s K (set_wr w (w_out w ++ a) q'))
  | WPending => exists c1, star (Conf h s (mk d :: K) (set_wr w (w_out w) q)) c1 /\ step c1 = (AWait, c1) /\ c_world c1 = set_wr w (w_out w ++ a) q'
  end.
Proof.
  assert (Hnil : forall w q, star (Conf h s (mk [] :: K) (set_wr w (w_out w) q)) (cont (set_wr w (w_out w ++ []) q))).
  { intros w q0. apply star_one. rewrite Hmk. cbn. now rewrite app_nil_r. }
  induction q as [|ev q IH]; intros d w r a q' E.
  - destruct d as [|b d]; cbn [writeExact_raw] in E; injection E as <- <- <-; [apply Hnil|].
    econstructor; [rewrite Hmk; cbn; reflexivity|]. apply star_one. rewrite Hmk. cbn. reflexivity.
  - destruct d as [|b d]; cbn [writeExact_raw] in E; [injection E as <- <- <-; apply Hnil|].
    destruct ev as [n|[]|].
    + destruct (writeExact_raw (dropN (N.pos n) (b :: d)) q) as [[r0 a0] q0] eqn:E0.
      assert (r = r0 /\ a = takeN (N.pos n) (b :: d) ++ a0 /\ q' = q0) as (-> & -> & ->) by (split; [congruence|split; congruence]).
      specialize (IH _ (set_wr w (w_out w ++ takeN (N.pos n) (b :: d)) q) _ _ _ E0). cbn [w_out set_wr] in IH.
      assert (star (Conf h s (mk (b :: d) :: K) (set_wr w (w_out w) (WAccept n :: q)))
                   (Conf h s (mk (dropN (N.pos n) (b :: d)) :: K) (set_wr w (w_out w ++ takeN (N.pos n) (b :: d)) q))) as Hs1.
      { apply star_one. rewrite Hmk. reflexivity. }
      change (set_wr (set_wr w (w_out w ++ takeN (N.pos n) (b :: d)) q)) with (set_wr w) in IH. rewrite app_assoc.
      destruct r0.
      * eapply star_trans; [exact Hs1|exact IH].
      * destruct IH as (c1 & I1 & I2). exists c1. split; [eapply star_trans; eassumption|exact I2].
      * destruct IH as (c1 & I1 & I2). exists c1. split; [eapply star_trans; eassumption|exact I2].
    + specialize (IH _ w _ _ _ E).
      assert (star (Conf h s (mk (b :: d) :: K) (set_wr w (w_out w) (WIo IoRetry :: q)))
                   (Conf h s (mk (b :: d) :: K) (set_wr w (w_out w) q))) as Hs1.
      { apply star_one. rewrite Hmk. reflexivity. }
      destruct r.
      * eapply star_trans; [exact Hs1|exact IH].
      * destruct IH as (c1 & I1 & I2). exists c1. split; [eapply star_trans; eassumption|exact I2].
      * destruct IH as (c1 & I1 & I2). exists c1. split; [eapply star_trans; eassumption|exact I2].
    + injection E as <- <- <-. eexists. split; [constructor|]. rewrite Hmk. cbn. now rewrite app_nil_r.
    + injection E as <- <- <-. eexists. split; [constructor|]. rewrite Hmk. cbn. now rewrite app_nil_r.
    + injection E as <- <- <-. eexists. split; [constructor|]. rewrite Hmk. cbn. rewrite app_nil_r. split; reflexivity.
Qed.

Lemma write_sim {A} (T : header -> bytes -> Prop) (Q : A -> header -> bytes -> Prop) e d n (f : M A) w o w' :
  T h s -> inv w -> lenN d = n ->
  (forall w1, inv w1 -> forall o' w', f w1 = (o', w') -> simT T Q K o' w' (cont (er w1))) ->
  (res <- writeExactSizeDataSimple d ;; if negb (res =? n) then throw e else f)%m w = (o, w') ->
  simT T Q K o w' (Conf h s (mk d :: K) (er w)).
Proof.
  intros HT Hi Hn Hf E. unfold bind in E. unfold writeExactSizeDataSimple in E.
  destruct (writeExact_raw d (w_wr w)) as [[r a] q'] eqn:Ew.
  pose proof (write_star (w_wr w) d (er w) r a q' Ew) as HS.
  replace (set_wr (er w) (w_out (er w)) (w_wr w)) with (er w) in HS by (destruct w; reflexivity).
  destruct (writeExact_prefix _ _ _ _ _ Ew) as (_ & Hdone & Hfail).
  pose proof Hi as (Hio & Hl & Hls & Hb & He).
  assert (inv (set_wr w (w_out w ++ a) q')) as Hi'.
  { split; [exact Hio|]. split; [exact Hl|]. split; [exact Hls|]. split; [exact Hb|]. intros Hs. specialize (He Hs).
    now apply (writeExact_never _ _ _ _ _ Ew). }
  change (set_wr (er w) (w_out (er w) ++ a) q') with (er (set_wr w (w_out w ++ a) q')) in HS.
  destruct r.
  - specialize (Hdone eq_refl). rewrite Hdone in *. cbn [negb] in E.
    destruct (N.eqb_spec (lenN d) n); [|lia]. cbn [negb] in E.
    eapply simT_star; [exact HS|]. eapply Hf; eassumption.
  - specialize (Hfail eq_refl). destruct (N.eqb_spec (lenN a) n); [lia|]. cbn [negb] in E. injection E as <- <-.
    destruct HS as (c1 & H1 & H2). exists ExAsyncIO, h, s, c1. auto.
  - injection E as <- <-. destruct HS as (c1 & H1 & H2). exists c1. auto.
Qed.
End Write.

(** * ReadFrameCoroutine *)
Lemma unpack_ext b h1 h2 : h_len h1 = h_len h2 -> h_mask h1 = h_mask h2 -> unpackHeaderBits b h1 = unpackHeaderBits b h2.
Proof. unfold unpackHeaderBits. now intros -> ->. Qed.
Lemma unpack_len1 b h0 h n : unpackHeaderBits b h0 = (h, n) -> n < 128.
Proof.
  unfold unpackHeaderBits. intros E. assert (n = N.land b 127) as -> by congruence.
  change 127 with (N.ones 7). rewrite N.land_ones. apply N.mod_lt. lia.
Qed.
(** What readFrameHeader does after the first two bytes. *)
Definition rfh_mask (h : header) : M header := (
  if h_hasMask h then
    mk <- readExactSizeDataSimple 4 ;;
    if negb (lenN mk =? 4) then throw ExMaskRead
    else ret (set_mask h (mask_of mk))
  else ret h)%m.
Definition rfh_rest (h0 : header) (bb : bytes) : M header := (
  let (h, messageLen1) := unpackHeaderBits (be_dec bb) h0 in
  if messageLen1 <? 126 then rfh_mask (set_len h (Z.of_N messageLen1))
  else if messageLen1 =? 126 then
    l2 <- readExactSizeDataSimple 2 ;;
    if negb (lenN l2 =? 2) then throw ExLen2Read else rfh_mask (set_len h (Z.of_N (be_dec l2)))
  else if messageLen1 =? 127 then
    l3 <- readExactSizeDataSimple 8 ;;
    if negb (lenN l3 =? 8) then throw ExLen3Read
    else rfh_mask (set_len h (to_i64 (N.lor (N.shiftl (be_dec (takeN 4 l3)) 32) (be_dec (dropN 4 l3)))))
  else rfh_mask h)%m.
Lemma rfh_unfold h0 w : readFrameHeader h0 w =
  (bb <- readExactSizeDataSimple 2 ;; if negb (lenN bb =? 2) then throw ExHeaderRead else rfh_rest h0 bb)%m w.
Proof.
  unfold readFrameHeader, bind. destruct (readExactSizeDataSimple 2 w) as [[bb| | | |] w1]; try reflexivity.
  destruct (negb _); [reflexivity|]. unfold rfh_rest. destruct (unpackHeaderBits (be_dec bb) h0) as [h len1].
  destruct (len1 <? 126); [reflexivity|]. destruct (len1 =? 126).
  - unfold bind. destruct (readExactSizeDataSimple 2 w1) as [[l2| | | |] w2]; try reflexivity. destruct (negb _); reflexivity.
  - destruct (len1 =? 127); [|reflexivity].
    unfold bind. destruct (readExactSizeDataSimple 8 w1) as [[l3| | | |] w2]; try reflexivity. destruct (negb _); reflexivity.
Qed.
Lemma readFrameHeader_sim h0 hdr short K w o w' :
  inv w -> h_len hdr = h_len h0 -> h_mask hdr = h_mask h0 ->
  readFrameHeader h0 w = (o, w') ->
  sim (fun h hh ss => hh = h /\ ss = short) K o w' (Conf hdr short (CoReadFrame (RfAct []) :: K) (er w)).
Proof.
  intros Hi Hl Hm E. rewrite rfh_unfold in E.
  eapply (exact_sim hdr short K 2 (fun g => CoReadFrame (RfAct g)) (fun d w => Conf hdr short (CoReadFrame (RfOnBb d) :: K) w));
    [| exact Hi | | exact E].
  { intros got w0. cbn. destruct (readExactAsyncInline 2 got w0) as [[] ?]; reflexivity. }
  clear E o w'. intros bb w1 Hi1 o w' E. unfold rfh_rest in E.
  assert (unpackHeaderBits (be_dec bb) hdr = unpackHeaderBits (be_dec bb) h0) as Hu by now apply unpack_ext.
  destruct (unpackHeaderBits (be_dec bb) h0) as [h len1] eqn:Eu.
  assert (forall h1 o w' w2, inv w2 -> rfh_mask h1 w2 = (o, w') ->
    forall c2, (c2 = if h_hasMask h1 then Conf h1 short (CoReadFrame (RfReadMask []) :: K) (er w2) else Conf h1 short K (er w2)) ->
    sim (fun h hh ss => hh = h /\ ss = short) K o w' c2) as Htail.
  { clear. intros h1 o w' w2 Hi2 E c2 ->. unfold rfh_mask in E. destruct (h_hasMask h1).
    - eapply (exact_sim h1 short K 4 (fun g => CoReadFrame (RfReadMask g)) (fun d w => Conf (set_mask h1 (mask_of d)) short K w));
        [| exact Hi2 | | exact E].
      { intros got w0. cbn. destruct (readExactAsyncInline 4 got w0) as [[] ?]; reflexivity. }
      intros d w3 Hi3 o' w'' E'. injection E' as <- <-. split; [exact Hi3|]. exists (set_mask h1 (mask_of d)), short.
      split; [auto|constructor].
    - injection E as <- <-. split; [exact Hi2|]. exists h1, short. split; [auto|constructor]. }
  destruct (N.ltb_spec len1 126) as [H1|H1].
  { eapply sim_step.
    { cbn [AsyncWebSocket.step step_readFrame]. rewrite Hu. destruct (N.ltb_spec len1 126); [|lia]. reflexivity. }
    eapply sim_step; [|eapply Htail; [exact Hi1|exact E|reflexivity]].
    cbn [AsyncWebSocket.step step_readFrame]. change (1 =? 2) with false. change (1 =? 3) with false. cbv iota.
    destruct (h_hasMask _); reflexivity. }
  destruct (N.eqb_spec len1 126) as [H2|H2].
  { eapply sim_step.
    { cbn [AsyncWebSocket.step step_readFrame]. rewrite Hu. destruct (N.ltb_spec len1 126); [lia|].
      destruct (N.eqb_spec len1 126); [|lia]. reflexivity. }
    eapply (exact_sim h short K 2 (fun g => CoReadFrame (RfReadLen 2 g)) (fun d w => Conf h short (CoReadFrame (RfOnLen 2 d) :: K) w));
      [| exact Hi1 | | exact E].
    { intros got w0. cbn. destruct (readExactAsyncInline 2 got w0) as [[] ?]; reflexivity. }
    intros d w2 Hi2 o' w'' E2.
    eapply sim_step; [|eapply Htail; [exact Hi2|exact E2|reflexivity]].
    cbn [AsyncWebSocket.step step_readFrame]. change (2 =? 2) with true. cbv iota. destruct (h_hasMask _); reflexivity. }
  destruct (N.eqb_spec len1 127) as [H3|H3].
  { eapply sim_step.
    { cbn [AsyncWebSocket.step step_readFrame]. rewrite Hu. destruct (N.ltb_spec len1 126); [lia|].
      destruct (N.eqb_spec len1 126); [lia|]. destruct (N.eqb_spec len1 127); [|lia]. reflexivity. }
    eapply (exact_sim h short K 8 (fun g => CoReadFrame (RfReadLen 3 g)) (fun d w => Conf h short (CoReadFrame (RfOnLen 3 d) :: K) w));
      [| exact Hi1 | | exact E].
    { intros got w0. cbn. change (3 =? 2) with false. cbv iota. destruct (readExactAsyncInline 8 got w0) as [[] ?]; reflexivity. }
    intros d w2 Hi2 o' w'' E2.
    eapply sim_step; [|eapply Htail; [exact Hi2|exact E2|reflexivity]].
    cbn [AsyncWebSocket.step step_readFrame]. change (3 =? 2) with false. change (3 =? 3) with true. cbv iota. destruct (h_hasMask _); reflexivity. }
  exfalso. apply unpack_len1 in Eu. lia.
Qed.

(** * WriteFrameCoroutine and SendFrameCoroutine *)
Definition same_cells (hdr : header) (short : bytes) {A} (_ : A) (hh : header) (ss : bytes) : Prop := hh = hdr /\ ss = short.

Definition both (hdr : header) (short : bytes) (hh : header) (ss : bytes) : Prop := hh = hdr /\ ss = short.

Lemma writeFrameHeader_sim h hdr short K w o w' :
  inv w -> writeFrameHeader h w = (o, w') ->
  simT (both hdr short) (same_cells hdr short) K o w' (Conf hdr short (CoWrite h (WfAct (be_enc 2 (fst (packHeaderBits h)))) :: K) (er w)).
Proof.
  intros Hi E. unfold writeFrameHeader in E. destruct (packHeaderBits h) as [bb sc] eqn:Ep. cbn [fst].
  eapply (write_sim hdr short K (fun d => CoWrite h (WfAct d)) (fun w => Conf hdr short (CoWrite h WfOnBb :: K) w));
    [| now split | exact Hi | | | exact E].
  { intros d w0. cbn. destruct (writeExactAsyncInline d w0) as [[] ?]; reflexivity. }
  { apply lenN_be_enc. }
  clear E Hi w o w'. intros w Hi o w' E.
  assert (forall o w' w2, inv w2 ->
    (if h_hasMask h then
       res <- writeExactSizeDataSimple (mask_bytes (h_mask h)) ;;
       if negb (res =? 4) then throw ExMaskWrite else ret tt
     else ret tt)%m w2 = (o, w') ->
    simT (both hdr short) (same_cells hdr short) K o w' (Conf hdr short (CoWrite h WfOnLen :: K) (er w2))) as Htail.
  { clear -strict. intros o w' w2 Hi E. destruct (h_hasMask h) eqn:Hm.
    - eapply simT_step; [cbn; rewrite Hm; reflexivity|].
      eapply (write_sim hdr short K (fun d => CoWrite h (WfWriteMask d)) (fun w => Conf hdr short K w)); [| now split | exact Hi | | | exact E].
      { intros d w0. cbn. destruct (writeExactAsyncInline d w0) as [[] ?]; reflexivity. }
      { reflexivity. }
      intros w1 Hi1 o' w'' E'. injection E' as <- <-. split; [exact Hi1|]. exists hdr, short. split; [now split|constructor].
    - eapply simT_step; [cbn; rewrite Hm; reflexivity|]. injection E as <- <-. split; [exact Hi|]. exists hdr, short.
      split; [now split|constructor]. }
  destruct (N.eqb_spec sc 2) as [H2|H2].
  { eapply simT_step; [cbn; rewrite Ep; cbn [snd]; destruct (N.eqb_spec sc 2); [reflexivity|lia]|].
    unfold bind at 1 in E. rewrite write_then' in E by apply lenN_be_enc.
    match type of E with (let (o, w') := _ in match o with Ret a => ?k w' | _ => _ end) = _ =>
      change ((write_or (be_enc 2 (i64_to_u16 (h_len h))) ExLen2Write ;;; k)%m w = (o, w')) in E end.
    rewrite <- (write_then _ 2) in E by apply lenN_be_enc.
    eapply (write_sim hdr short K (fun d => CoWrite h (WfWriteLen d)) (fun w => Conf hdr short (CoWrite h WfOnLen :: K) w));
      [| now split | exact Hi | | | exact E].
    { intros d w0. cbn. destruct (writeExactAsyncInline d w0) as [[] ?]; reflexivity. }
    { apply lenN_be_enc. }
    intros w1 Hi1 o' w'' E'. eapply Htail; eassumption. }
  destruct (N.eqb_spec sc 3) as [H3|H3].
  { eapply simT_step; [cbn; rewrite Ep; cbn [snd]; destruct (N.eqb_spec sc 2); [lia|]; destruct (N.eqb_spec sc 3); [reflexivity|lia]|].
    assert (lenN (be_enc 4 (i64_to_u32 (Z.shiftr (h_len h) 32)) ++ be_enc 4 (i64_to_u32 (Z.land (h_len h) 4294967295))) = 8) as H8
      by (rewrite lenN_app, !lenN_be_enc; reflexivity).
    unfold bind at 1 in E. rewrite write_then' in E by exact H8.
    match type of E with (let (o, w') := write_or ?d ?e w in match o with Ret a => ?k w' | _ => _ end) = _ =>
      change ((write_or d e ;;; k)%m w = (o, w')) in E end.
    rewrite <- (write_then _ 8) in E by exact H8.
    eapply (write_sim hdr short K (fun d => CoWrite h (WfWriteLen d)) (fun w => Conf hdr short (CoWrite h WfOnLen :: K) w));
      [| now split | exact Hi | | | exact E].
    { intros d w0. cbn. destruct (writeExactAsyncInline d w0) as [[] ?]; reflexivity. }
    { exact H8. }
    intros w1 Hi1 o' w'' E'. eapply Htail; eassumption. }
  eapply simT_step; [cbn; rewrite Ep; cbn [snd]; destruct (N.eqb_spec sc 2); [lia|]; destruct (N.eqb_spec sc 3); [lia|reflexivity]|].
  eapply Htail; [exact Hi|exact E].
Qed.

Definition checked (fin : bool) (opcode : N) (m : option bytes) : M unit :=
  (ok <- sendOneFrame fin opcode m ;; if (ok : bool) then ret tt else throw ExSend)%m.

Lemma sfh_async h fin opcode n w o w' :
  sendFrameHeader h fin opcode n w = (o, w') ->
  exists h' w1, sendFrameHeaderAsync h fin opcode n (er w) =
     (h', CoWrite h' (WfAct (be_enc 2 (fst (packHeaderBits h')))), er w1) /\ (inv w -> inv w1) /\
     (writeFrameHeader h' ;;; ret h')%m w1 = (o, w').
Proof.
  intros E. unfold sendFrameHeader, bind, get, randomBytes, ret in E. unfold sendFrameHeaderAsync.
  change (s_mask (w_sock (er w))) with (s_mask (w_sock w)). cbn [h_hasMask h_mask] in *.
  destruct (s_mask (w_sock w)).
  - exists (set_mask (Header fin false false false opcode true n (h_mask h)) (mask_of (map (w_rnd w) (seq (w_rpos w) 4)))).
    exists (set_rpos w (w_rpos w + 4)).
    split; [reflexivity|]. split; [|exact E]. intros (A1 & A2 & A3 & A4 & A5). repeat split; assumption.
  - exists (Header fin false false false opcode false n (h_mask h)). exists w.
    split; [reflexivity|]. split; [|exact E]. auto.
Qed.

Lemma checked_sim fin opcode m hdr short K w o w' :
  inv w -> checked fin opcode m w = (o, w') ->
  simT (both hdr short) (same_cells hdr short) K o w' (Conf hdr short (CoSend fin opcode m header_init SfAct :: K) (er w)).
Proof.
  intros Hi E. unfold checked, sendOneFrame in E.
  assert (forall d h w1 o w', inv w1 ->
    (ok <- (res <- writeExactSizeDataSimple d ;; ret (res =? lenN d)) ;; if (ok : bool) then ret tt else throw ExSend)%m w1 = (o, w') ->
    simT (both hdr short) (same_cells hdr short) K o w' (Conf hdr short (CoSend fin opcode m h (SfWrite d) :: K) (er w1))) as Hwr.
  { clear -strict. intros d h w1 o w' Hi E.
    assert ((res <- writeExactSizeDataSimple d ;; if negb (res =? lenN d) then throw ExSend else ret tt)%m w1 = (o, w')) as E'.
    { rewrite <- E. unfold bind, ret. destruct (writeExactSizeDataSimple d w1) as [[n| | | |] w2]; try reflexivity. destruct (n =? lenN d); reflexivity. }
    eapply (write_sim hdr short K (fun d => CoSend fin opcode m h (SfWrite d)) (fun w => Conf hdr short K w)); [| now split | exact Hi | | | exact E'].
    { intros d0 w0. cbn. destruct (writeExactAsyncInline d0 w0) as [[] ?]; reflexivity. }
    { reflexivity. }
    intros w2 Hi2 o' w'' E2. injection E2 as <- <-. split; [exact Hi2|]. exists hdr, short. split; [now split|constructor]. }
  assert (forall n w1 h', inv w1 -> forall o w', (writeFrameHeader h' ;;; ret h')%m w1 = (o, w') ->
     forall pc, simT (both hdr short) (fun a hh ss => a = h' /\ hh = hdr /\ ss = short) (CoSend fin opcode n h' pc :: K) o w'
       (Conf hdr short (CoWrite h' (WfAct (be_enc 2 (fst (packHeaderBits h')))) :: CoSend fin opcode n h' pc :: K) (er w1))) as Hhd.
  { clear -strict. intros n w1 h' Hi o w' E pc. unfold bind in E. destruct (writeFrameHeader h' w1) as [o1 w2] eqn:E1.
    pose proof (writeFrameHeader_sim h' hdr short (CoSend fin opcode n h' pc :: K) w1 o1 w2 Hi E1) as HS.
    destruct o1 as [[]|e| |u|]; injection E as <- <-; try exact HS.
    destruct HS as (Hi2 & h & s & (-> & ->) & HS). split; [exact Hi2|]. exists hdr, short. auto. }
  assert (forall o1 w1, sendFrameHeader header_init fin opcode 0 w = (o1, w1) ->
      (match m with Some (_ :: _) => False | _ => True end) ->
      simT (both hdr short) (fun _ hh ss => hh = hdr /\ ss = short) K (match o1 with Ret _ => Ret tt | Throw e => Throw e | Wait => Wait | Ub u => Ub u | OutOfFuel => OutOfFuel end) w1
       (Conf hdr short (CoSend fin opcode m header_init SfAct :: K) (er w))) as H0.
  { intros o1 w1 E1 Hm. destruct (sfh_async _ _ _ _ _ _ _ E1) as (h' & w2 & Ea & Hi2 & E2). specialize (Hi2 Hi).
    eapply simT_step; [cbn [AsyncWebSocket.step step_send]; destruct m as [[|b bs]|]; [|destruct Hm|]; rewrite Ea; reflexivity|].
    pose proof (Hhd m w2 h' Hi2 _ _ E2 SfFinish) as HS. destruct o1; try exact HS.
    - destruct HS as (Hi3 & h & s & (_ & -> & ->) & HS). eapply simT_star; [exact HS|].
      eapply simT_step; [reflexivity|]. split; [exact Hi3|]. exists hdr, short. split; [now split|constructor]. }
  destruct m as [[|b bs]|].
  - unfold bind in E. destruct (sendFrameHeader header_init fin opcode 0 w) as [o1 w1] eqn:E1.
    specialize (H0 _ _ eq_refl I). destruct o1; injection E as <- <-; exact H0.
  - unfold bind at 1 2 in E. destruct (sendFrameHeader header_init fin opcode (Z.of_N (lenN (b :: bs))) w) as [o1 w1] eqn:E1.
    destruct (sfh_async _ _ _ _ _ _ _ E1) as (h' & w2 & Ea & Hi2 & E2). specialize (Hi2 Hi).
    eapply simT_step; [cbn [AsyncWebSocket.step step_send]; rewrite Ea; reflexivity|].
    pose proof (Hhd (Some (b :: bs)) w2 h' Hi2 _ _ E2 SfPrepare) as HS. destruct o1 as [h1|e| |u|].
    + destruct HS as (Hi3 & h & s & (-> & -> & ->) & HS). eapply simT_star; [exact HS|].
      destruct (h_hasMask h') eqn:Hm.
      * destruct (N.leb_spec (2 ^ 31) (lenN (b :: bs))).
        -- injection E as <- <-. eexists. eexists. split; [constructor|].
           split; [cbn [AsyncWebSocket.step step_send]; rewrite Hm; destruct (N.leb_spec (2 ^ 31) (lenN (b :: bs))); [reflexivity|lia]|reflexivity].
        -- eapply simT_step; [cbn [AsyncWebSocket.step step_send]; rewrite Hm; destruct (N.leb_spec (2 ^ 31) (lenN (b :: bs))); [lia|reflexivity]|].
           assert (lenN (xor_from (h_mask h') 0 (b :: bs)) = lenN (b :: bs)) as Hx by apply lenN_xor_from.
           rewrite <- Hx in E. eapply Hwr; [exact Hi3|exact E].
      * eapply simT_step; [cbn [AsyncWebSocket.step step_send]; rewrite Hm; reflexivity|]. eapply Hwr; [exact Hi3|exact E].
    + injection E as <- <-. exact HS.
    + injection E as <- <-. exact HS.
    + injection E as <- <-. exact HS.
    + injection E as <- <-. exact I.
  - unfold bind in E. destruct (sendFrameHeader header_init fin opcode 0 w) as [o1 w1] eqn:E1.
    specialize (H0 _ _ eq_refl I). destruct o1; injection E as <- <-; exact H0.
Qed.

(** * Sends cannot fail if no write does *)
Definition hn {A} (P : A -> Prop) (m : M A) : Prop := forall w o w', never_fails (w_wr w) -> m w = (o, w') ->
  never_fails (w_wr w') /\ match o with Ret a => P a | Throw _ => False | _ => True end.
Lemma hn_bind {A C} (P : A -> Prop) (R : C -> Prop) m f : hn P m -> (forall a, P a -> hn R (f a)) -> hn R (bind m f).
Proof.
  intros Hm Hf w o w' Hw E. unfold bind in E. destruct (m w) as [o1 w1] eqn:E1. destruct (Hm _ _ _ Hw E1) as [Hw1 Ho].
  destruct o1; try (injection E as <- <-; auto). eapply Hf; eassumption.
Qed.
Lemma hn_ret {A} (P : A -> Prop) a : P a -> hn P (ret a).
Proof. intros Ha w o w' Hw E. injection E as <- <-. auto. Qed.
Lemma hn_undef {A} (P : A -> Prop) u : hn P (undef u).
Proof. intros w o w' Hw E. injection E as <- <-. auto. Qed.
Lemma hn_write d : hn (fun n => n = lenN d) (writeExactSizeDataSimple d).
Proof.
  intros w o w' Hw E. unfold writeExactSizeDataSimple in E. destruct (writeExact_raw d (w_wr w)) as [[r a] q] eqn:Ew.
  destruct (writeExact_prefix _ _ _ _ _ Ew) as (_ & Hd & _). destruct (writeExact_never _ _ _ _ _ Ew Hw) as (Hr & Hq).
  destruct r; [|destruct (Hr eq_refl)|]; injection E as <- <-; (split; [exact Hq|]); [now rewrite (Hd eq_refl)|exact I].
Qed.
Lemma hn_wr_then d n e : lenN d = n -> hn (fun _ : unit => True) (res <- writeExactSizeDataSimple d ;; if negb (res =? n) then throw e else ret tt)%m.
Proof.
  intros Hn. eapply hn_bind; [apply hn_write|]. intros a ->. rewrite Hn, N.eqb_refl. now apply hn_ret.
Qed.
Lemma hn_wfh h : hn (fun _ => True) (writeFrameHeader h).
Proof.
  unfold writeFrameHeader. destruct (packHeaderBits h) as [bb sc].
  eapply hn_bind; [apply hn_write|]. intros a ->. rewrite lenN_be_enc. change (negb (N.of_nat 2 =? 2)) with false. cbv iota.
  eapply hn_bind with (P := fun _ => True).
  - destruct (sc =? 2); [apply hn_wr_then; apply lenN_be_enc|]. destruct (sc =? 3); [|now apply hn_ret].
    apply hn_wr_then. rewrite lenN_app, !lenN_be_enc. reflexivity.
  - intros _ _. destruct (h_hasMask h); [apply hn_wr_then; reflexivity|now apply hn_ret].
Qed.
Lemma hn_get : hn (fun _ => True) get.
Proof. intros w o w' Hw E. injection E as <- <-. auto. Qed.
Lemma hn_random n : hn (fun _ => True) (randomBytes n).
Proof. intros w o w' Hw E. injection E as <- <-. auto. Qed.
Lemma hn_sfh h fin opcode n : hn (fun _ => True) (sendFrameHeader h fin opcode n).
Proof.
  unfold sendFrameHeader. eapply hn_bind; [apply hn_get|]. intros w _.
  eapply hn_bind with (P := fun _ => True).
  - cbn [h_hasMask]. destruct (s_mask (w_sock w)); [|now apply hn_ret]. eapply hn_bind; [apply hn_random|]. intros. now apply hn_ret.
  - intros. eapply hn_bind; [apply hn_wfh|]. intros. now apply hn_ret.
Qed.
Lemma hn_sof fin opcode m : hn (fun b => b = true) (sendOneFrame fin opcode m).
Proof.
  unfold sendOneFrame. destruct m as [[|b bs]|].
  - eapply hn_bind; [apply hn_sfh|]. intros. now apply hn_ret.
  - eapply hn_bind; [apply hn_sfh|]. intros h _.
    eapply hn_bind with (P := fun n => n = lenN (b :: bs)).
    + destruct (h_hasMask h); [|apply hn_write]. destruct (_ <=? _); [apply hn_undef|].
      rewrite <- (lenN_xor_from (h_mask h) 0 (b :: bs)). apply hn_write.
    + intros a ->. apply hn_ret. apply N.eqb_refl.
  - eapply hn_bind; [apply hn_sfh|]. intros. now apply hn_ret.
Qed.
Lemma hn_send op : hn (fun _ => True) (send op).
Proof.
  destruct op; cbn [send]; (eapply hn_bind; [apply hn_sof|]); intros a ->; try (now apply hn_ret).
Qed.

(** * The sending calls *)
Lemma sendChecked_checked fin opcode m w o w' : sendChecked fin opcode m w = (o, w') ->
  exists w1, checked fin opcode m w = (o, w1) /\ er w1 = er w' /\ (forall a, o = Ret a -> w1 = w').
Proof.
  unfold sendChecked, checked, bind. destruct (sendOneFrame fin opcode m w) as [[[]|e| |u|] w1]; intros E.
  - injection E as <- <-. exists w1. repeat split.
  - injection E as <- <-. exists w1. repeat split. discriminate.
  - injection E as <- <-. exists w1. repeat split.
  - injection E as <- <-. exists w1. repeat split.
  - injection E as <- <-. exists w1. repeat split.
  - injection E as <- <-. exists w1. repeat split.
Qed.
Lemma sim_er {A} (Q : A -> header -> bytes -> Prop) K o w1 w2 c :
  er w1 = er w2 -> (forall a, o = Ret a -> w1 = w2) -> sim Q K o w1 c -> sim Q K o w2 c.
Proof.
  intros He Hr H. destruct o; cbn [sim] in *; try (rewrite He in H; exact H).
  - rewrite <- (Hr a eq_refl). exact H.
  - exact I.
Qed.
Definition not_frame (op : sendop) : Prop := match op with SoFrame _ _ _ => False | _ => True end.
Lemma send_sim op hdr short K w o w' :
  inv w -> (strict = true -> not_frame op) -> send op w = (o, w') ->
  sim (same_cells hdr short) K o w' (Conf hdr short (start_send op :: K) (er w)).
Proof.
  intros Hi Hst E.
  destruct op as [fin opcode m|code m| |m|m|m|m]; cbn [send] in E; unfold start_send; cbn [send_args].
  { assert (never_fails (w_wr w)) as Hh.
    { destruct Hi as (_ & _ & _ & _ & He). apply He. destruct (Bool.bool_dec strict true) as [Es|Es]; [destruct (Hst Es)|]. now apply Bool.not_true_is_false. }
    eapply simT_sim. apply checked_sim; [exact Hi|]. unfold checked. unfold bind in *. destruct (sendOneFrame fin opcode m w) as [o1 w1] eqn:E1.
    destruct (hn_sof _ _ _ _ _ _ Hh E1) as [_ Ho]. destruct o1 as [b|e| |u|]; try exact E. subst b. exact E. }
  all: destruct (sendChecked_checked _ _ _ _ _ _ E) as (w1 & E1 & He & Hr); eapply sim_er; [exact He|exact Hr|];
    eapply simT_sim; apply checked_sim; assumption.
Qed.

(** * sendOneFrame does not change the socket *)
Definition still {A} (m : M A) : Prop := forall w o w', m w = (o, w') -> w_sock w' = w_sock w.
Lemma still_bind {A C} (m : M A) (f : A -> M C) : still m -> (forall a, still (f a)) -> still (bind m f).
Proof.
  intros Hm Hf w o w' E. unfold bind in E. destruct (m w) as [o1 w1] eqn:E1. apply Hm in E1.
  destruct o1; try (injection E as <- <-; exact E1). apply Hf in E. congruence.
Qed.
Lemma still_same {A} (o0 : outcome A) : still (fun w => (o0, w)).
Proof. intros w o w' E. now injection E as <- <-. Qed.
Lemma still_write d : still (writeExactSizeDataSimple d).
Proof.
  intros w o w' E. unfold writeExactSizeDataSimple in E. destruct (writeExact_raw d (w_wr w)) as [[[] a] q]; injection E as <- <-; reflexivity.
Qed.
Lemma still_random n : still (randomBytes n).
Proof. intros w o w' E. now injection E as <- <-. Qed.
Lemma still_get : still get.
Proof. intros w o w' E. now injection E as <- <-. Qed.
Ltac still_go := repeat first
  [ apply still_write | apply still_random | apply still_get | apply still_same
  | apply still_bind; [|intros ?]
  | match goal with |- still (if ?b then _ else _) => destruct b | |- still (let (_, _) := ?p in _) => destruct p end ].
Lemma still_sof fin opcode m : still (sendOneFrame fin opcode m).
Proof. unfold sendOneFrame, sendFrameHeader, writeFrameHeader. destruct m as [[|b bs]|]; still_go. Qed.

(** * Listener code *)
Lemma cmds_sim cs : Forall (async_cmd strict) cs -> forall freed hdr short K w o w',
  inv w -> exec_cmds cs w = (o, w') ->
  sim (same_cells hdr short) K o w' (Conf hdr short (CoUser cs freed :: K) (er w)).
Proof.
  induction 1 as [|c cs Hc _ IH]; intros freed hdr short K w o w' Hi E.
  - injection E as <- <-. eapply sim_step; [reflexivity|]. split; [exact Hi|]. exists hdr, short. split; [now split|constructor].
  - cbn [exec_cmds] in E. destruct c as [|l|mk b|catch op| | |fin0 opc0 msg0]; cbn [async_cmd] in Hc; try (destruct Hc; fail).
    + eapply sim_step; [reflexivity|]. destruct catch.
      * (* caught *)
        destruct (Bool.bool_dec strict true) as [Es|Es].
        { specialize (Hc Es). destruct op as [fin opcode m| | | | | |]; try discriminate Hc.
          cbn [exec_cmd send] in E. unfold start_send. cbn [send_args app].
          destruct (checked fin opcode m w) as [o1 w1] eqn:E1.
          pose proof (checked_sim fin opcode m hdr short (CoCatch :: CoUser cs freed :: K) w o1 w1 Hi E1) as HS.
          unfold checked, bind in E1. unfold bind, try_ in E. destruct (sendOneFrame fin opcode m w) as [o2 w2] eqn:E2.
          assert (inv w2) as Hi2.
          { assert (keeps (sendOneFrame fin opcode m)) as Kp by auto with keeps. pose proof (still_sof _ _ _ _ _ _ E2) as Hk. apply Kp in E2.
            destruct E2 as [(K1 & _) _]. destruct Hi as (A1 & A2 & A3 & A4 & A5). unfold inv. rewrite K1, Hk.
            repeat split; try assumption. intros; congruence. }
          destruct o2 as [[]|e| |u|]; injection E1 as <- <-.
          - destruct HS as (_ & h & s & (-> & ->) & HS). eapply sim_star; [exact HS|]. eapply sim_step; [reflexivity|]. eapply IH; [exact Hi2|exact E].
          - destruct HS as (e' & h & s & c1 & [-> ->] & H1 & H2). cbn [fail unwind c_stack c_hdr c_short c_world] in H2.
            eapply sim_star; [exact H1|]. eapply sim_step; [exact H2|]. eapply IH; [exact Hi2|exact E].
          - destruct HS as (e' & h & s & c1 & [-> ->] & H1 & H2). cbn [fail unwind c_stack c_hdr c_short c_world] in H2.
            eapply sim_star; [exact H1|]. eapply sim_step; [exact H2|]. eapply IH; [exact Hi2|exact E].
          - injection E as <- <-. exact HS.
          - injection E as <- <-. exact HS.
          - injection E as <- <-. exact I. }
        apply Bool.not_true_is_false in Es.
        assert (never_fails (w_wr w)) as Hh by (destruct Hi as (_ & _ & _ & _ & He); apply He; exact Es).
        cbn [exec_cmd] in E. unfold bind, try_ in E. destruct (send op w) as [o1 w1] eqn:E1.
        destruct (hn_send op _ _ _ Hh E1) as [_ Ho].
        pose proof (send_sim op hdr short (CoCatch :: CoUser cs freed :: K) w o1 w1 Hi ltac:(congruence) E1) as HS.
        cbn [app]. destruct o1 as [[]|e| |u|]; [|destruct Ho|injection E as <- <-; exact HS|injection E as <- <-; exact HS|injection E as <- <-; exact I].
        destruct HS as (Hi1 & h & s & (-> & ->) & HS). eapply sim_star; [exact HS|]. eapply sim_step; [reflexivity|]. eapply IH; eassumption.
      * cbn [app]. cbn [exec_cmd] in E.
        eapply (sim_bind (same_cells hdr short) (same_cells hdr short) (CoUser cs freed)); [| |  | exact E]; [unfold passes; discriminate| |].
        -- intros o1 w1 E1. apply send_sim; [exact Hi| |exact E1]. intros Hs. specialize (Hc Hs). destruct op; first [discriminate Hc|exact I].
        -- intros a h s w1 (-> & ->) Hi1 o2 w2 E2. eapply IH; eassumption.
    + injection E as <- <-. eexists. eexists. eexists. eexists. split; [constructor|]. reflexivity.
    + eapply sim_step; [reflexivity|]. cbn [exec_cmd] in E. unfold start_send. cbn [send_args].
      eapply (sim_bind (same_cells hdr short) (same_cells hdr short) (CoUser cs freed)); [| |  | exact E]; [unfold passes; discriminate| |].
      * intros o1 w1 E1. destruct (checked fin0 opc0 msg0 w) as [o2 w2] eqn:E2.
        pose proof (simT_sim _ _ _ _ _ _ (checked_sim fin0 opc0 msg0 hdr short (CoUser cs freed :: K) w o2 w2 Hi E2)) as HS.
        unfold demand, checked, bind in *. destruct (sendOneFrame fin0 opc0 msg0 w) as [[[]|e| |u|] w3];
          injection E1 as <- <-; injection E2 as <- <-; exact HS.
      * intros a h s w1 (-> & ->) Hi1 o2 w2 E2. eapply IH; eassumption.
Qed.

Lemma notify_sim ev freed hdr short K w o w' : inv w -> notify react ev w = (o, w') ->
  sim (same_cells hdr short) K o w'
    (match li with
     | Some l => let (co, w1) := call_listener react l ev freed (er w) in Conf hdr short (co :: K) w1
     | None => Conf hdr short K (er w)
     end).
Proof.
  intros Hi E. unfold notify in E. pose proof Hi as (Hio & Hl & Hls & Hb & He). rewrite Hls in E. destruct li as [l|] eqn:El.
  - cbn [call_listener]. change (set_log (er w) (w_log (er w) ++ [(l, ev)])) with (er (set_log w (w_log w ++ [(l, ev)]))).
    apply cmds_sim; [apply Hre| |exact E]. unfold inv. rewrite El. repeat split; try assumption.
  - injection E as <- <-. split; [exact Hi|]. exists hdr, short. split; [now split|constructor].
Qed.

(** * ReadPayloadCoroutine *)
Definition short_opt (useShort : bool) (s : bytes) : option bytes := if useShort then Some s else None.
(** The end of readPayload. *)
Definition rp_tail (h : header) (useShort : bool) (short' : option bytes) : M (option bytes) :=
  ((if useShort then ret tt else if h_fin h then notify react (EvEnd (h_opcode h)) else ret tt) ;;; ret short')%m.
(** The stream content of a control frame. *)
Definition got_short (h : header) (useShort : bool) (s0 : bytes) (r : option bytes) (hh : header) (ss : bytes) : Prop :=
  hh = h /\ if useShort then r = Some ss else r = None /\ ss = s0.
Definition desired (h : header) (progress : Z) : Z := if (h_len h - progress <? B)%Z then (h_len h - progress)%Z else B.

Lemma takeN_cons n (b : byte) bs : 0 < n -> exists x xs, takeN n (b :: bs) = x :: xs.
Proof.
  intros Hn. destruct (takeN n (b :: bs)) as [|x xs] eqn:E; [|eauto].
  apply (f_equal lenN) in E. rewrite lenN_takeN, lenN_nil, lenN_cons in E. lia.
Qed.

Lemma read_got_cons n l : 0 < n -> forall k d s' k', read_raw n l k = (RGot d, s', k') -> exists b bs, d = b :: bs.
Proof.
  intros Hn. induction l as [|ev l IHl]; intros k d s' k' Er; cbn [read_raw] in Er; [congruence|].
  destruct ev as [b bs|ie|x]; [|congruence|eapply IHl; exact Er].
  destruct (takeN_cons n b bs Hn) as (x & xs & Hx). exists x, xs. congruence.
Qed.
Lemma read_pending_nil n l : io_only l -> forall k s' k', read_raw n l k = (RPending, s', k') -> l = s'.
Proof.
  induction 1 as [|ev l Hev _ IHl]; intros k s' k' Er; cbn [read_raw] in Er; [congruence|].
  destruct ev; [congruence|congruence|destruct Hev].
Qed.

Lemma loop_sim fuel : forall h us s prog K w o w' c,
  (0 <= B)%Z -> inv w ->
  (r <- readPayload_loop react fuel h (short_opt us s) B prog ;; rp_tail h us r)%m w = (o, w') ->
  (c = Conf h s (CoPayload li us B prog RpAct :: K) (er w) \/
   (prog < h_len h)%Z /\ c = Conf h s (CoPayload li us B prog (RpReadData (desired h prog)) :: K) (er w)) ->
  sim (got_short h us s) K o w' c.
Proof.
  induction fuel as [|fuel IH]; intros h us s prog K w o w' c HB Hi E Hc.
  { cbn in E. unfold bind, out_of_fuel in E. injection E as <- <-. exact I. }
  cbn [readPayload_loop] in E. pose proof Hi as (Hio & Hl & Hls & Hb & He).
  destruct (Z.ltb_spec prog (h_len h)) as [Hp|Hp].
  2: { destruct Hc as [->|[Hc _]]; [|lia].
       unfold bind at 1 in E. unfold ret at 1 in E. unfold rp_tail in E.
       destruct us.
       - injection E as <- <-. eapply sim_step.
         { cbn [AsyncWebSocket.step step_payload]. destruct (Z.ltb_spec prog (h_len h)); [lia|]. reflexivity. }
         split; [exact Hi|]. exists h, s. split; [split; reflexivity|constructor].
       - destruct (h_fin h) eqn:Ef.
         + unfold bind in E. destruct (notify react (EvEnd (h_opcode h)) w) as [o1 w1] eqn:E1.
           pose proof (notify_sim _ false h s (match li with Some _ => CoPayload li false B prog RpFinish :: K | None => K end) w o1 w1 Hi E1) as HS.
           destruct li as [l|] eqn:Eli.
           * eapply sim_step.
             { cbn [AsyncWebSocket.step step_payload]. destruct (Z.ltb_spec prog (h_len h)); [lia|]. rewrite Ef. cbn [andb negb]. reflexivity. }
             cbn [call_listener] in HS.
             destruct o1; injection E as <- <-; [|destruct HS as (e' & h' & s' & c1 & H1 & H2); exists e', h', s', c1; split; [exact H1|exact H2]|exact HS|exact HS|exact I].
             destruct HS as (Hi1 & h' & s' & (-> & ->) & HS). split; [exact Hi1|]. exists h, s. split; [repeat split|].
             eapply star_trans; [exact HS|]. apply star_one. reflexivity.
           * eapply sim_step.
             { cbn [AsyncWebSocket.step step_payload]. destruct (Z.ltb_spec prog (h_len h)); [lia|]. rewrite Ef. cbn [andb negb]. reflexivity. }
             destruct o1; injection E as <- <-; [|destruct HS as (e' & h' & s' & c1 & H1 & H2); exists e', h', s', c1; split; [exact H1|exact H2]|exact HS|exact HS|exact I].
             destruct HS as (Hi1 & h' & s' & (-> & ->) & HS). split; [exact Hi1|]. exists h, s. split; [repeat split|exact HS].
         + injection E as <- <-. eapply sim_step.
           { cbn [AsyncWebSocket.step step_payload]. destruct (Z.ltb_spec prog (h_len h)); [lia|]. rewrite Ef. reflexivity. }
           split; [exact Hi|]. exists h, s. split; [repeat split|constructor]. }
  assert (sim (got_short h us s) K o w' (Conf h s (CoPayload li us B prog (RpReadData (desired h prog)) :: K) (er w))) as HG.
  2: { destruct Hc as [->|[_ ->]]; [|exact HG]. eapply sim_step; [|exact HG].
       cbn [AsyncWebSocket.step step_payload]. destruct (Z.ltb_spec prog (h_len h)); [|lia].
       change (s_buf (w_sock (er w))) with (s_buf (w_sock w)). rewrite Hb. reflexivity. }
  clear Hc c. unfold bind, get in E. cbv beta iota zeta in E. rewrite Hb in E.
  change (if (h_len h - prog <? B)%Z then (h_len h - prog)%Z else B) with (desired h prog) in E.
  assert (0 <= desired h prog)%Z as Hd by (unfold desired; destruct (h_len h - prog <? B)%Z; lia).
  unfold readSimple in E. destruct (Z.ltb_spec (desired h prog) 0); [lia|].
  destruct (Z.eqb_spec (desired h prog) 0) as [Hz|Hz].
  { injection E as <- <-. exists ExConnState, h, s, (Conf h s (CoPayload li us B prog (RpOnData []) :: K) (er w)). split; [|reflexivity].
    apply star_one. cbn [AsyncWebSocket.step step_payload]. unfold readSomeAsyncInline. rewrite Hz. change (0 <=? 0)%Z with true. cbv iota.
    change (Z.of_N (lenN [])) with 0%Z. destruct (Z.ltb_spec B 0); [lia|]. reflexivity. }
  destruct (read_raw (Z.to_N (desired h prog)) (w_in w) (w_sock w)) as [[r s'] k'] eqn:Er.
  destruct (no_ext_read _ _ _ _ _ _ Hio Er) as [-> Hio'].
  pose proof (read_raw_sock _ _ _ (w_sock (er w)) _ _ _ Hio Er) as Er2.
  assert (set_sock (set_in w s') (w_sock w) = set_in w s') as Hw by (destruct w; reflexivity). rewrite Hw in E.
  assert (inv (set_in w s')) as Hi' by (split; [exact Hio'|split; [exact Hl|split; [exact Hls|split; [exact Hb|exact He]]]]).
  assert (readSomeAsyncInline (desired h prog) (er w) =
    match r with RGot d => (INext d, er (set_in w s')) | RErr IoRetry => (IAgain [], er (set_in w s'))
     | RErr IoZero => (INext [], er (set_in w s')) | RErr IoBroken => (IFail, er (set_in w s')) | RPending => (IWait, er (set_in w s')) end) as Hra.
  { unfold readSomeAsyncInline. destruct (Z.leb_spec (desired h prog) 0); [lia|]. change (w_in (er w)) with (w_in w). rewrite Er2.
    destruct r as [d|[]|]; reflexivity. }
  destruct r as [data|ioe|].
  - (* data *)
    assert (exists b bs, data = b :: bs) as (b & bs & Hdata).
    { eapply read_got_cons; [|exact Er]. lia. }
    set (data' := if h_hasMask h then xor_from (h_mask h) (Z.to_N prog) data else data) in *.
    destruct (Z.ltb_spec B (Z.of_N (lenN data))) as [Ho|Ho].
    + injection E as <- <-. eexists. eexists. split; [constructor|].
      split; [cbn [AsyncWebSocket.step step_payload]; rewrite Hra; destruct (Z.ltb_spec B (Z.of_N (lenN data))); [reflexivity|lia]|reflexivity].
    + eapply sim_step.
      { cbn [AsyncWebSocket.step step_payload]. rewrite Hra. destruct (Z.ltb_spec B (Z.of_N (lenN data))); [lia|]. reflexivity. }
      destruct us; cbn [short_opt] in E.
      * eapply sim_step.
        { cbn [AsyncWebSocket.step step_payload]. rewrite Hdata. reflexivity. }
        assert (sim (got_short h true (s ++ data')) K o w'
          (Conf h (s ++ data') (CoPayload li true B (prog + Z.of_N (lenN data)) RpAct :: K) (er (set_in w s')))) as HI.
        { eapply IH; [exact HB|exact Hi'|unfold bind; exact E|left; reflexivity]. }
        subst data'. rewrite Hdata in HI |- *. destruct o; exact HI.
      * destruct (notify react (EvMsg (h_opcode h) data') (set_in w s')) as [o1 w1] eqn:E1.
        pose proof (notify_sim _ (h_hasMask h) h s (CoPayload li false B (prog + Z.of_N (lenN data)) RpAct :: K) _ _ _ Hi' E1) as HS.
        eapply sim_step with (c' := match li with
           | Some l => let (co, w1) := call_listener react l (EvMsg (h_opcode h) data') (h_hasMask h) (er (set_in w s')) in
                       Conf h s (co :: CoPayload li false B (prog + Z.of_N (lenN data)) RpAct :: K) w1
           | None => Conf h s (CoPayload li false B (prog + Z.of_N (lenN data)) RpAct :: K) (er (set_in w s'))
           end).
        { cbn [AsyncWebSocket.step step_payload]. subst data'. rewrite Hdata. destruct li; reflexivity. }
        destruct o1; [|injection E as <- <-|injection E as <- <-; exact HS|injection E as <- <-; exact HS|injection E as <- <-; exact I].
        -- destruct HS as (Hi1 & h' & ss & (-> & ->) & HS). eapply sim_star; [exact HS|].
           eapply IH; [exact HB|exact Hi1|unfold bind; exact E|left; reflexivity].
        -- destruct HS as (e' & h' & ss & c1 & H1 & H2). exists e', h', ss, c1. split; [exact H1|]. rewrite H2. apply fail_pass. discriminate.
  - destruct ioe.
    + eapply sim_step.
      { cbn [AsyncWebSocket.step step_payload]. rewrite Hra. reflexivity. }
      eapply IH; [exact HB|exact Hi'|unfold bind; exact E|right; split; [exact Hp|reflexivity]].
    + injection E as <- <-. eexists. exists h, s. eexists. split.
      { apply star_one. cbn [AsyncWebSocket.step step_payload]. rewrite Hra. change (Z.of_N (lenN [])) with 0%Z. destruct (Z.ltb_spec B 0); [lia|]. reflexivity. }
      reflexivity.
    + injection E as <- <-. eexists. exists h, s. eexists. split; [constructor|].
      cbn [AsyncWebSocket.step step_payload]. rewrite Hra. reflexivity.
  - injection E as <- <-.
    assert (w_in w = s') as Hpend.
    { eapply read_pending_nil; eassumption. }
    assert (set_in w s' = w) as Hww by (rewrite <- Hpend; destruct w; reflexivity). rewrite Hww in *.
    eexists. split; [constructor|]. split; [|reflexivity]. cbn [AsyncWebSocket.step step_payload]. rewrite Hra. reflexivity.
Qed.

Lemma payload_sim h (us : bool) (s : bytes) next K w o w' : inv w -> passes next ->
  (if us then s = [] else True) ->
  readPayload react h (short_opt us []) w = (o, w') ->
  match readPayloadAsync h us (er w) with
  | inl e => (exists e', o = Throw e') /\ w' = w
  | inr co => sim (got_short h us s) (next :: K) o w' (Conf h s (co :: next :: K) (er w))
  end.
Proof.
  intros Hi _ Hs E. unfold readPayload in E. unfold readPayloadAsync. pose proof Hi as (Hio & Hl & Hls & Hb & He).
  replace (match short_opt us [] with Some _ => true | None => false end) with us in E by (destruct us; reflexivity).
  destruct (us && (125 <? h_len h)%Z)%bool.
  { injection E as <- <-. eauto. }
  unfold bind at 1, get in E. cbv zeta in E. rewrite Hb in E. change (s_buf (w_sock (er w))) with (s_buf (w_sock w)). rewrite Hb.
  destruct (Z.ltb_spec B 0) as [HB|HB].
  { injection E as <- <-. eauto. }
  change (s_listener (w_sock (er w))) with (s_listener (w_sock w)). rewrite Hls.
  eapply (loop_sim (S (script_size (w_in w)))); [exact HB|exact Hi| |left; reflexivity].
  rewrite <- E. replace (short_opt us s) with (short_opt us []) by (destruct us; [now rewrite Hs|reflexivity]).
  unfold bind. destruct (readPayload_loop _ _ _ _ _ _ _) as [[r| | | |] w1]; try reflexivity. unfold rp_tail, bind. destruct us; reflexivity.
Qed.

(** * HandleFrameCoroutine *)
Definition same_hdr (hdr : header) {A} (_ : A) (hh : header) (ss : bytes) : Prop := hh = hdr.

Lemma handleFrame_sim h short K w o w' : inv w -> handleFrame react h w = (o, w') ->
  sim (same_hdr h) K o w' (Conf h short (CoHandle li HfAct :: K) (er w)).
Proof.
  intros Hi E. unfold handleFrame in E.
  (* data frames *)
  assert (forall w o w', inv w -> (readPayload react h None ;;; ret tt)%m w = (o, w') ->
    forall sc, sc = (match readPayloadAsync h false (er w) with
    | inl e => fail e (Conf h short K (er w))
    | inr co => (ARun, Conf h short (co :: CoHandle li HfFinish :: K) (er w))
    end) -> forall c, step c = sc -> sim (same_hdr h) K o w' c) as Hdata.
  { clear -Hre. intros w o w' Hi E sc -> c Hc. unfold bind in E. destruct (readPayload react h None w) as [o1 w1] eqn:E1.
    pose proof (payload_sim h false short (CoHandle li HfFinish) K w o1 w1 Hi ltac:(discriminate) I E1) as HS.
    destruct (readPayloadAsync h false (er w)) as [e|co].
    - destruct HS as [[e' ->] ->]. injection E as <- <-. eexists. eexists. eexists. exists c. split; [constructor|exact Hc].
    - eapply sim_step; [exact Hc|]. destruct o1; injection E as <- <-.
      + destruct HS as (Hi1 & h' & s & (-> & _ & ->) & HS). split; [exact Hi1|]. exists h, short. split; [reflexivity|].
        eapply star_trans; [exact HS|]. apply star_one. reflexivity.
      + destruct HS as (e' & h' & s & c1 & H1 & H2). exists e', h', s, c1. split; [exact H1|exact H2].
      + exact HS.
      + exact HS.
      + exact I. }
  (* control frames *)
  assert (forall ev next w o w', inv w ->
    (forall s w, step (Conf h s (CoHandle li next :: K) w) =
       match li with
       | Some l => let (co, w') := call_listener react l (ev s) false w in (ARun, Conf h s (co :: CoHandle li HfFinish :: K) w')
       | None => (ARun, Conf h s K w)
       end) ->
    (p <- readPayload react h (Some []) ;; notify react (ev (str p)))%m w = (o, w') ->
    forall sc, sc = (match readPayloadAsync h true (er w) with
    | inl e => fail e (Conf h [] K (er w))
    | inr co => (ARun, Conf h [] (co :: CoHandle li next :: K) (er w))
    end) -> forall c, step c = sc -> sim (same_hdr h) K o w' c) as Hctl.
  { clear -Hre. intros ev next w o w' Hi Hnext E sc -> c Hc. unfold bind in E. destruct (readPayload react h (Some []) w) as [o1 w1] eqn:E1.
    pose proof (payload_sim h true [] (CoHandle li next) K w o1 w1 Hi ltac:(discriminate) eq_refl E1) as HS.
    destruct (readPayloadAsync h true (er w)) as [e|co].
    - destruct HS as [[e' ->] ->]. injection E as <- <-. eexists. eexists. eexists. exists c. split; [constructor|exact Hc].
    - eapply sim_step; [exact Hc|]. destruct o1.
      + destruct HS as (Hi1 & h' & s & (-> & ->) & HS). eapply sim_star; [exact HS|]. cbn [str] in E.
        pose proof (notify_sim _ false h s (match li with Some _ => CoHandle li HfFinish :: K | None => K end) w1 _ _ Hi1 E) as HN.
        eapply sim_step with (c' := match li with
           | Some l => let (co, w') := call_listener react l (ev s) false (er w1) in Conf h s (co :: CoHandle li HfFinish :: K) w'
           | None => Conf h s K (er w1) end).
        { rewrite Hnext. destruct li; reflexivity. }
        destruct li as [l|] eqn:El.
        * destruct o.
          -- destruct HN as (Hi2 & h' & s' & (-> & ->) & HN). split; [exact Hi2|]. exists h, s. split; [reflexivity|].
             eapply star_trans; [exact HN|]. apply star_one. reflexivity.
          -- destruct HN as (e' & h' & s' & c1 & H1 & H2). exists e', h', s', c1. split; [exact H1|exact H2].
          -- exact HN.
          -- exact HN.
          -- exact I.
        * destruct o; try exact HN.
          destruct HN as (Hi2 & h' & s' & (-> & ->) & HN). split; [exact Hi2|]. exists h, s. split; [reflexivity|exact HN].
      + injection E as <- <-. destruct HS as (e' & h' & s & c1 & H1 & H2). exists e', h', s, c1. split; [exact H1|exact H2].
      + injection E as <- <-. exact HS.
      + injection E as <- <-. exact HS.
      + injection E as <- <-. exact I. }
  assert (forall P : Prop, (exists e', o = Throw e') /\ w' = w -> (exists e, step (Conf h short (CoHandle li HfAct :: K) (er w)) = fail e (Conf h short K (er w))) ->
     sim (same_hdr h) K o w' (Conf h short (CoHandle li HfAct :: K) (er w))) as Hthr.
  { intros _ [[e' ->] ->] [e He]. exists e, h, short, (Conf h short (CoHandle li HfAct :: K) (er w)). split; [constructor|exact He]. }
  assert (h_opcode h = 1 \/ h_opcode h = 2 ->
    (ok <- checkForContinuation h ;; if (ok : bool) then readPayload react h None ;;; ret tt else throw ExContinuationExpected)%m w = (o, w') ->
    sim (same_hdr h) K o w' (Conf h short (CoHandle li HfAct :: K) (er w))) as Hdf.
  { intros Hop E'. unfold checkForContinuation in E'. unfold bind at 1 2, get in E'. cbv zeta in E'.
    assert (step (Conf h short (CoHandle li HfAct :: K) (er w)) =
      let (ok, w') := checkForContinuationA h (er w) in
      if (ok : bool) then match readPayloadAsync h false w' with
        | inl e => fail e (Conf h short K w')
        | inr co => (ARun, Conf h short (co :: CoHandle li HfFinish :: K) w')
        end else fail ExContinuationExpected (Conf h short K w')) as Hstep.
    { cbn [AsyncWebSocket.step step_handle]. destruct Hop as [-> | ->]; reflexivity. }
    unfold checkForContinuationA in Hstep. change (s_last (w_sock (er w))) with (s_last (w_sock w)) in Hstep.
    destruct ((s_last (w_sock w) =? 1) || (s_last (w_sock w) =? 2))%Z%bool.
    - apply Hthr; [exact True| |].
      + unfold ret, throw in E'. injection E' as <- <-. eauto.
      + eexists. exact Hstep.
    - cbn [modify_sock ret bind] in E'.
      set (w2 := set_sock w (set_last (w_sock w) (if h_fin h then (-1)%Z else Z.of_N (h_opcode h)))) in *.
      assert (inv w2) as Hi2 by (destruct Hi as (A1 & A2 & A3 & A4 & A5); repeat split; assumption).
      eapply (Hdata w2 o w' Hi2 E' _ eq_refl). exact Hstep. }
  destruct (h_opcode h) as [|[[[[p|p|]|[p|p|]|]|[[p|p|]|[p|p|]|]|]|[[[p|p|]|[p|p|]|]|[[p|p|]|[p|p|]|]|]|]] eqn:Hop;
    try (apply Hthr; [exact True|injection E as <- <-; eauto|eexists; cbn [AsyncWebSocket.step step_handle]; rewrite Hop; reflexivity]).
  - unfold bind at 1, get in E. cbv beta iota zeta in E. destruct (Z.ltb_spec (s_last (w_sock w)) 0) as [Hl|Hl].
    + apply Hthr; [exact True|injection E as <- <-; eauto|eexists; cbn [AsyncWebSocket.step step_handle]; rewrite Hop].
      change (s_last (w_sock (er w))) with (s_last (w_sock w)). destruct (Z.ltb_spec (s_last (w_sock w)) 0); [reflexivity|lia].
    + eapply (Hdata w o w' Hi E _ eq_refl). cbn [AsyncWebSocket.step step_handle]; rewrite Hop.
      change (s_last (w_sock (er w))) with (s_last (w_sock w)). destruct (Z.ltb_spec (s_last (w_sock w)) 0); [lia|reflexivity].
  - eapply (Hctl (fun s => EvPing s) HfOnPing w o w' Hi); [intros; reflexivity|exact E|reflexivity|].
    cbn [AsyncWebSocket.step step_handle]; rewrite Hop. reflexivity.
  - eapply (Hctl (fun s => EvPong s) HfOnPong w o w' Hi); [intros; reflexivity|exact E|reflexivity|].
    cbn [AsyncWebSocket.step step_handle]; rewrite Hop. reflexivity.
  - eapply (Hctl (fun s => EvClose (close_code s) (close_reason s)) HfOnClose w o w' Hi); [intros; reflexivity|exact E|reflexivity|].
    cbn [AsyncWebSocket.step step_handle]; rewrite Hop. reflexivity.
  - apply Hdf; [now right|exact E].
  - apply Hdf; [now left|exact E].
Qed.

(** * ListenCoroutine *)
Lemma loop_listen_sim fuel : forall h0 hdr short K w o w',
  lf = true -> inv w -> h_len hdr = h_len h0 -> h_mask hdr = h_mask h0 -> h_opcode hdr <> OPCODE_CLOSE ->
  listen_loop react fuel h0 w = (o, w') ->
  sim (fun _ _ _ => True) K o w' (Conf hdr short (CoListen :: K) (er w)).
Proof.
  induction fuel as [|fuel IH]; intros h0 hdr short K w o w' Hlf Hi Hl Hm Hop E.
  { injection E as <- <-. exact I. }
  cbn [listen_loop] in E.
  eapply sim_step.
  { cbn [AsyncWebSocket.step]. destruct (N.eqb_spec (h_opcode hdr) OPCODE_CLOSE); [congruence|]. reflexivity. }
  change (s_listener (w_sock (er w))) with (s_listener (w_sock w)).
  replace (s_listener (w_sock w)) with li by (symmetry; apply Hi).
  eapply (sim_binds (fun h hh ss => hh = h /\ ss = short) _ [CoHandle li HfAct; CoListen] K); [| | |exact E].
  - repeat constructor; discriminate.
  - intros o1 w1 E1. eapply readFrameHeader_sim; eassumption.
  - clear E o w'. intros h' hh ss w1 (-> & ->) Hi1 o w' E.
    eapply (sim_binds (same_hdr h') _ [CoListen] K); [| | |exact E].
    + repeat constructor; discriminate.
    + intros o1 w2 E1. eapply handleFrame_sim; eassumption.
    + clear E o w'. intros a hh ss w2 -> Hi2 o w' E. cbn [app].
      unfold bind, get in E. destruct (N.eqb_spec (h_opcode h') OPCODE_CLOSE) as [Hc|Hc].
      * injection E as <- <-. eapply sim_step.
        { cbn [AsyncWebSocket.step]. rewrite Hc. reflexivity. }
        split; [exact Hi2|]. exists h', ss. split; [exact I|constructor].
      * pose proof Hi2 as (_ & Hlis & _). rewrite Hlis, Hlf in E. cbn [negb andb] in E.
        eapply IH; [exact Hlf|exact Hi2|reflexivity|reflexivity|exact Hc|exact E].
Qed.
End Sim.
