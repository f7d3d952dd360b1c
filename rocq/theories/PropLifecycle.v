(** C42, C43: pairing of the socket instance callbacks. *)
From Verif Require Import Bytes Lifecycle SpecLifecycle.

Lemma upd_same {A} (f : nat -> A) i v : upd f i v i = v.
Proof. unfold upd. now rewrite Nat.eqb_refl. Qed.
Lemma upd_other {A} (f : nat -> A) i j v : j <> i -> upd f i v j = f j.
Proof. intros H. unfold upd. apply Nat.eqb_neq in H. now rewrite H. Qed.

Lemma calls_about_app k a b : calls_about k (a ++ b) = calls_about k a ++ calls_about k b.
Proof. apply filter_app. Qed.

(* ------------------------------------------------------------------------------------- *)
(** * C42 *)

(** What is known about a handled connection: listener at that time, connection, parameters, and whether the
    constructor threw. *)
Record info := Info { i_l : option nat; i_conn : nat; i_p : nat; i_threw : bool }.

Definition shape (k : nat) (x : info) (n : nat) (held : bool) : list lev :=
  let s := Socket k (i_conn x) false in
  match i_l x with
  | Some l => EvAfterCreate l s (i_p x) :: repeat (EvListen s) n ++ (if held || i_threw x then [] else [EvBeforeDestroy l s])
  | None => repeat (EvListen s) n
  end.

Definition is_some {A} (o : option A) : bool := match o with Some _ => true | None => false end.

(** Invariant tying the handler's memory to the outside view. *)
Definition hinv (infos : list info) (s : hstate) (st : nat -> ost) (n : nat) : Prop :=
  h_count s = n /\ length infos = n /\
  (forall i, match st i with
             | Absent => h_objs s i = None
             | MovedFrom => h_objs s i = Some (Task None None)
             | Holds k => exists x, nth_error infos k = Some x /\ i_threw x = false /\
                                    h_objs s i = Some (Task (i_l x) (Some (Socket k (i_conn x) false)))
             end) /\
  (forall i j k, st i = Holds k -> st j = Holds k -> i = j) /\
  (forall k x, nth_error infos k = Some x ->
     exists c held, calls_about k (h_log s) = shape k x c held /\ (held = true <-> exists i, st i = Holds k) /\
                    (i_threw x = true -> c = 0)) /\
  (forall k, n <= k -> calls_about k (h_log s) = []).

Definition infos_step (l : option nat) (o : hop) (infos : list info) : list info :=
  match o with
  | OHandle _ conn p throws => infos ++ [Info l conn p (throws && is_some l)]
  | _ => infos
  end.

Lemma nth_error_snoc {A} (l : list A) x k y :
  nth_error (l ++ [x]) k = Some y <-> nth_error l k = Some y \/ (k = length l /\ y = x).
Proof.
  destruct (Nat.lt_trichotomy k (length l)) as [H|[H|H]].
  - rewrite nth_error_app1 by assumption. split; [auto|]. intros [?|[-> _]]; [assumption|lia].
  - subst k. rewrite nth_error_app2, Nat.sub_diag by lia. cbn [nth_error]. split.
    + intros E. injection E as <-. auto.
    + intros [E|[_ ->]]; [|reflexivity]. apply nth_error_Some_lt in E || (assert (nth_error l (length l) <> None) as N by congruence; apply nth_error_Some in N; lia).
  - rewrite nth_error_app2 by lia. split.
    + intros E. destruct (k - length l) as [|m] eqn:D; [lia|]. cbn in E. destruct m; discriminate.
    + intros [E|[-> _]]; [|lia]. assert (nth_error l k <> None) as N by congruence. apply nth_error_Some in N. lia.
Qed.

Lemma nth_error_lt {A} (l : list A) k y : nth_error l k = Some y -> k < length l.
Proof. intros E. apply nth_error_Some. congruence. Qed.

Lemma repeat_snoc {A} (x : A) n : repeat x n ++ [x] = repeat x (S n).
Proof. induction n as [|n IH]; [reflexivity|]. cbn [repeat app]. now rewrite IH. Qed.

Lemma shape_listen k x c : i_threw x = false ->
  shape k x c true ++ [EvListen (Socket k (i_conn x) false)] = shape k x (S c) true.
Proof.
  intros Ht. unfold shape. destruct (i_l x).
  - cbn [orb app]. rewrite !app_nil_r. f_equal. apply repeat_snoc.
  - apply repeat_snoc.
Qed.

Lemma shape_destroy k x c l : i_threw x = false -> i_l x = Some l ->
  shape k x c true ++ [EvBeforeDestroy l (Socket k (i_conn x) false)] = shape k x c false.
Proof. intros Ht El. unfold shape. rewrite El, Ht. cbn [orb app]. rewrite app_nil_r. reflexivity. Qed.

Lemma shape_none k x c h h' : i_l x = None -> shape k x c h = shape k x c h'.
Proof. intros El. unfold shape. now rewrite El. Qed.

Lemma hstep_inv infos s st n o st' n' :
  hinv infos s st n ->
  legal1 (is_some (h_listener s)) o st n = Some (st', n') ->
  exists s', hstep o s = Some s' /\ hinv (infos_step (h_listener s) o infos) s' st' n' /\
             h_listener s' = last_listener (h_listener s) [o].
Proof.
  intros (Hc & Hl & Hobj & Huq & Hlog & Hnew) Hleg.
  assert (forall i k, st i = Holds k -> k < n) as Hkn.
  { intros i k E. specialize (Hobj i). rewrite E in Hobj. destruct Hobj as (x & Hx & _).
    apply nth_error_lt in Hx. lia. }
  destruct o as [l'|i conn p throws|i j|i j|i|i]; cbn [legal1 hstep infos_step last_listener] in *.
  - (* OSetListener *)
    injection Hleg as <- <-. eexists. split; [reflexivity|]. split; [|reflexivity].
    unfold hinv. cbn [h_count h_objs h_log]. repeat split; auto.
  - (* OHandle *)
    destruct (st i) eqn:Ei; try discriminate. injection Hleg as <- <-.
    set (sock := Socket (h_count s) conn false).
    destruct (h_listener s) as [l|] eqn:El; cbn [is_some andb].
    + assert (forall k, n <= k -> k <> n -> calls_about k (h_log s ++ [EvAfterCreate l sock p]) = []) as Hfar.
      { intros k H1 H2. rewrite calls_about_app, Hnew by assumption. cbn [calls_about filter about app sock k_id].
        assert (Nat.eqb (h_count s) k = false) as -> by (apply Nat.eqb_neq; lia). reflexivity. }
      assert (forall k x c held, k < n -> calls_about k (h_log s) = shape k x c held ->
                calls_about k (h_log s ++ [EvAfterCreate l sock p]) = shape k x c held) as Hold.
      { intros k x c held H1 H2. rewrite calls_about_app, H2. cbn [calls_about filter about sock k_id].
        assert (Nat.eqb (h_count s) k = false) as -> by (apply Nat.eqb_neq; lia). apply app_nil_r. }
      assert (calls_about n (h_log s ++ [EvAfterCreate l sock p]) = [EvAfterCreate l sock p]) as Hthis.
      { rewrite calls_about_app, Hnew by lia. cbn [calls_about filter about sock k_id app].
        rewrite Hc, Nat.eqb_refl. reflexivity. }
      destruct throws; cbn [andb].
      * eexists. split; [reflexivity|]. split; [|reflexivity].
        unfold hinv. cbn [h_count h_objs h_log]. split; [lia|]. split; [rewrite app_length; cbn; lia|]. split; [|split; [|split]].
        -- intros j. specialize (Hobj j). destruct (st j) eqn:Ej; auto.
           destruct Hobj as (x & Hx & Hr). exists x. split; [apply nth_error_snoc; auto|assumption].
        -- assumption.
        -- intros k x Hx. apply nth_error_snoc in Hx as [Hx|[-> ->]].
           ++ destruct (Hlog k x Hx) as (c & held & H1 & H2). exists c, held. split; [|assumption].
              apply Hold; [apply nth_error_lt in Hx; lia|assumption].
           ++ exists 0, false. rewrite Hl. split; [|split; [|reflexivity]].
              ** rewrite Hthis. unfold shape, sock. cbn [i_l i_conn i_p i_threw repeat app orb]. rewrite Hc. reflexivity.
              ** split; [discriminate|]. intros (j & Ej). apply Hkn in Ej. lia.
        -- intros k Hk. apply Hfar; lia.
      * eexists. split; [reflexivity|]. split; [|reflexivity].
        unfold hinv. cbn [h_count h_objs h_log]. split; [lia|]. split; [rewrite app_length; cbn; lia|]. split; [|split; [|split]].
        -- intros j. destruct (Nat.eq_dec j i) as [->|Hne].
           ++ rewrite !upd_same. eexists. split; [apply nth_error_snoc; right; split; [lia|reflexivity]|].
              split; [reflexivity|]. unfold sock. cbn [i_l i_conn]. rewrite Hc. reflexivity.
           ++ rewrite !upd_other by assumption. specialize (Hobj j). destruct (st j); auto.
              destruct Hobj as (x & Hx & Hr). exists x. split; [apply nth_error_snoc; auto|assumption].
        -- intros j1 j2 k. unfold upd. destruct (Nat.eqb_spec j1 i), (Nat.eqb_spec j2 i); intros E1 E2; try congruence; eauto.
           ++ injection E1 as <-. apply Hkn in E2. lia.
           ++ injection E2 as <-. apply Hkn in E1. lia.
        -- intros k x Hx. apply nth_error_snoc in Hx as [Hx|[-> ->]].
           ++ destruct (Hlog k x Hx) as (c & held & H1 & H2 & H3). exists c, held.
              assert (k < n) by (apply nth_error_lt in Hx; lia).
              split; [apply Hold; assumption|]. split; [|assumption]. rewrite H2. split; intros (j & Ej).
              ** exists j. rewrite upd_other; [assumption|]. intros ->. congruence.
              ** destruct (Nat.eq_dec j i) as [->|Hne]; [rewrite upd_same in Ej; injection Ej as <-; lia|].
                 rewrite upd_other in Ej by assumption. eauto.
           ++ exists 0, true. rewrite Hl. split; [|split; [|reflexivity]].
              ** rewrite Hthis. unfold shape, sock. cbn [i_l i_conn i_p i_threw repeat app orb]. rewrite Hc. reflexivity.
              ** split; [intros _; exists i; now rewrite upd_same|reflexivity].
        -- intros k Hk. apply Hfar; lia.
    + rewrite andb_false_r. eexists. split; [reflexivity|]. split; [|reflexivity].
      unfold hinv. cbn [h_count h_objs h_log]. split; [lia|]. split; [rewrite app_length; cbn; lia|]. split; [|split; [|split]].
      * intros j. destruct (Nat.eq_dec j i) as [->|Hne].
        -- rewrite !upd_same. eexists. split; [apply nth_error_snoc; right; split; [lia|reflexivity]|].
           split; [reflexivity|]. unfold sock. cbn [i_l i_conn]. rewrite Hc. reflexivity.
        -- rewrite !upd_other by assumption. specialize (Hobj j). destruct (st j); auto.
           destruct Hobj as (x & Hx & Hr). exists x. split; [apply nth_error_snoc; auto|assumption].
      * intros j1 j2 k. unfold upd. destruct (Nat.eqb_spec j1 i), (Nat.eqb_spec j2 i); intros E1 E2; try congruence; eauto.
        -- injection E1 as <-. apply Hkn in E2. lia.
        -- injection E2 as <-. apply Hkn in E1. lia.
      * intros k x Hx. apply nth_error_snoc in Hx as [Hx|[-> ->]].
        -- destruct (Hlog k x Hx) as (c & held & H1 & H2 & H3). exists c, held.
           assert (k < n) by (apply nth_error_lt in Hx; lia).
           split; [assumption|]. split; [|assumption]. rewrite H2. split; intros (j & Ej).
           ++ exists j. rewrite upd_other; [assumption|]. intros ->. congruence.
           ++ destruct (Nat.eq_dec j i) as [->|Hne]; [rewrite upd_same in Ej; injection Ej as <-; lia|].
              rewrite upd_other in Ej by assumption. eauto.
        -- exists 0, true. rewrite Hl. split; [|split; [|reflexivity]].
           ++ rewrite Hnew by lia. reflexivity.
           ++ split; [intros _; exists i; now rewrite upd_same|reflexivity].
      * intros k Hk. apply Hnew. lia.
  - (* OMove *)
    destruct (st i) as [|k0|] eqn:Ei; try discriminate. destruct (st j) eqn:Ej; try discriminate. injection Hleg as <- <-.
    pose proof (Hobj i) as Hi. rewrite Ei in Hi. destruct Hi as (x0 & Hx0 & Ht0 & Ho). rewrite Ho.
    assert (i <> j) as Hij by congruence.
    eexists. split; [reflexivity|]. split; [|reflexivity].
    unfold hinv. cbn [h_count h_objs h_log]. split; [assumption|]. split; [assumption|].
    assert (forall q, upd (upd st j (Holds k0)) i MovedFrom q =
                      if Nat.eqb q i then MovedFrom else if Nat.eqb q j then Holds k0 else st q) as Est by reflexivity.
    split; [|split; [|split]].
    + intros q. unfold upd. destruct (Nat.eqb_spec q i); [reflexivity|].
      destruct (Nat.eqb_spec q j); [eauto|apply Hobj].
    + intros a b k. rewrite !Est. destruct (Nat.eqb_spec a i), (Nat.eqb_spec b i); intros E1 E2; try discriminate.
      destruct (Nat.eqb_spec a j), (Nat.eqb_spec b j); try congruence; eauto.
      * injection E1 as <-. destruct n1. eauto.
      * injection E2 as <-. destruct n0. eauto.
    + intros k x Hx. destruct (Hlog k x Hx) as (c & held & H1 & H2 & H3). exists c, held. split; [assumption|]. split; [|assumption].
      rewrite H2. split; intros (q & Eq).
      * destruct (Nat.eq_dec q i) as [->|Hq].
        -- exists j. rewrite Est. rewrite (proj2 (Nat.eqb_neq j i)) by congruence. rewrite Nat.eqb_refl. congruence.
        -- exists q. rewrite Est. rewrite (proj2 (Nat.eqb_neq q i)) by assumption.
           destruct (Nat.eqb_spec q j); [congruence|assumption].
      * rewrite Est in Eq. destruct (Nat.eqb_spec q i); [discriminate|].
        destruct (Nat.eqb_spec q j); [exists i; congruence|eauto].
    + assumption.
  - (* OAssign *)
    destruct (st i) as [|k0|] eqn:Ei; try discriminate. destruct (st j) eqn:Ej; try discriminate. injection Hleg as <- <-.
    pose proof (Hobj i) as Hi. rewrite Ei in Hi. destruct Hi as (x0 & Hx0 & Ht0 & Ho).
    pose proof (Hobj j) as Hj. rewrite Ej in Hj. rewrite Ho, Hj.
    assert (i <> j) as Hij by congruence.
    eexists. split; [reflexivity|]. split; [|reflexivity].
    unfold hinv. cbn [h_count h_objs h_log]. split; [assumption|]. split; [assumption|].
    assert (forall q, upd (upd st j (Holds k0)) i MovedFrom q =
                      if Nat.eqb q i then MovedFrom else if Nat.eqb q j then Holds k0 else st q) as Est by reflexivity.
    split; [|split; [|split]].
    + intros q. unfold upd. destruct (Nat.eqb_spec q i); [reflexivity|].
      destruct (Nat.eqb_spec q j); [eauto|apply Hobj].
    + intros a b k. rewrite !Est. destruct (Nat.eqb_spec a i), (Nat.eqb_spec b i); intros E1 E2; try discriminate.
      destruct (Nat.eqb_spec a j), (Nat.eqb_spec b j); try congruence; eauto.
      * injection E1 as <-. destruct n1. eauto.
      * injection E2 as <-. destruct n0. eauto.
    + intros k x Hx. destruct (Hlog k x Hx) as (c & held & H1 & H2 & H3). exists c, held. split; [assumption|]. split; [|assumption].
      rewrite H2. split; intros (q & Eq).
      * destruct (Nat.eq_dec q i) as [->|Hq].
        -- exists j. rewrite Est. rewrite (proj2 (Nat.eqb_neq j i)) by congruence. rewrite Nat.eqb_refl. congruence.
        -- exists q. rewrite Est. rewrite (proj2 (Nat.eqb_neq q i)) by assumption.
           destruct (Nat.eqb_spec q j); [congruence|assumption].
      * rewrite Est in Eq. destruct (Nat.eqb_spec q i); [discriminate|].
        destruct (Nat.eqb_spec q j); [exists i; congruence|eauto].
    + assumption.
  - (* ORun *)
    destruct (st i) as [|k0|] eqn:Ei; try discriminate. injection Hleg as <- <-.
    pose proof (Hobj i) as Hi. rewrite Ei in Hi. destruct Hi as (x0 & Hx0 & Ht0 & Ho). rewrite Ho.
    eexists. split; [reflexivity|]. split; [|reflexivity].
    unfold hinv. cbn [h_count h_objs h_log]. repeat split; auto.
    + intros k x Hx. destruct (Hlog k x Hx) as (c & held & H1 & H2 & H3).
      rewrite calls_about_app, H1. cbn [calls_about filter about k_id].
      destruct (Nat.eqb_spec k0 k) as [<-|Hne].
      * rewrite Hx0 in Hx. injection Hx as <-. assert (held = true) as -> by (apply H2; eauto).
        exists (S c), true. split; [apply shape_listen; assumption|]. split; [assumption|congruence].
      * exists c, held. rewrite app_nil_r. auto.
    + intros k Hk. rewrite calls_about_app, Hnew by assumption. cbn [calls_about filter about k_id app].
      apply Hkn in Ei. rewrite (proj2 (Nat.eqb_neq k0 k)) by lia. reflexivity.
  - (* ODestroy *)
    pose proof (Hobj i) as Hi.
    assert (st' = upd st i Absent /\ n' = n /\ st i <> Absent) as (-> & -> & Hna).
    { destruct (st i); try discriminate; injection Hleg as <- <-; repeat split; congruence. }
    assert (forall s', h_count s' = n -> h_objs s' = upd (h_objs s) i None ->
              (forall k x, nth_error infos k = Some x ->
                 exists c held, calls_about k (h_log s') = shape k x c held /\
                   (held = true <-> exists j, upd st i Absent j = Holds k) /\ (i_threw x = true -> c = 0)) ->
              (forall k, n <= k -> calls_about k (h_log s') = []) -> hinv infos s' (upd st i Absent) n) as Hmk.
    { intros s' E1 E2 E3 E4. unfold hinv. rewrite E2. split; [assumption|]. split; [assumption|]. split; [|split; [|split]]; auto.
      - intros q. unfold upd. destruct (Nat.eqb_spec q i); [reflexivity|apply Hobj].
      - intros a b k. unfold upd. destruct (Nat.eqb_spec a i), (Nat.eqb_spec b i); intros F1 F2; try discriminate. eauto. }
    assert (forall k, st i <> Holds k -> ((exists q, st q = Holds k) <-> (exists q, upd st i Absent q = Holds k))) as Hother.
    { intros k Hk. split; intros (q & Eq).
      - exists q. rewrite upd_other; [assumption|]. intros ->. congruence.
      - destruct (Nat.eq_dec q i) as [->|Hq]; [rewrite upd_same in Eq; discriminate|].
        rewrite upd_other in Eq by assumption. eauto. }
    destruct (st i) as [|k0|] eqn:Ei; [congruence| |].
    + destruct Hi as (x0 & Hx0 & Ht0 & Ho). rewrite Ho.
      assert (~ exists q, upd st i Absent q = Holds k0) as Hgone.
      { intros (q & Eq). destruct (Nat.eq_dec q i) as [->|Hq]; [rewrite upd_same in Eq; discriminate|].
        rewrite upd_other in Eq by assumption. apply Hq. eauto. }
      destruct (i_l x0) as [l|] eqn:El.
      * eexists. split; [reflexivity|]. split; [|reflexivity]. apply Hmk; cbn [h_count h_objs h_log]; auto.
        -- intros k x Hx. destruct (Hlog k x Hx) as (c & held & H1 & H2 & H3).
           rewrite calls_about_app, H1. cbn [calls_about filter about k_id].
           destruct (Nat.eqb_spec k0 k) as [<-|Hne].
           ++ rewrite Hx0 in Hx. injection Hx as <-. assert (held = true) as -> by (apply H2; eauto).
              exists c, false. split; [apply shape_destroy; assumption|]. split; [|assumption].
              split; [discriminate|]. intros Hg. now destruct Hgone.
           ++ exists c, held. rewrite app_nil_r. split; [reflexivity|]. split; [|assumption].
              rewrite H2. apply Hother. congruence.
        -- intros k Hk. rewrite calls_about_app, Hnew by assumption. cbn [calls_about filter about k_id app].
           apply Hkn in Ei. rewrite (proj2 (Nat.eqb_neq k0 k)) by lia. reflexivity.
      * eexists. split; [reflexivity|]. split; [|reflexivity]. apply Hmk; cbn [h_count h_objs h_log]; auto.
        intros k x Hx. destruct (Hlog k x Hx) as (c & held & H1 & H2 & H3).
        destruct (Nat.eq_dec k0 k) as [<-|Hne].
        -- rewrite Hx0 in Hx. injection Hx as <-. exists c, false. split; [rewrite H1; now apply shape_none|].
           split; [|assumption]. split; [discriminate|]. intros Hg. now destruct Hgone.
        -- exists c, held. split; [assumption|]. split; [|assumption]. rewrite H2. apply Hother. congruence.
    + rewrite Hi. eexists. split; [reflexivity|]. split; [|reflexivity]. apply Hmk; cbn [h_count h_objs h_log]; auto.
      intros k x Hx. destruct (Hlog k x Hx) as (c & held & H1 & H2 & H3).
      exists c, held. split; [assumption|]. split; [|assumption]. rewrite H2. apply Hother. congruence.
Qed.

Fixpoint infos_run (l : option nat) (ops : list hop) (infos : list info) : list info :=
  match ops with
  | [] => infos
  | o :: r => infos_run (last_listener l [o]) r (infos_step l o infos)
  end.

Lemma hrun_inv ops : forall infos s st n st' n',
  hinv infos s st n ->
  legal (h_listener s) ops st n = Some (st', n') ->
  exists s', hrun ops s = Some s' /\ hinv (infos_run (h_listener s) ops infos) s' st' n'.
Proof.
  induction ops as [|o ops IH]; intros infos s st n st' n' Hi Hl.
  - cbn in Hl. injection Hl as <- <-. exists s. auto.
  - cbn [legal] in Hl.
    destruct (legal1 _ o st n) as [[st1 n1]|] eqn:E1; [|discriminate].
    destruct (hstep_inv infos s st n o st1 n1 Hi) as (s1 & Hs & Hi1 & Hl1).
    { destruct (h_listener s); exact E1. }
    cbn [hrun]. rewrite Hs. cbn [infos_run]. rewrite <- Hl1 in *. eapply IH; eassumption.
Qed.

Lemma hinit_inv : hinv [] hinit (fun _ => Absent) 0.
Proof.
  unfold hinv, hinit. cbn. repeat split; auto; try discriminate.
  intros k x Hx. destruct k; discriminate.
Qed.

Lemma infos_run_grow ops : forall l infos, exists more, infos_run l ops infos = infos ++ more.
Proof.
  induction ops as [|o ops IH]; intros l infos; cbn [infos_run].
  - exists []. now rewrite app_nil_r.
  - destruct (IH (last_listener l [o]) (infos_step l o infos)) as (more & E). rewrite E.
    destruct o; cbn [infos_step]; eauto. rewrite <- app_assoc. eauto.
Qed.

Lemma infos_run_app a : forall b l infos, infos_run l (a ++ b) infos = infos_run (last_listener l a) b (infos_run l a infos).
Proof.
  induction a as [|o a IH]; intros b l infos; [reflexivity|].
  cbn [app infos_run]. rewrite IH. destruct o; reflexivity.
Qed.

Lemma infos_run_length ops : forall l infos, length (infos_run l ops infos) = length infos + handled ops.
Proof.
  induction ops as [|o ops IH]; intros l infos; cbn [infos_run].
  - cbn. lia.
  - rewrite IH. unfold handled. destruct o; cbn [filter is_handle infos_step]; rewrite ?app_length; cbn; lia.
Qed.

(** C42.  For every history of the application and of the C++ runtime that follows the rules for objects of a
    movable type: no undefined behaviour; and for every connection handled in it while a listener was installed
    (unless onAfterCreate threw), the calls about its socket are: onAfterCreate once, first, with the listener,
    parameters, connection (and no masking); then only listening; then onBeforeDestroy exactly once, as the last
    call, as soon as no task object holds the connection any more, and not before. *)
Theorem C42_paired : forall (before after : list hop) (i conn p : nat) (st : nat -> ost) (n l : nat),
  legal None (before ++ OHandle i conn p false :: after) (fun _ => Absent) 0 = Some (st, n) ->
  last_listener None before = Some l ->
  exists s c held,
    hrun (before ++ OHandle i conn p false :: after) hinit = Some s /\
    let k := handled before in
    let sock := Socket k conn false in
    calls_about k (h_log s) =
      EvAfterCreate l sock p :: repeat (EvListen sock) c ++ (if held : bool then [] else [EvBeforeDestroy l sock]) /\
    (held = true <-> exists j, st j = Holds k).
Proof.
  intros before after i conn p st n l Hleg Hl.
  destruct (hrun_inv _ [] hinit (fun _ => Absent) 0 st n hinit_inv Hleg) as (s & Hs & (_ & _ & _ & _ & Hlog & _)).
  rewrite infos_run_app in Hlog. cbn [h_listener hinit infos_run infos_step] in Hlog. rewrite Hl in Hlog.
  set (I0 := infos_run None before []) in *.
  assert (length I0 = handled before) as HI0 by (unfold I0; rewrite infos_run_length; reflexivity).
  destruct (infos_run_grow after (last_listener (Some l) [OHandle i conn p false])
              (I0 ++ [Info (Some l) conn p false])) as (more & Em).
  cbn [andb] in Hlog. rewrite Em in Hlog.
  destruct (Hlog (handled before) (Info (Some l) conn p false)) as (c & held & H1 & H2 & _).
  { rewrite <- app_assoc, nth_error_app2, HI0, Nat.sub_diag by lia. reflexivity. }
  exists s, c, held. split; [exact Hs|]. split; [|exact H2].
  rewrite H1. unfold shape. cbn [i_l i_conn i_p i_threw]. rewrite orb_false_r. reflexivity.
Qed.

(** Once every task object has been destroyed: exactly one onBeforeDestroy, after all listening. *)
Theorem C42_destroyed : forall (before after : list hop) (i conn p : nat) (st : nat -> ost) (n l : nat),
  legal None (before ++ OHandle i conn p false :: after) (fun _ => Absent) 0 = Some (st, n) ->
  last_listener None before = Some l ->
  (forall j, st j = Absent) ->
  exists s c,
    hrun (before ++ OHandle i conn p false :: after) hinit = Some s /\
    let sock := Socket (handled before) conn false in
    calls_about (handled before) (h_log s) =
      EvAfterCreate l sock p :: repeat (EvListen sock) c ++ [EvBeforeDestroy l sock].
Proof.
  intros before after i conn p st n l Hleg Hl Hall.
  destruct (C42_paired before after i conn p st n l Hleg Hl) as (s & c & held & Hs & Hc & Hh).
  exists s, c. split; [assumption|]. destruct held; [|exact Hc].
  destruct (proj1 Hh eq_refl) as (j & Ej). rewrite Hall in Ej. discriminate.
Qed.

(** No history that follows the rules reaches undefined behaviour, and no call is ever made about a
    connection that was not handled. *)
Theorem C42_safe : forall (ops : list hop) st n,
  legal None ops (fun _ => Absent) 0 = Some (st, n) ->
  exists s, hrun ops hinit = Some s /\ n = handled ops /\ forall k, n <= k -> calls_about k (h_log s) = [].
Proof.
  intros ops st n Hleg.
  destruct (hrun_inv ops [] hinit (fun _ => Absent) 0 st n hinit_inv Hleg) as (s & Hs & (Hc & Hlen & _ & _ & _ & Hnew)).
  exists s. split; [assumption|]. split; [|assumption].
  rewrite infos_run_length in Hlen. cbn in Hlen. lia.
Qed.

(** Without a listener there are no callbacks; the connection is listened to all the same. *)
Theorem C42_no_listener : forall (before after : list hop) (i conn p : nat) (t : bool) (st : nat -> ost) (n : nat),
  legal None (before ++ OHandle i conn p t :: after) (fun _ => Absent) 0 = Some (st, n) ->
  last_listener None before = None ->
  exists s c,
    hrun (before ++ OHandle i conn p t :: after) hinit = Some s /\
    calls_about (handled before) (h_log s) = repeat (EvListen (Socket (handled before) conn false)) c.
Proof.
  intros before after i conn p t st n Hleg Hl.
  destruct (hrun_inv _ [] hinit (fun _ => Absent) 0 st n hinit_inv Hleg) as (s & Hs & (_ & _ & _ & _ & Hlog & _)).
  rewrite infos_run_app in Hlog. cbn [h_listener hinit infos_run infos_step] in Hlog. rewrite Hl in Hlog.
  set (I0 := infos_run None before []) in *.
  assert (length I0 = handled before) as HI0 by (unfold I0; rewrite infos_run_length; reflexivity).
  destruct (infos_run_grow after (last_listener None [OHandle i conn p t])
              (I0 ++ [Info None conn p (t && is_some (@None nat))])) as (more & Em).
  rewrite Em in Hlog.
  destruct (Hlog (handled before) (Info None conn p (t && is_some (@None nat)))) as (c & held & H1 & H2 & _).
  { rewrite <- app_assoc, nth_error_app2, HI0, Nat.sub_diag by lia. reflexivity. }
  exists s, c. split; [exact Hs|]. rewrite H1. reflexivity.
Qed.

(** The move assignment operator of the task, applied to a task that still holds a connection, loses that
    connection's onBeforeDestroy, in every history and whatever happens afterwards (no standard library does
    this with a thread's function object).  [after] may break the rules for objects as well. *)
Definition gone (k : nat) (s : hstate) : Prop :=
  k < h_count s /\ forall i t sock, h_objs s i = Some t -> t_socket t = Some sock -> k_id sock <> k.

Lemma gone_step k o s s' : gone k s -> hstep o s = Some s' ->
  gone k s' /\ calls_about k (h_log s') = calls_about k (h_log s).
Proof.
  intros [Hn Hg] Hs.
  assert (forall e, about k e = false -> calls_about k (h_log s ++ [e]) = calls_about k (h_log s)) as L.
  { intros e He. rewrite calls_about_app. cbn [calls_about filter]. rewrite He. apply app_nil_r. }
  destruct o as [l'|i conn p throws|i j|i j|i|i]; cbn [hstep] in Hs.
  - injection Hs as <-. split; [split; cbn [h_count h_objs]; auto|reflexivity].
  - assert (Nat.eqb (h_count s) k = false) as Hne by (apply Nat.eqb_neq; lia).
    assert (forall q u sk x, upd (h_objs s) i (Some (Task x (Some (Socket (h_count s) conn false)))) q = Some u ->
              t_socket u = Some sk -> k_id sk <> k) as Ho.
    { intros q u sk x. unfold upd. destruct (Nat.eqb q i); [|apply Hg]. intros E1 E2. injection E1 as <-. injection E2 as <-. cbn [k_id]. lia. }
    destruct (h_listener s) as [l|]; [destruct throws|]; injection Hs as <-; unfold gone; cbn [h_count h_objs h_log].
    + split; [split; [lia|exact Hg]|]. now apply L.
    + split; [split; [lia|]|now apply L]. intros q u sk. apply Ho.
    + split; [split; [lia|]|reflexivity]. intros q u sk. apply Ho.
  - destruct (h_objs s i) as [t0|] eqn:Ei; [|discriminate]. injection Hs as <-. unfold gone. cbn [h_count h_objs h_log].
    split; [split; [exact Hn|]|reflexivity]. intros q u sk. unfold upd.
    destruct (Nat.eqb q i); [intros E; injection E as <-; discriminate|].
    destruct (Nat.eqb q j); [intros E; injection E as <-; exact (Hg _ _ sk Ei)|apply Hg].
  - destruct (h_objs s i) as [t0|] eqn:Ei; [|discriminate]. destruct (h_objs s j); [|discriminate].
    injection Hs as <-. unfold gone. cbn [h_count h_objs h_log].
    split; [split; [exact Hn|]|reflexivity]. intros q u sk. unfold upd.
    destruct (Nat.eqb q i); [intros E; injection E as <-; discriminate|].
    destruct (Nat.eqb q j); [intros E; injection E as <-; exact (Hg _ _ sk Ei)|apply Hg].
  - destruct (h_objs s i) as [[x [sk|]]|] eqn:Ei; try discriminate. injection Hs as <-. unfold gone. cbn [h_count h_objs h_log].
    split; [split; [exact Hn|exact Hg]|]. apply L. cbn [about]. apply Nat.eqb_neq. exact (Hg _ _ sk Ei eq_refl).
  - assert (forall q u sk, upd (h_objs s) i None q = Some u -> t_socket u = Some sk -> k_id sk <> k) as Ho.
    { intros q u sk. unfold upd. destruct (Nat.eqb q i); [discriminate|apply Hg]. }
    destruct (h_objs s i) as [[[l|] [sk|]]|] eqn:Ei; try discriminate; injection Hs as <-; unfold gone; cbn [h_count h_objs h_log];
      (split; [split; [exact Hn|exact Ho]|]); try reflexivity.
    apply L. cbn [about]. apply Nat.eqb_neq. exact (Hg _ _ sk Ei eq_refl).
Qed.

Lemma gone_run k ops : forall s s', gone k s -> hrun ops s = Some s' -> calls_about k (h_log s') = calls_about k (h_log s).
Proof.
  induction ops as [|o ops IH]; intros s s' Hg Hr; cbn [hrun] in Hr.
  - now injection Hr as <-.
  - destruct (hstep o s) as [s1|] eqn:E; [|discriminate]. destruct (gone_step k o s s1 Hg E) as [G L].
    rewrite <- L. now apply IH.
Qed.

Lemma hrun_app a : forall b s, hrun (a ++ b) s = match hrun a s with Some s' => hrun b s' | None => None end.
Proof. induction a as [|o a IH]; intros b s; [reflexivity|]. cbn [app hrun]. destruct (hstep o s); [apply IH|reflexivity]. Qed.

Theorem C42_assign_over_holder_refuted : forall (before middle : list hop) (a conn p : nat) (st : nat -> ost) (n l i j : nat),
  let k := handled before in
  legal None (before ++ OHandle a conn p false :: middle) (fun _ => Absent) 0 = Some (st, n) ->
  last_listener None before = Some l ->
  st j = Holds k -> st i <> Absent -> i <> j ->
  exists c, forall after s,
    (after = [] -> exists s0, hrun ((before ++ OHandle a conn p false :: middle) ++ OAssign i j :: after) hinit = Some s0) /\
    (hrun ((before ++ OHandle a conn p false :: middle) ++ OAssign i j :: after) hinit = Some s ->
     let sock := Socket k conn false in
     calls_about k (h_log s) = EvAfterCreate l sock p :: repeat (EvListen sock) c).
Proof.
  intros before middle a conn p st n l i j k Hleg Hl Hj Hi Hij.
  destruct (C42_paired before middle a conn p st n l Hleg Hl) as (s1 & c & held & Hr & Hcalls & Hheld).
  cbn zeta in Hcalls, Hheld. assert (held = true) as -> by (apply Hheld; exists j; exact Hj).
  rewrite app_nil_r in Hcalls.
  destruct (hrun_inv _ [] hinit (fun _ => Absent) 0 st n hinit_inv Hleg) as (s1' & Hr' & Hinv).
  rewrite Hr in Hr'. injection Hr' as <-. destruct Hinv as (Hc & Hlen & Hobj & Huq & _).
  pose proof (Hobj j) as Oj. rewrite Hj in Oj. destruct Oj as (x & Hx & _ & Oj).
  assert (exists t, h_objs s1 i = Some t /\ forall sk, t_socket t = Some sk -> k_id sk <> k) as (t & Oi & Ht).
  { pose proof (Hobj i) as Oi. destruct (st i) as [|k'|] eqn:Ei; [congruence| |].
    - destruct Oi as (y & _ & _ & Oi). eexists. split; [exact Oi|]. intros sk E. injection E as <-. cbn [k_id].
      intros ->. apply Hij. now apply (Huq i j k).
    - eexists. split; [exact Oi|]. discriminate. }
  exists c. intros after s.
  assert (hstep (OAssign i j) s1 = Some (HState (h_listener s1) (upd (upd (h_objs s1) j (Some t)) i (Some (Task None None))) (h_count s1) (h_log s1))) as Hstep.
  { cbn [hstep]. now rewrite Oi, Oj. }
  rewrite hrun_app, Hr. cbn [hrun]. rewrite Hstep. split.
  - intros ->. cbn [hrun]. eauto.
  - intros Hs. cbn zeta. fold k in Hcalls. rewrite <- Hcalls.
    apply (gone_run k) in Hs; [exact Hs|]. unfold gone. cbn [h_count h_objs]. split.
    + apply nth_error_lt in Hx. lia.
    + intros q u sk. unfold upd. destruct (Nat.eqb_spec q i) as [->|Hqi]; [intros E; injection E as <-; discriminate|].
      destruct (Nat.eqb_spec q j) as [->|Hqj]; [intros E; injection E as <-; apply Ht|].
      intros Eq Esk. pose proof (Hobj q) as Oq. destruct (st q) as [|k'|] eqn:Es.
      * congruence.
      * destruct Oq as (y & _ & _ & Oq). rewrite Oq in Eq. injection Eq as <-. injection Esk as <-. cbn [k_id].
        intros ->. apply Hqj. now apply (Huq q j k).
      * rewrite Oq in Eq. injection Eq as <-. discriminate.
Qed.

Example C42_assign_nonvacuous :
  (exists st n, legal None ([OSetListener (Some 7); OHandle 0 10 1 false] ++ OHandle 1 11 2 false :: []) (fun _ => Absent) 0 = Some (st, n)
     /\ st 1 = Holds 1 /\ st 0 = Holds 0) /\
  exists s, hrun [OSetListener (Some 7); OHandle 0 10 1 false; OHandle 1 11 2 false; OAssign 0 1; ODestroy 0; ODestroy 1] hinit
            = Some s /\
            calls_about 1 (h_log s) = [EvAfterCreate 7 (Socket 1 11 false) 2].
Proof. split; [eexists _, _; split; [reflexivity|split; reflexivity]|]. eexists. split; reflexivity. Qed.

(** What libstdc++ does: the temporary is moved into the thread state (twice), run there, and all are destroyed. *)
Definition thread_history : list hop :=
  [OSetListener (Some 7); OHandle 0 10 1 false; OMove 0 1; OMove 1 2; ODestroy 1; ODestroy 0; ORun 2; ODestroy 2].
Example C42_nonvacuous :
  (exists st n, legal None ([OSetListener (Some 7)] ++ OHandle 0 10 1 false :: skipn 2 thread_history) (fun _ => Absent) 0 = Some (st, n)
     /\ forall j, st j = Absent) /\
  option_map h_log (hrun thread_history hinit) =
    Some [EvAfterCreate 7 (Socket 0 10 false) 1; EvListen (Socket 0 10 false); EvBeforeDestroy 7 (Socket 0 10 false)].
Proof.
  split; [|reflexivity]. eexists _, _. split; [reflexivity|].
  intros j. destruct j as [|[|[|j]]]; reflexivity.
Qed.

(* ------------------------------------------------------------------------------------- *)
(** * C43 *)

Definition ashape (k : nat) (x : info) (held : bool) : list lev :=
  let s := Socket k (i_conn x) false in
  match i_l x with
  | Some l => EvAfterCreate l s (i_p x) :: (if i_threw x then [] else [EvListen s]) ++ (if held then [] else [EvBeforeDestroy l s])
  | None => [EvListen s]
  end.

Definition ainv (infos : list info) (cre : nat -> option (nat * nat * option nat)) (s : astate) (st : nat -> cst) (n : nat) : Prop :=
  a_count s = n /\ length infos = n /\
  (forall i, match st i with
             | CAbsent => a_objs s i = None
             | CNew => exists conn p l, cre i = Some (conn, p, l) /\ a_objs s i = Some (SCor conn p l None)
             | CStarted k => exists x, nth_error infos k = Some x /\
                               a_objs s i = Some (SCor (i_conn x) (i_p x) (i_l x) (Some (Socket k (i_conn x) false)))
             end) /\
  (forall i j k, st i = CStarted k -> st j = CStarted k -> i = j) /\
  (forall k x, nth_error infos k = Some x ->
     exists held, calls_about k (a_log s) = ashape k x held /\ (held = true <-> exists i, st i = CStarted k)) /\
  (forall k, n <= k -> calls_about k (a_log s) = []).

Definition cre_step (l : option nat) (o : aop) (cre : nat -> option (nat * nat * option nat)) :=
  match o with
  | AHandle i conn p => upd cre i (Some (conn, p, l))
  | _ => cre
  end.
Definition ainfos_step (o : aop) (cre : nat -> option (nat * nat * option nat)) (infos : list info) : list info :=
  match o with
  | AAct i t => match cre i with Some (conn, p, l) => infos ++ [Info l conn p t] | None => infos end
  | _ => infos
  end.
Definition lis_step (l : option nat) (o : aop) : option nat := match o with ASetListener l' => l' | _ => l end.

Lemma acstep_inv infos cre s st n o st' n' :
  ainv infos cre s st n ->
  alegal1 o st n = Some (st', n') ->
  exists s', acstep o s = Some s' /\ ainv (ainfos_step o cre infos) (cre_step (a_listener s) o cre) s' st' n' /\
             a_listener s' = lis_step (a_listener s) o.
Proof.
  intros (Hc & Hl & Hobj & Huq & Hlog & Hnew) Hleg.
  assert (forall i k, st i = CStarted k -> k < n) as Hkn.
  { intros i k E. specialize (Hobj i). rewrite E in Hobj. destruct Hobj as (x & Hx & _).
    apply nth_error_lt in Hx. lia. }
  destruct o as [l'|i conn p|i t|i]; cbn [alegal1 acstep ainfos_step cre_step lis_step] in *.
  - injection Hleg as <- <-. eexists. split; [reflexivity|]. split; [|reflexivity].
    unfold ainv. cbn [a_count a_objs a_log]. repeat split; auto.
  - destruct (st i) eqn:Ei; try discriminate. injection Hleg as <- <-.
    eexists. split; [reflexivity|]. split; [|reflexivity].
    unfold ainv. cbn [a_count a_objs a_log]. split; [assumption|]. split; [assumption|]. split; [|split; [|split]].
    + intros q. unfold upd. destruct (Nat.eqb_spec q i); [eauto 10|]. apply Hobj.
    + intros a b k. unfold upd. destruct (Nat.eqb_spec a i), (Nat.eqb_spec b i); intros F1 F2; try discriminate. eauto.
    + intros k x Hx. destruct (Hlog k x Hx) as (held & H1 & H2). exists held. split; [assumption|].
      rewrite H2. split; intros (q & Eq).
      * exists q. rewrite upd_other; [assumption|]. intros ->. congruence.
      * destruct (Nat.eq_dec q i) as [->|Hq]; [rewrite upd_same in Eq; discriminate|].
        rewrite upd_other in Eq by assumption. eauto.
    + assumption.
  - destruct (st i) eqn:Ei; try discriminate. injection Hleg as <- <-.
    pose proof (Hobj i) as Hi. rewrite Ei in Hi. destruct Hi as (conn & p & l & Hcre & Ho). rewrite Ho, Hcre.
    cbn [c_conn c_params c_listener c_socket]. set (sock := Socket (a_count s) conn false).
    set (x0 := Info l conn p t).
    assert (exists log', (match l with
              | Some l0 => Some (AState (a_listener s) (upd (a_objs s) i (Some (SCor conn p l (Some sock)))) (S (a_count s))
                             (if t then a_log s ++ [EvAfterCreate l0 sock p] else (a_log s ++ [EvAfterCreate l0 sock p]) ++ [EvListen sock]))
              | None => Some (AState (a_listener s) (upd (a_objs s) i (Some (SCor conn p l (Some sock)))) (S (a_count s)) (a_log s ++ [EvListen sock]))
              end) = Some (AState (a_listener s) (upd (a_objs s) i (Some (SCor conn p l (Some sock)))) (S (a_count s)) log')
              /\ (forall k, k <> n -> calls_about k log' = calls_about k (a_log s))
              /\ calls_about n log' = ashape n x0 true) as (log' & El & Hoth & Hthis).
    { assert (forall k, k <> n -> Nat.eqb (a_count s) k = false) as Hk by (intros k Hk; apply Nat.eqb_neq; lia).
      destruct l as [l0|]; [destruct t|]; (eexists; split; [reflexivity|]; split; [intros k Hne|]);
        rewrite ?calls_about_app; cbn [calls_about filter about sock k_id];
        rewrite ?(Hk k Hne), ?app_nil_r; try reflexivity;
        rewrite ?Hnew by lia; unfold ashape, x0, sock; cbn [i_l i_conn i_p i_threw app about k_id filter];
        rewrite Hc, Nat.eqb_refl; reflexivity. }
    rewrite El. eexists. split; [reflexivity|]. split; [|reflexivity].
    unfold ainv. cbn [a_count a_objs a_log]. split; [lia|]. split; [rewrite app_length; cbn; lia|]. split; [|split; [|split]].
    + intros q. unfold upd. destruct (Nat.eqb_spec q i) as [->|Hq].
      * exists x0. split; [apply nth_error_snoc; right; split; [lia|reflexivity]|].
        unfold x0, sock. cbn [i_l i_conn i_p]. rewrite Hc. reflexivity.
      * specialize (Hobj q). destruct (st q); auto.
        destruct Hobj as (x & Hx & Hr). exists x. split; [apply nth_error_snoc; auto|assumption].
    + intros a b k. unfold upd. destruct (Nat.eqb_spec a i), (Nat.eqb_spec b i); intros F1 F2; try congruence; eauto.
      * injection F1 as <-. apply Hkn in F2. lia.
      * injection F2 as <-. apply Hkn in F1. lia.
    + intros k x Hx. apply nth_error_snoc in Hx as [Hx|[-> ->]].
      * assert (k < n) by (apply nth_error_lt in Hx; lia).
        destruct (Hlog k x Hx) as (held & H1 & H2). exists held. split; [rewrite Hoth by lia; assumption|].
        rewrite H2. split; intros (q & Eq).
        -- exists q. rewrite upd_other; [assumption|]. intros ->. congruence.
        -- destruct (Nat.eq_dec q i) as [->|Hq]; [rewrite upd_same in Eq; injection Eq as <-; lia|].
           rewrite upd_other in Eq by assumption. eauto.
      * exists true. rewrite Hl. split; [assumption|]. split; [|reflexivity].
        intros _. exists i. now rewrite upd_same.
    + intros k Hk. rewrite Hoth by lia. apply Hnew. lia.
  - assert (st' = upd st i CAbsent /\ n' = n /\ st i <> CAbsent) as (-> & -> & Hna).
    { destruct (st i); try discriminate; injection Hleg as <- <-; repeat split; congruence. }
    pose proof (Hobj i) as Hi.
    assert (forall s', a_count s' = n -> a_objs s' = upd (a_objs s) i None ->
              (forall k x, nth_error infos k = Some x ->
                 exists held, calls_about k (a_log s') = ashape k x held /\
                   (held = true <-> exists j, upd st i CAbsent j = CStarted k)) ->
              (forall k, n <= k -> calls_about k (a_log s') = []) -> ainv infos cre s' (upd st i CAbsent) n) as Hmk.
    { intros s' E1 E2 E3 E4. unfold ainv. rewrite E2. split; [assumption|]. split; [assumption|]. split; [|split; [|split]]; auto.
      - intros q. unfold upd. destruct (Nat.eqb_spec q i); [reflexivity|apply Hobj].
      - intros a b k. unfold upd. destruct (Nat.eqb_spec a i), (Nat.eqb_spec b i); intros F1 F2; try discriminate. eauto. }
    assert (forall k, st i <> CStarted k -> ((exists q, st q = CStarted k) <-> (exists q, upd st i CAbsent q = CStarted k))) as Hother.
    { intros k Hk. split; intros (q & Eq).
      - exists q. rewrite upd_other; [assumption|]. intros ->. congruence.
      - destruct (Nat.eq_dec q i) as [->|Hq]; [rewrite upd_same in Eq; discriminate|].
        rewrite upd_other in Eq by assumption. eauto. }
    destruct (st i) as [| |k0] eqn:Ei; [congruence| |].
    + destruct Hi as (conn & p & l & Hcre & Ho). rewrite Ho. cbn [c_listener c_socket].
      eexists. split; [reflexivity|]. split; [|reflexivity]. apply Hmk; cbn [a_count a_objs a_log]; auto.
      * intros k x Hx. destruct (Hlog k x Hx) as (held & H1 & H2). exists held.
        split; [destruct l; assumption|]. rewrite H2. apply Hother. congruence.
      * intros k Hk. destruct l; apply Hnew; assumption.
    + destruct Hi as (x0 & Hx0 & Ho). rewrite Ho. cbn [c_listener c_socket].
      assert (~ exists q, upd st i CAbsent q = CStarted k0) as Hgone.
      { intros (q & Eq). destruct (Nat.eq_dec q i) as [->|Hq]; [rewrite upd_same in Eq; discriminate|].
        rewrite upd_other in Eq by assumption. apply Hq. eauto. }
      eexists. split; [reflexivity|]. split; [|reflexivity]. apply Hmk; cbn [a_count a_objs a_log]; auto.
      * intros k x Hx. destruct (Hlog k x Hx) as (held & H1 & H2).
        destruct (Nat.eq_dec k0 k) as [<-|Hne].
        -- rewrite Hx0 in Hx. injection Hx as <-. assert (held = true) as -> by (apply H2; eauto).
           exists false. split; [|split; [discriminate|intros Hg; now destruct Hgone]].
           unfold ashape in *. destruct (i_l x0) as [l|]; [|assumption].
           rewrite calls_about_app, H1. cbn [calls_about filter about k_id]. rewrite Nat.eqb_refl.
           cbn [app]. rewrite app_nil_r. reflexivity.
        -- exists held. split.
           ++ destruct (i_l x0); [|assumption]. rewrite calls_about_app, H1. cbn [calls_about filter about k_id].
              rewrite (proj2 (Nat.eqb_neq k0 k)) by assumption. apply app_nil_r.
           ++ rewrite H2. apply Hother. congruence.
      * intros k Hk. destruct (i_l x0); [|apply Hnew; assumption].
        rewrite calls_about_app, Hnew by assumption. cbn [calls_about filter about k_id app].
        apply Hkn in Ei. rewrite (proj2 (Nat.eqb_neq k0 k)) by lia. reflexivity.
Qed.

Fixpoint arun_spec (l : option nat) (ops : list aop) (cre : nat -> option (nat * nat * option nat)) (infos : list info)
  : option nat * (nat -> option (nat * nat * option nat)) * list info :=
  match ops with
  | [] => (l, cre, infos)
  | o :: r => arun_spec (lis_step l o) r (cre_step l o cre) (ainfos_step o cre infos)
  end.

Lemma arun_inv ops : forall infos cre s st n st' n',
  ainv infos cre s st n ->
  alegal ops st n = Some (st', n') ->
  exists s', arun ops s = Some s' /\
    ainv (snd (arun_spec (a_listener s) ops cre infos)) (snd (fst (arun_spec (a_listener s) ops cre infos))) s' st' n'.
Proof.
  induction ops as [|o ops IH]; intros infos cre s st n st' n' Hi Hl.
  - cbn in Hl. injection Hl as <- <-. exists s. auto.
  - cbn [alegal] in Hl. destruct (alegal1 o st n) as [[st1 n1]|] eqn:E1; [|discriminate].
    destruct (acstep_inv infos cre s st n o st1 n1 Hi E1) as (s1 & Hs & Hi1 & Hl1).
    cbn [arun arun_spec]. rewrite Hs, <- Hl1. eapply IH; eassumption.
Qed.

Lemma ainit_inv : ainv [] (fun _ => None) ainit (fun _ => CAbsent) 0.
Proof.
  unfold ainv, ainit. cbn. repeat split; auto; try discriminate.
  intros k x Hx. destruct k; discriminate.
Qed.

Lemma arun_spec_creation i ops : forall l cre infos,
  snd (fst (arun_spec l ops cre infos)) i = creation i l (cre i) ops.
Proof.
  induction ops as [|o ops IH]; intros l cre infos; [reflexivity|].
  cbn [arun_spec]. rewrite IH. destruct o; cbn [creation cre_step lis_step]; try reflexivity.
  unfold upd. rewrite (Nat.eqb_sym i i0). reflexivity.
Qed.

Lemma arun_spec_app a : forall b l cre infos,
  arun_spec l (a ++ b) cre infos =
  (let '(l1, cre1, infos1) := arun_spec l a cre infos in arun_spec l1 b cre1 infos1).
Proof.
  induction a as [|o a IH]; intros b l cre infos; [reflexivity|]. cbn [app arun_spec]. apply IH.
Qed.

Lemma arun_spec_grow ops : forall l cre infos, exists more, snd (arun_spec l ops cre infos) = infos ++ more.
Proof.
  induction ops as [|o ops IH]; intros l cre infos; cbn [arun_spec].
  - exists []. now rewrite app_nil_r.
  - destruct (IH (lis_step l o) (cre_step l o cre) (ainfos_step o cre infos)) as (more & E). rewrite E.
    destruct o; cbn [ainfos_step]; eauto. destruct (cre i) as [[[? ?] ?]|]; eauto. rewrite <- app_assoc. eauto.
Qed.

Lemma alegal_started ops : forall st n st' n', alegal ops st n = Some (st', n') -> n' = n + started ops.
Proof.
  induction ops as [|o ops IH]; intros st n st' n' H.
  - cbn in *. injection H as <- <-. lia.
  - cbn [alegal] in H. destruct (alegal1 o st n) as [[st1 n1]|] eqn:E; [|discriminate].
    apply IH in H. unfold started in *. destruct o; cbn [alegal1 filter is_act] in *.
    + injection E as <- <-. assumption.
    + destruct (st i); try discriminate. injection E as <- <-. assumption.
    + destruct (st i); try discriminate. injection E as <- <-. cbn. lia.
    + destruct (st i); try discriminate; injection E as <- <-; assumption.
Qed.

Lemma alegal_app a : forall b st n,
  alegal (a ++ b) st n = match alegal a st n with Some (st', n') => alegal b st' n' | None => None end.
Proof.
  induction a as [|o a IH]; intros b st n; [reflexivity|].
  cbn [app alegal]. destruct (alegal1 o st n) as [[st1 n1]|]; [apply IH|reflexivity].
Qed.

(** C43.  For every history of the application and the executor (which starts every coroutine at most once
    and drops coroutines whenever it likes): if act was called on a coroutine created for [conn] and [p] while
    listener [l] was installed, the calls about its socket are onAfterCreate_NonBlocking once, first, then
    listening (unless onAfterCreate_NonBlocking threw), then onBeforeDestroy_NonBlocking exactly once, last, as
    soon as the coroutine was destroyed, and not before. *)
Theorem C43_paired : forall (before after : list aop) (i conn p l : nat) (throws : bool) (st : nat -> cst) (n : nat),
  alegal (before ++ AAct i throws :: after) (fun _ => CAbsent) 0 = Some (st, n) ->
  creation i None None before = Some (conn, p, Some l) ->
  exists s held,
    arun (before ++ AAct i throws :: after) ainit = Some s /\
    let k := started before in
    let sock := Socket k conn false in
    calls_about k (a_log s) =
      EvAfterCreate l sock p :: (if throws then [] else [EvListen sock]) ++
      (if held : bool then [] else [EvBeforeDestroy l sock]) /\
    (held = true <-> exists j, st j = CStarted k).
Proof.
  intros before after i conn p l throws st n Hleg Hcre.
  destruct (arun_inv _ [] (fun _ => None) ainit (fun _ => CAbsent) 0 st n ainit_inv Hleg) as (s & Hs & (_ & _ & _ & _ & Hlog & _)).
  cbn [a_listener ainit] in Hlog. rewrite arun_spec_app in Hlog.
  rewrite alegal_app in Hleg. destruct (alegal before (fun _ => CAbsent) 0) as [[st1 n1]|] eqn:E1; [|discriminate].
  pose proof (alegal_started _ _ _ _ _ E1) as Hn1. cbn [Nat.add] in Hn1.
  destruct (arun_inv _ [] (fun _ => None) ainit (fun _ => CAbsent) 0 st1 n1 ainit_inv E1) as (s1 & _ & (_ & Hlen & _)).
  pose proof (arun_spec_creation i before None (fun _ => None) []) as Hc. cbv beta in Hc. rewrite Hcre in Hc.
  cbn [a_listener ainit] in Hlen.
  destruct (arun_spec None before (fun _ => None) []) as [[l1 cre1] infos1]. cbn [fst snd] in *.
  cbn [arun_spec ainfos_step] in Hlog. rewrite Hc in Hlog.
  destruct (arun_spec_grow after (lis_step l1 (AAct i throws)) (cre_step l1 (AAct i throws) cre1)
              (infos1 ++ [Info (Some l) conn p throws])) as (more & Em). rewrite Em in Hlog.
  destruct (Hlog (started before) (Info (Some l) conn p throws)) as (held & H1 & H2).
  { rewrite <- app_assoc, nth_error_app2, Hlen, Hn1, Nat.sub_diag by lia. reflexivity. }
  exists s, held. split; [exact Hs|]. split; [|exact H2]. rewrite H1. reflexivity.
Qed.

(** No call is made for a coroutine that was dropped before act was called: all calls are about sockets that an
    act call created.  No history reaches undefined behaviour. *)
Theorem C43_never_without_start : forall (ops : list aop) st n,
  alegal ops (fun _ => CAbsent) 0 = Some (st, n) ->
  exists s, arun ops ainit = Some s /\ (forall k, started ops <= k -> calls_about k (a_log s) = []).
Proof.
  intros ops st n Hleg.
  destruct (arun_inv ops [] (fun _ => None) ainit (fun _ => CAbsent) 0 st n ainit_inv Hleg) as (s & Hs & (_ & _ & _ & _ & _ & Hnew)).
  exists s. split; [assumption|]. apply alegal_started in Hleg. cbn in Hleg. subst n. assumption.
Qed.

(** After the executor has dropped everything, every started coroutine got exactly one
    onBeforeDestroy_NonBlocking. *)
Theorem C43_all_dropped : forall (before after : list aop) (i conn p l : nat) (throws : bool) (st : nat -> cst) (n : nat),
  alegal (before ++ AAct i throws :: after) (fun _ => CAbsent) 0 = Some (st, n) ->
  creation i None None before = Some (conn, p, Some l) ->
  (forall j, st j = CAbsent) ->
  exists s,
    arun (before ++ AAct i throws :: after) ainit = Some s /\
    let sock := Socket (started before) conn false in
    calls_about (started before) (a_log s) =
      EvAfterCreate l sock p :: (if throws then [] else [EvListen sock]) ++ [EvBeforeDestroy l sock].
Proof.
  intros before after i conn p l throws st n Hleg Hcre Hall.
  destruct (C43_paired before after i conn p l throws st n Hleg Hcre) as (s & held & Hs & Hc & Hh).
  exists s. split; [assumption|]. destruct held; [|exact Hc].
  destruct (proj1 Hh eq_refl) as (j & Ej). rewrite Hall in Ej. discriminate.
Qed.

Definition executor_history : list aop :=
  [ASetListener (Some 3); AHandle 0 10 1; AHandle 1 11 2; AAct 0 false; ASetListener None; ADestroy 1; ADestroy 0].
Example C43_nonvacuous :
  (exists st n, alegal ([ASetListener (Some 3); AHandle 0 10 1; AHandle 1 11 2] ++ AAct 0 false :: skipn 4 executor_history)
                       (fun _ => CAbsent) 0 = Some (st, n)) /\
  creation 0 None None [ASetListener (Some 3); AHandle 0 10 1; AHandle 1 11 2] = Some (10, 1, Some 3) /\
  option_map a_log (arun executor_history ainit) =
    Some [EvAfterCreate 3 (Socket 0 10 false) 1; EvListen (Socket 0 10 false); EvBeforeDestroy 3 (Socket 0 10 false)].
Proof. split; [eexists _, _; reflexivity|]. split; reflexivity. Qed.
