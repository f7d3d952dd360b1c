(** One connection of a server, seen on its own. *)
From Verif Require Import Bytes Frame World WebSocket AsyncWebSocket Lifecycle Server SpecServer ProofAsync2.

(** The part of a server's state that concerns connection [i]. *)
Definition part : Type := option nat * option (nat * option nat * bool) * (status * conf) * list seen_ev.
Definition obj_part (o : option scor) : option (nat * option nat * bool) :=
  match o with
  | None => None
  | Some c => Some (c_params c, c_listener c, match c_socket c with Some _ => true | None => false end)
  end.
Definition part_of (i : nat) (s : server) : part := (a_listener (v_life s), obj_part (a_objs (v_life s) i), v_run s i, view i s).

Section Part.
Variable setup : nat -> nat -> option (list ext).
Variable react : nat -> react_t.

Definition pstep (i : nat) (e : vev) (x : part) : part :=
  let '(L, o, r, v) := x in
  match e with
  | VSet l => (l, o, r, v)
  | VConn _ p => (L, Some (p, L, false), r, v)
  | VArrive _ rs => (L, o, (fst r, arrive rs (snd r)), v)
  | VDrop _ =>
    match o with
    | None => x
    | Some (p, l, b) => (L, None, r, v ++ if b : bool then destroyed l else [])
    end
  | VStep _ =>
    match o with
    | None => x
    | Some (p, l, false) =>
      match plan setup l p with
      | None => (L, None, r, v ++ created l p ++ destroyed l)
      | Some xs => (L, Some (p, l, true), (ARun, start_listen (set_sock (c_world (snd r)) (served_sock xs))), v ++ created l p ++ [NListen])
      end
    | Some (p, l, true) =>
      let r' := tick (react i) r in
      if ended (fst r') then (L, None, r', v ++ called (calls_since r r') ++ destroyed l)
      else (L, o, r', v ++ called (calls_since r r'))
    end
  end.

(** Coroutines are about their own connection. *)
Definition own_obj (i : nat) (o : option scor) : Prop :=
  match o with
  | None => True
  | Some c => c_conn c = i /\ match c_socket c with Some k => k_conn k = i | None => True end
  end.
Definition sinv (s : server) : Prop := forall i, own_obj i (a_objs (v_life s) i).

Lemma skipn_app_len {A} (a b : list A) : skipn (length a) (a ++ b) = b.
Proof. induction a; [reflexivity|assumption]. Qed.
Lemma skipn_len {A} (a : list A) : skipn (length a) a = [].
Proof. induction a; [reflexivity|assumption]. Qed.
Lemma upd_same {A} (f : nat -> A) i v : upd f i v i = v.
Proof. unfold upd. now rewrite Nat.eqb_refl. Qed.
Lemma upd_other {A} (f : nat -> A) i j v : j <> i -> upd f i v j = f j.
Proof. unfold upd. intros H. apply Nat.eqb_neq in H. now rewrite H. Qed.

(** What a step of the handler does. *)
Lemma life_set l s : life (ASetListener l) s = Some (Server (AState l (a_objs (v_life s)) (a_count (v_life s)) (a_log (v_life s))) (v_run s) (v_log s)).
Proof. unfold life. cbn [acstep a_log]. now rewrite skipn_len, app_nil_r. Qed.
Lemma life_handle i j p s : life (AHandle i j p) s =
  Some (Server (AState (a_listener (v_life s)) (upd (a_objs (v_life s)) i (Some (SCor j p (a_listener (v_life s)) None))) (a_count (v_life s)) (a_log (v_life s))) (v_run s) (v_log s)).
Proof. unfold life. cbn [acstep a_log]. now rewrite skipn_len, app_nil_r. Qed.
Lemma life_act i t s c : a_objs (v_life s) i = Some c -> exists a,
  life (AAct i t) s = Some (Server a (v_run s) (v_log s ++ map SLife
    (match c_listener c with
     | Some l => EvAfterCreate l (Socket (a_count (v_life s)) (c_conn c) false) (c_params c) :: (if t then [] else [EvListen (Socket (a_count (v_life s)) (c_conn c) false)])
     | None => [EvListen (Socket (a_count (v_life s)) (c_conn c) false)] end))) /\
  a_listener a = a_listener (v_life s) /\
  a_objs a = upd (a_objs (v_life s)) i (Some (SCor (c_conn c) (c_params c) (c_listener c) (Some (Socket (a_count (v_life s)) (c_conn c) false)))).
Proof.
  intros E. unfold life. cbn [acstep]. rewrite E. cbv zeta. destruct (c_listener c) as [l|].
  all: match goal with |- context [AState ?a ?b ?c ?d] => exists (AState a b c d) end.
  all: cbn [a_log a_listener a_objs]; split; [|split; reflexivity].
  - replace (if t then a_log (v_life s) ++ [EvAfterCreate l (Socket (a_count (v_life s)) (c_conn c) false) (c_params c)]
       else (a_log (v_life s) ++ [EvAfterCreate l (Socket (a_count (v_life s)) (c_conn c) false) (c_params c)]) ++ [EvListen (Socket (a_count (v_life s)) (c_conn c) false)])
      with (a_log (v_life s) ++ EvAfterCreate l (Socket (a_count (v_life s)) (c_conn c) false) (c_params c) ::
        (if t then [] else [EvListen (Socket (a_count (v_life s)) (c_conn c) false)])) by (destruct t; [reflexivity|now rewrite <- app_assoc]).
    now rewrite skipn_app_len.
  - now rewrite skipn_app_len.
Qed.
Lemma life_destroy i s c : a_objs (v_life s) i = Some c -> exists a,
  life (ADestroy i) s = Some (Server a (v_run s) (v_log s ++ map SLife
    (match c_listener c, c_socket c with Some l, Some k => [EvBeforeDestroy l k] | _, _ => [] end))) /\
  a_listener a = a_listener (v_life s) /\ a_objs a = upd (a_objs (v_life s)) i None.
Proof.
  intros E. unfold life. cbn [acstep]. rewrite E. cbv zeta.
  match goal with |- context [AState ?a ?b ?c ?d] => exists (AState a b c d) end.
  cbn [a_log a_listener a_objs]. split; [|split; reflexivity].
  destruct (c_listener c) as [l|]; [destruct (c_socket c) as [k|]|]; rewrite ?skipn_app_len, ?skipn_len; reflexivity.
Qed.

Lemma sinv_init ws : sinv (server_init ws).
Proof. intros i. exact I. Qed.

Lemma own_upd i o f : (forall j, own_obj j (f j)) -> own_obj i o -> forall j, own_obj j (upd f i o j).
Proof. intros H Ho j. destruct (Nat.eq_dec j i) as [->|Hj]; [rewrite upd_same; exact Ho|rewrite upd_other by exact Hj; apply H]. Qed.

Lemma view_app i s a l r : view i (Server a r (v_log s ++ l)) = view i s ++ flat_map (seen_of i) l.
Proof. unfold view. cbn [v_log]. apply flat_map_app. Qed.
Lemma view_same i s a r : view i (Server a r (v_log s)) = view i s.
Proof. reflexivity. Qed.
Lemma view_calls i j log : flat_map (seen_of i) (map (fun c => SCall j (fst c) (snd c)) log) = if Nat.eqb j i then called log else [].
Proof.
  induction log as [|e log IH]; cbn [map flat_map seen_of called]; [now destruct (Nat.eqb j i)|]. rewrite IH. destruct (Nat.eqb j i); reflexivity.
Qed.

(** Each step is defined, and is a step of the parts it concerns. *)
Lemma vstep_part e s : sinv s -> exists s', vstep setup react e s = Some s' /\ sinv s' /\
  forall i, part_of i s' = if concerns i e then pstep i e (part_of i s) else part_of i s.
Proof.
  intros HI. destruct e as [l|j p|j|j rs|j]; cbn [vstep concerns].
  - rewrite life_set. eexists. split; [reflexivity|]. split; [exact HI|]. intros i. reflexivity.
  - rewrite life_handle. eexists. split; [reflexivity|]. split.
    + intros i. cbn [v_life a_objs]. apply own_upd; [exact HI|]. split; [reflexivity|exact I].
    + intros i. unfold part_of, pstep. cbn [v_life a_listener a_objs v_run]. rewrite view_same.
      destruct (Nat.eqb_spec j i) as [->|Hj]; [rewrite upd_same; reflexivity|]. rewrite upd_other by congruence. reflexivity.
  - destruct (a_objs (v_life s) j) as [c|] eqn:Eo.
    2: { exists s. split; [reflexivity|]. split; [exact HI|]. intros i. destruct (Nat.eqb_spec j i) as [->|Hj]; [|reflexivity].
         unfold pstep, part_of. rewrite Eo. reflexivity. }
    pose proof (HI j) as Hj0. rewrite Eo in Hj0. destruct Hj0 as [Hc Hk].
    destruct (c_socket c) as [k|] eqn:Ek.
    + cbv zeta. set (r' := tick (react j) (v_run s j)).
      set (s1 := Server (v_life s) (upd (v_run s) j r') (v_log s ++ map (fun c => SCall j (fst c) (snd c)) (calls_since (v_run s j) r'))).
      assert (forall i, view i s1 = view i s ++ if Nat.eqb j i then called (calls_since (v_run s j) r') else []) as HV1.
      { intros i. unfold s1. rewrite view_app, view_calls. reflexivity. }
      change (over (fst r')) with (ended (fst r')). destruct (ended (fst r')) eqn:Een.
      * destruct (life_destroy j s1 c Eo) as (a & Ea & H1 & H2). exists (Server a (v_run s1) (v_log s1 ++ map SLife (match c_listener c, c_socket c with Some l, Some k => [EvBeforeDestroy l k] | _, _ => [] end))).
        split; [exact Ea|]. split; [intros i; cbn [v_life]; rewrite H2; apply own_upd; [exact HI|exact I]|].
        intros i. unfold part_of. rewrite view_app, HV1. cbn [v_life v_run]. rewrite H1, H2. cbn [s1 v_run v_life].
        destruct (Nat.eqb_spec j i) as [->|Hj].
        -- rewrite !upd_same, Eo. cbn [pstep obj_part]. rewrite Ek. cbn zeta. fold r'. rewrite Een. cbn [obj_part]. f_equal.
           rewrite <- app_assoc. f_equal. f_equal. destruct (c_listener c) as [l|]; cbn [map flat_map seen_of destroyed]; [|reflexivity].
           rewrite Hk, Nat.eqb_refl. reflexivity.
        -- rewrite !upd_other by congruence. rewrite app_nil_r. f_equal.
           rewrite Ek. destruct (c_listener c) as [l|]; cbn [map flat_map seen_of]; [|now rewrite app_nil_r].
           rewrite Hk. apply Nat.eqb_neq in Hj. rewrite Hj. cbn [app]. now rewrite app_nil_r.
      * exists s1. split; [reflexivity|]. split; [exact HI|].
        intros i. unfold part_of. rewrite HV1. cbn [s1 v_run v_life].
        destruct (Nat.eqb_spec j i) as [->|Hj].
        -- rewrite upd_same, Eo. cbn [pstep obj_part]. rewrite Ek. cbn zeta. fold r'. rewrite Een. cbn [obj_part]. reflexivity.
        -- rewrite upd_other by congruence. now rewrite app_nil_r.
    + change (at_create setup) with (plan setup). change (fun k x => apply_ext x k) with (fun k x => match x with XStop => set_listening k false | XSetListener l => set_listener k l | XSetConfig m b => set_config k m b end). destruct (plan setup (c_listener c) (c_params c)) as [xs|] eqn:Ep.
      * destruct (life_act j false s c Eo) as (a & Ea & H1 & H2). rewrite Ea.
        eexists. split; [reflexivity|]. split.
        { intros i. cbn [set_run v_life]. rewrite H2. apply own_upd; [exact HI|]. split; assumption. }
        intros i. unfold part_of, set_run. cbn [v_life v_run v_log]. rewrite view_app, H1, H2.
        destruct (Nat.eqb_spec j i) as [->|Hj].
        -- rewrite !upd_same, Eo. cbn [pstep obj_part c_params c_listener c_socket]. rewrite Ek. cbn iota. rewrite Ep. f_equal.
           destruct (c_listener c) as [l|]; cbn [map flat_map seen_of created app k_conn]; rewrite Hc, ?Nat.eqb_refl; reflexivity.
        -- rewrite !upd_other by congruence. f_equal. apply Nat.eqb_neq in Hj.
           destruct (c_listener c) as [l|]; cbn [map flat_map seen_of created app k_conn]; rewrite Hc, ?Hj; cbn [app]; now rewrite app_nil_r.
      * destruct (life_act j true s c Eo) as (a & Ea & H1 & H2). rewrite Ea.
        match type of Ea with _ = Some ?x => set (s1 := x) in * end.
        edestruct (life_destroy j s1) as (a2 & Ea2 & G1 & G2); [cbn [s1 v_life]; rewrite H2; apply upd_same|].
        cbn [c_listener c_socket] in Ea2. rewrite Ea2. eexists. split; [reflexivity|]. split.
        { intros i. cbn [v_life]. rewrite G2. cbn [s1 v_life]. rewrite H2. intros. apply own_upd; [|exact I]. apply own_upd; [exact HI|]. split; assumption. }
        intros i. unfold part_of. rewrite view_app.
        assert (view i s1 = view i s ++ _) as HV1 by apply view_app. rewrite HV1. cbn [v_life v_run]. rewrite G1, G2. cbn [s1 v_life v_run]. rewrite H1, H2.
        destruct (c_listener c) as [l|] eqn:El; [|discriminate].
        destruct (Nat.eqb_spec j i) as [->|Hj].
        -- rewrite !upd_same, Eo. cbn [pstep obj_part c_params c_listener c_socket]. rewrite Ek, El. cbn iota. rewrite Ep. f_equal.
           cbn [map flat_map seen_of created destroyed app k_conn]; rewrite Hc, ?Nat.eqb_refl. cbn [app]. now rewrite <- app_assoc.
        -- rewrite !upd_other by congruence. f_equal. apply Nat.eqb_neq in Hj.
           cbn [map flat_map seen_of app k_conn]. rewrite Hc, ?Hj. cbn [app]. now rewrite !app_nil_r.
  - eexists. split; [reflexivity|]. split; [exact HI|]. intros i. unfold part_of, set_run. cbn [v_life v_run pstep]. rewrite view_same.
    destruct (Nat.eqb_spec j i) as [->|Hj]; [now rewrite upd_same|]. now rewrite upd_other by congruence.
  - destruct (a_objs (v_life s) j) as [c|] eqn:Eo.
    2: { exists s. split; [reflexivity|]. split; [exact HI|]. intros i. destruct (Nat.eqb_spec j i) as [->|Hj]; [|reflexivity].
         unfold pstep, part_of. rewrite Eo. reflexivity. }
    pose proof (HI j) as Hj0. rewrite Eo in Hj0. destruct Hj0 as [Hc Hk].
    destruct (life_destroy j s c Eo) as (a & Ea & H1 & H2). rewrite Ea. eexists. split; [reflexivity|].
    split; [intros i; cbn [v_life]; rewrite H2; apply own_upd; [exact HI|exact I]|].
    intros i. unfold part_of. rewrite view_app. cbn [v_life v_run]. rewrite H1, H2.
    destruct (Nat.eqb_spec j i) as [->|Hj].
    + rewrite !upd_same, Eo. cbn [pstep obj_part]. f_equal.
      destruct (c_listener c) as [l|]; destruct (c_socket c) as [k|]; cbn [map flat_map seen_of destroyed]; try reflexivity.
      rewrite Hk, Nat.eqb_refl. reflexivity.
    + rewrite !upd_other by congruence. f_equal. apply Nat.eqb_neq in Hj.
      destruct (c_listener c) as [l|]; destruct (c_socket c) as [k|]; cbn [map flat_map seen_of app]; try now rewrite app_nil_r.
      rewrite Hk, Hj. cbn [app]. now rewrite app_nil_r.
Qed.

Lemma vrun_part evs : forall s, sinv s -> exists s', vrun setup react evs s = Some s' /\ sinv s' /\
  forall i, part_of i s' = fold_left (fun x e => pstep i e x) (own i evs) (part_of i s).
Proof.
  induction evs as [|e evs IH]; intros s HI; cbn [vrun own filter].
  - exists s. auto.
  - destruct (vstep_part e s HI) as (s1 & E1 & H1 & H2). rewrite E1. destruct (IH s1 H1) as (s2 & E2 & G1 & G2).
    exists s2. split; [exact E2|]. split; [exact G1|]. intros i. rewrite G2. unfold own. rewrite H2. now destruct (concerns i e).
Qed.
End Part.
