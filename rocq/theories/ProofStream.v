(** Lemmas about the connection contract: reads and writes over scripts. *)
From Verif Require Import Bytes Frame World WebSocket SpecFrame.
From Coq Require Import ZifyBool ZifyNat ZifyN.
Local Open Scope N_scope.
Local Arguments takeN : simpl never.
Local Arguments dropN : simpl never.
Local Arguments lenN : simpl never.

(** Like [injection], without reducing anything. *)
Ltac triple E :=
  let E1 := fresh in let E2 := fresh in let E3 := fresh in
  apply pair_equal_spec in E; destruct E as [E1 E3];
  apply pair_equal_spec in E1; destruct E1 as [E1 E2];
  subst.

(** * Script predicates *)


Lemma clean_stop_only s : clean s -> stop_only s.
Proof.
  unfold clean, stop_only, script_ok. apply Forall_impl. intros [b bs|e|x]; cbn; try tauto.
  intros _. exact I.
Qed.

Lemma clean_script_ok s : clean s <-> script_ok (fun _ => False) (fun e => e = IoRetry) s.
Proof.
  unfold clean, script_ok. split; apply Forall_impl; intros [b bs|[]|x]; cbn; try tauto; discriminate.
Qed.

Lemma steady_script_ok s : steady s <-> script_ok is_stop (fun e => e = IoRetry) s.
Proof.
  unfold steady, script_ok. split; apply Forall_impl; intros [b bs|[]|[]]; cbn; unfold is_stop; try tauto; try discriminate.
Qed.

Lemma clean_steady s : clean s -> steady s.
Proof. apply Forall_impl. intros [b bs|[]|[]]; cbn; tauto. Qed.

Lemma steady_stop_only s : steady s -> stop_only s.
Proof.
  rewrite steady_script_ok. unfold stop_only, script_ok. apply Forall_impl.
  intros [b bs|e|x]; cbn; auto. intros _. exact I.
Qed.

(** What follows the first stopListening of another thread. *)
Fixpoint stop_tail (s : list rev) : option (list rev) :=
  match s with
  | [] => None
  | RExt XStop :: s' => Some s'
  | _ :: s' => stop_tail s'
  end.

Lemma stop_tail_unread d s : stop_tail (unread d s) = stop_tail s.
Proof. destruct d; reflexivity. Qed.

Lemma script_ok_unread px pe d s : script_ok px pe s -> script_ok px pe (unread d s).
Proof. intros H. destruct d; [exact H|]. constructor; [exact I|exact H]. Qed.

Lemma bytes_of_unread d s : bytes_of (unread d s) = d ++ bytes_of s.
Proof. destruct d; reflexivity. Qed.

Lemma script_size_unread d s :
  script_size (unread d s) = (match d with [] => 0 | _ :: _ => 1 + length d end + script_size s)%nat.
Proof. destruct d; cbn; lia. Qed.

(** Socket fields that only a tame execution may change: listening can be switched off. *)
Definition tame (k k' : sock) : Prop :=
  s_mask k' = s_mask k /\ s_buf k' = s_buf k /\ s_listener k' = s_listener k /\
  s_last k' = s_last k /\ (s_listening k' = true -> s_listening k = true).

Lemma tame_refl k : tame k k.
Proof. unfold tame; tauto. Qed.
Lemma tame_trans a b c : tame a b -> tame b c -> tame a c.
Proof. unfold tame; intros; intuition congruence. Qed.
Lemma tame_stop k : tame k (set_listening k false).
Proof. unfold tame, set_listening; cbn; intuition discriminate. Qed.

(** * read *)

Lemma read_raw_bytes n s k r s' k' :
  0 < n -> read_raw n s k = (r, s', k') ->
  match r with
  | RGot d => bytes_of s = d ++ bytes_of s' /\ 0 < lenN d /\ lenN d <= n /\
              (script_size s' < script_size s)%nat
  | RErr e => bytes_of s = bytes_of s' /\ (script_size s' < script_size s)%nat
  | RPending => bytes_of s = [] /\ s' = []
  end.
Proof.
  intros Hn. revert k; induction s as [|e s IH]; intros k E; cbn [read_raw] in E.
  - triple E. auto.
  - destruct e as [b bs|e|x].
    + triple E. cbn [bytes_of].
      rewrite bytes_of_unread, app_assoc, take_drop. repeat split.
      * rewrite lenN_takeN, lenN_cons. lia.
      * rewrite lenN_takeN. lia.
      * rewrite script_size_unread. cbn [script_size].
        assert (length (dropN n (b :: bs)) <= length bs)%nat.
        { rewrite dropN_skipn, skipn_length. cbn [length]. lia. }
        destruct (dropN n (b :: bs)); cbn [length] in *; lia.
    + triple E. cbn [bytes_of script_size]. split; [reflexivity|lia].
    + apply IH in E. cbn [bytes_of script_size]. destruct r; intuition lia.
Qed.

Lemma read_raw_ok px pe n s k r s' k' :
  read_raw n s k = (r, s', k') -> script_ok px pe s ->
  script_ok px pe s' /\ match r with RErr e => pe e | _ => True end.
Proof.
  revert k; induction s as [|e s IH]; intros k E Hs; cbn [read_raw] in E.
  - triple E. split; [constructor|exact I].
  - inversion Hs as [|? ? He Hs']; subst. destruct e as [b bs|e|x].
    + triple E. split; [now apply script_ok_unread|exact I].
    + triple E. split; [exact Hs'|exact He].
    + eapply IH; eassumption.
Qed.

Lemma read_raw_inv (I : sock -> Prop) (px : ext -> Prop) (pe : ioerr -> Prop) n s k r s' k' :
  (forall x y, px x -> I y -> I (apply_ext x y)) ->
  read_raw n s k = (r, s', k') -> script_ok px pe s -> I k -> I k'.
Proof.
  intros HI. revert k; induction s as [|e s IH]; intros k E Hs Hk; cbn [read_raw] in E.
  - triple E. exact Hk.
  - inversion Hs as [|? ? He Hs']; subst. destruct e as [b bs|e|x].
    + triple E. exact Hk.
    + triple E. exact Hk.
    + eapply IH; [eassumption|exact Hs'|]. apply HI; assumption.
Qed.

Lemma read_raw_tame n s k r s' k' :
  read_raw n s k = (r, s', k') -> stop_only s -> tame k k'.
Proof.
  intros E Hs. eapply (read_raw_inv (tame k)); [|exact E|exact Hs|apply tame_refl].
  intros x y -> Hy. cbn. eapply tame_trans; [exact Hy|apply tame_stop].
Qed.

Lemma read_raw_clean n s k r s' k' :
  read_raw n s k = (r, s', k') -> clean s -> clean s' /\ k' = k /\ (forall e, r = RErr e -> e = IoRetry).
Proof.
  intros E Hs. apply clean_script_ok in Hs. split; [|split].
  - apply clean_script_ok. eapply read_raw_ok; eassumption.
  - eapply (read_raw_inv (fun y => y = k)); [|exact E|exact Hs|reflexivity]. cbn. tauto.
  - intros e ->. eapply read_raw_ok in E; [|exact Hs]. exact (proj2 E).
Qed.

Lemma read_raw_steady n s k r s' k' :
  read_raw n s k = (r, s', k') -> steady s -> steady s' /\ (forall e, r = RErr e -> e = IoRetry).
Proof.
  intros E Hs. rewrite steady_script_ok in *. split.
  - eapply read_raw_ok; eassumption.
  - intros e ->. eapply read_raw_ok in E; [|exact Hs]. exact (proj2 E).
Qed.

Lemma read_raw_off n s k r s' k' :
  read_raw n s k = (r, s', k') -> stop_only s -> s_listening k = false -> s_listening k' = false.
Proof.
  intros E Hs. eapply (read_raw_inv (fun y => s_listening y = false)); [|exact E|exact Hs].
  intros x y -> Hy. reflexivity.
Qed.

Lemma read_raw_tail n s k r s' k' :
  read_raw n s k = (r, s', k') -> s_listening k' = true -> stop_only s -> stop_tail s' = stop_tail s.
Proof.
  revert k; induction s as [|e s IH]; intros k E Hl Hs; cbn [read_raw] in E.
  - triple E. reflexivity.
  - inversion Hs as [|? ? He Hs']; subst. destruct e as [b bs|e|x].
    + triple E. now rewrite stop_tail_unread.
    + triple E. reflexivity.
    + cbn in He. red in He. subst x. apply read_raw_off in E; [congruence|exact Hs'|reflexivity].
Qed.

(** * readExact *)

Lemma readExact_raw_0 s k : readExact_raw 0 s k = (XAll [], s, k).
Proof. destruct s; reflexivity. Qed.

(** [readExact_raw] is the loop over [read_raw] (oatpp core's
    ReadCallback::readExactSizeDataSimple). *)
Lemma readExact_unfold n s k :
  readExact_raw n s k =
  if n =? 0 then (XAll [], s, k) else
  match read_raw n s k with
  | (RGot d, s', k') =>
    match readExact_raw (n - lenN d) s' k' with
    | (XAll d', s'', k'') => (XAll (d ++ d'), s'', k'')
    | (XShort d', s'', k'') => (XShort (d ++ d'), s'', k'')
    | (XPending, s'', k'') => (XPending, s'', k'')
    end
  | (RErr IoRetry, s', k') => readExact_raw n s' k'
  | (RErr _, s', k') => (XShort [], s', k')
  | (RPending, s', k') => (XPending, s', k')
  end.
Proof.
  revert k; induction s as [|e s IH]; intros k.
  - cbn. destruct (n =? 0); reflexivity.
  - cbn [readExact_raw]. destruct (N.eqb_spec n 0) as [->|Hn]; [reflexivity|].
    destruct e as [b bs|e|x].
    + cbn [read_raw]. destruct (N.leb_spec n (lenN (b :: bs))) as [Hle|Hgt].
      * rewrite lenN_takeN, N.min_l by assumption. rewrite N.sub_diag, readExact_raw_0.
        now rewrite app_nil_r.
      * rewrite takeN_all, dropN_all by lia. cbn [unread]. reflexivity.
    + cbn [read_raw]. destruct e; reflexivity.
    + cbn [read_raw]. rewrite IH. destruct (N.eqb_spec n 0); [contradiction|]. reflexivity.
Qed.

Lemma readExact_bytes n s k r s' k' :
  readExact_raw n s k = (r, s', k') ->
  match r with
  | XAll d => bytes_of s = d ++ bytes_of s' /\ lenN d = n /\
              (script_size s' <= script_size s)%nat /\ (0 < n -> (script_size s' < script_size s)%nat)
  | XShort d => bytes_of s = d ++ bytes_of s' /\ lenN d < n
  | XPending => lenN (bytes_of s) < n /\ s' = []
  end.
Proof.
  revert n k r s' k'; induction s as [|e s IH]; intros n k r s' k' E; cbn [readExact_raw] in E.
  - destruct (N.eqb_spec n 0) as [->|Hn].
    + triple E. repeat split; try reflexivity; lia.
    + triple E. cbn. split; [unfold lenN; cbn; lia|reflexivity].
  - destruct (N.eqb_spec n 0) as [->|Hn].
    + triple E. repeat split; try reflexivity; lia.
    + destruct e as [b bs|e|x].
      * destruct (N.leb_spec n (lenN (b :: bs))) as [Hle|Hgt].
        -- triple E. cbn [bytes_of].
           rewrite bytes_of_unread, app_assoc, take_drop, lenN_takeN.
           rewrite script_size_unread. cbn [script_size].
           assert (length (dropN n (b :: bs)) <= length bs)%nat.
           { rewrite dropN_skipn, skipn_length. cbn [length]. lia. }
           repeat split; [lia| |intros _]; destruct (dropN n (b :: bs)); cbn [length] in *; lia.
        -- destruct (readExact_raw (n - lenN (b :: bs)) s k) as [[r1 s1] k1] eqn:E1.
           apply IH in E1. cbn [bytes_of script_size]. rewrite lenN_cons in *.
           destruct r1; triple E.
           ++ destruct E1 as (H1 & H2 & H3 & H4). rewrite H1, !lenN_app, !lenN_cons.
              repeat split; [cbn [app]; now rewrite <- app_assoc|lia|lia|lia].
           ++ destruct E1 as (H1 & H2). rewrite H1, !lenN_app, !lenN_cons.
              split; [cbn [app]; now rewrite <- app_assoc|lia].
           ++ destruct E1 as (H1 & ->). rewrite lenN_app, lenN_cons. split; [lia|reflexivity].
      * cbn [bytes_of script_size].
        destruct e.
        -- apply IH in E. destruct r; intuition lia.
        -- triple E. split; [reflexivity|unfold lenN; cbn; lia].
        -- triple E. split; [reflexivity|unfold lenN; cbn; lia].
      * apply IH in E. cbn [bytes_of script_size]. destruct r; intuition lia.
Qed.

Lemma readExact_ok px pe n s k r s' k' :
  readExact_raw n s k = (r, s', k') -> script_ok px pe s -> script_ok px pe s'.
Proof.
  revert n k r s' k'; induction s as [|e s IH]; intros n k r s' k' E Hs; cbn [readExact_raw] in E.
  - destruct (n =? 0); triple E; exact Hs.
  - inversion Hs as [|? ? He Hs']; subst. destruct (n =? 0).
    { triple E; exact Hs. }
    destruct e as [b bs|e|x].
    + destruct (n <=? lenN (b :: bs)).
      * triple E. now apply script_ok_unread.
      * destruct (readExact_raw (n - lenN (b :: bs)) s k) as [[r1 s1] k1] eqn:E1.
        apply IH in E1; [|exact Hs']. destruct r1; triple E; exact E1.
    + destruct e; [eapply IH; eassumption| |]; triple E; exact Hs'.
    + eapply IH; eassumption.
Qed.

Lemma readExact_inv (I : sock -> Prop) (px : ext -> Prop) (pe : ioerr -> Prop) n s k r s' k' :
  (forall x y, px x -> I y -> I (apply_ext x y)) ->
  readExact_raw n s k = (r, s', k') -> script_ok px pe s -> I k -> I k'.
Proof.
  intros HI. revert n k r s' k'; induction s as [|e s IH]; intros n k r s' k' E Hs Hk; cbn [readExact_raw] in E.
  - destruct (n =? 0); triple E; exact Hk.
  - inversion Hs as [|? ? He Hs']; subst. destruct (n =? 0).
    { triple E; exact Hk. }
    destruct e as [b bs|e|x].
    + destruct (n <=? lenN (b :: bs)).
      * triple E. exact Hk.
      * destruct (readExact_raw (n - lenN (b :: bs)) s k) as [[r1 s1] k1] eqn:E1.
        apply IH in E1; [|exact Hs'|exact Hk]. destruct r1; triple E; exact E1.
    + destruct e; [eapply IH; eassumption| |]; triple E; exact Hk.
    + eapply IH; [exact E|exact Hs'|]. apply HI; assumption.
Qed.

Lemma readExact_tame n s k r s' k' :
  readExact_raw n s k = (r, s', k') -> stop_only s -> tame k k'.
Proof.
  intros E Hs. eapply (readExact_inv (tame k)); [|exact E|exact Hs|apply tame_refl].
  intros x y -> Hy. cbn. eapply tame_trans; [exact Hy|apply tame_stop].
Qed.

Lemma readExact_clean n s k r s' k' :
  readExact_raw n s k = (r, s', k') -> clean s ->
  clean s' /\ k' = k /\ (forall d, r <> XShort d).
Proof.
  intros E Hs. split; [|split].
  - apply clean_script_ok. apply clean_script_ok in Hs. eapply readExact_ok; eassumption.
  - apply clean_script_ok in Hs.
    eapply (readExact_inv (fun y => y = k)); [|exact E|exact Hs|reflexivity]. cbn. tauto.
  - revert n k r s' k' E; induction s as [|e s IH]; intros n k r s' k' E d; cbn [readExact_raw] in E.
    + destruct (n =? 0); triple E; discriminate.
    + inversion Hs as [|? ? He Hs']; subst. destruct (n =? 0).
      { triple E; discriminate. }
      destruct e as [b bs|e|x].
      * destruct (n <=? lenN (b :: bs)).
        -- triple E. discriminate.
        -- destruct (readExact_raw (n - lenN (b :: bs)) s k) as [[r1 s1] k1] eqn:E1.
           destruct r1 as [d1|d1|]; triple E; try discriminate.
           exfalso. eapply (IH Hs' _ _ _ _ _ E1). reflexivity.
      * destruct e; cbn in He; try tauto. eapply (IH Hs'); eassumption.
      * cbn in He. tauto.
Qed.

Lemma readExact_steady n s k r s' k' :
  readExact_raw n s k = (r, s', k') -> steady s -> forall d, r <> XShort d.
Proof.
  intros E Hs. revert n k r s' k' E; induction s as [|e s IH]; intros n k r s' k' E d; cbn [readExact_raw] in E.
  - destruct (n =? 0); triple E; discriminate.
  - inversion Hs as [|? ? He Hs']; subst. destruct (n =? 0).
    { triple E; discriminate. }
    destruct e as [b bs|e|x].
    + destruct (n <=? lenN (b :: bs)).
      * triple E. discriminate.
      * destruct (readExact_raw (n - lenN (b :: bs)) s k) as [[r1 s1] k1] eqn:E1.
        destruct r1 as [d1|d1|]; triple E; try discriminate.
        exfalso. eapply (IH Hs' _ _ _ _ _ E1). reflexivity.
    + destruct e; cbn in He; try tauto. eapply (IH Hs'); eassumption.
    + eapply (IH Hs'); eassumption.
Qed.

Lemma readExact_off n s k r s' k' :
  readExact_raw n s k = (r, s', k') -> stop_only s -> s_listening k = false -> s_listening k' = false.
Proof.
  intros E Hs. eapply (readExact_inv (fun y => s_listening y = false)); [|exact E|exact Hs].
  intros x y -> Hy. reflexivity.
Qed.

Lemma readExact_tail n s k r s' k' :
  readExact_raw n s k = (r, s', k') -> s_listening k' = true -> stop_only s -> stop_tail s' = stop_tail s.
Proof.
  revert n k r s' k'; induction s as [|e s IH]; intros n k r s' k' E Hl Hs; cbn [readExact_raw] in E.
  - destruct (n =? 0); triple E; reflexivity.
  - inversion Hs as [|? ? He Hs']; subst. destruct (n =? 0).
    { triple E; reflexivity. }
    destruct e as [b bs|e|x].
    + destruct (n <=? lenN (b :: bs)).
      * triple E. now rewrite stop_tail_unread.
      * destruct (readExact_raw (n - lenN (b :: bs)) s k) as [[r1 s1] k1] eqn:E1.
        apply IH in E1; [|destruct r1; triple E; exact Hl|exact Hs'].
        destruct r1; triple E; exact E1.
    + destruct e; [eapply IH; eassumption| |]; triple E; reflexivity.
    + cbn in He. red in He. subst x. apply readExact_off in E; [congruence|exact Hs'|reflexivity].
Qed.

(** * writeExact *)

Lemma writeExact_prefix d q r a q' :
  writeExact_raw d q = (r, a, q') ->
  prefix a d /\ (r = WDone -> a = d) /\ (r = WFailed -> lenN a < lenN d).
Proof.
  revert d r a q'; induction q as [|e q IH]; intros d r a q' E.
  - destruct d; cbn in E; triple E.
    + repeat split; [exists []; reflexivity|discriminate].
    + repeat split; [exists []; now rewrite app_nil_r|discriminate].
  - destruct d as [|b d].
    { cbn in E; triple E. repeat split; [exists []; reflexivity|discriminate]. }
    cbn [writeExact_raw] in E. destruct e as [n|e|].
    + destruct (writeExact_raw (dropN (N.pos n) (b :: d)) q) as [[r1 a1] q1] eqn:E1.
      triple E. apply IH in E1. destruct E1 as ((t & Ht) & Hd & Hf).
      repeat split.
      * exists t. rewrite <- app_assoc, <- Ht, take_drop. reflexivity.
      * intros ->. rewrite (Hd eq_refl). apply take_drop.
      * intros ->. specialize (Hf eq_refl). rewrite <- (take_drop (N.pos n) (b :: d)) at 2.
        rewrite !lenN_app. lia.
    + destruct e; [eapply IH; exact E| |]; triple E;
      (split; [exists (b :: d); reflexivity|split; [discriminate|intros _; rewrite lenN_cons, lenN_nil; lia]]).
    + triple E. split; [exists (b :: d); reflexivity|split; discriminate].
Qed.

Lemma writeExact_healthy d q r a q' :
  writeExact_raw d q = (r, a, q') -> healthy q -> r = WDone /\ a = d /\ healthy q'.
Proof.
  revert d r a q'; induction q as [|e q IH]; intros d r a q' E Hq.
  - destruct d; cbn in E; triple E; auto.
  - destruct d as [|b d].
    { cbn in E; triple E. auto. }
    inversion Hq as [|? ? He Hq']; subst. cbn [writeExact_raw] in E. destruct e as [n|e|].
    + destruct (writeExact_raw (dropN (N.pos n) (b :: d)) q) as [[r1 a1] q1] eqn:E1.
      triple E. apply IH in E1; [|exact Hq']. destruct E1 as (-> & -> & H).
      rewrite take_drop. auto.
    + destruct e; cbn in He; try tauto. eapply IH; eassumption.
    + cbn in He. tauto.
Qed.

Lemma prefix_refl {A} (l : list A) : prefix l l.
Proof. exists []. now rewrite app_nil_r. Qed.
Lemma prefix_nil {A} (l : list A) : prefix [] l.
Proof. exists l. reflexivity. Qed.
Lemma prefix_app_l {A} (l m r : list A) : prefix m r -> prefix (l ++ m) (l ++ r).
Proof. intros [t ->]. exists t. now rewrite app_assoc. Qed.
Lemma prefix_app_r {A} (l m : list A) : prefix l (l ++ m).
Proof. exists m. reflexivity. Qed.
Lemma prefix_trans {A} (l m r : list A) : prefix l m -> prefix m r -> prefix l r.
Proof. intros [t ->] [u ->]. exists (t ++ u). now rewrite app_assoc. Qed.
Lemma prefix_map {A B} (f : A -> B) l m : prefix l m -> prefix (map f l) (map f m).
Proof. intros [t ->]. exists (map f t). apply map_app. Qed.
