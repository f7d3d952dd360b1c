(** One connection of a server with one thread per connection, seen on its own. *)
From Verif Require Import Bytes Frame World WebSocket SpecCausal SpecFrame SpecListen ProofSend Lifecycle Server SpecServer ProofServer ThreadServer SpecThreadServer
  ProofInv ProofCausal PropCausal PropBound.

Definition bpart : Type := option nat * option nat * bphase * list seen_ev.
Definition obj_l (o : option task) : option nat := match o with Some t => t_listener t | None => None end.
Definition bpart_of (i : nat) (s : bserver) : bpart := (h_listener (b_life s), obj_l (h_objs (b_life s) i), b_phase s i, bview i s).

Section Part.
Variable setup : nat -> nat -> list cmd.
Variable farewell : nat -> list cmd.
Variable react : nat -> react_t.

Definition pend (L l : option nat) (w : world) (v : list seen_ev) : option bpart :=
  match exec_cmds (bye farewell l) w with
  | (Ret _, w') => Some (L, None, POver w', v ++ destroyed l)
  | (Wait, w') => Some (L, None, PStuck w', v ++ destroyed l)
  | _ => None
  end.
Definition pgo (i : nat) (L l : option nat) (w w1 : world) (v : list seen_ev) : option bpart :=
  match listen (react i) w with
  | (Wait, w') => Some (L, l, PListen w w', v ++ called (skipn (length (w_log w1)) (w_log w')))
  | (Ret _, w') => pend L l w' (v ++ called (skipn (length (w_log w1)) (w_log w')))
  | _ => None
  end.
Definition bpstep (i : nat) (e : bev) (x : bpart) : option bpart :=
  let '(L, l, ph, v) := x in
  match e with
  | BSet l' => Some (l', l, ph, v)
  | BArrive _ rs => Some (L, l, arrive_phase rs ph, v)
  | BConn _ p spawn =>
    match ph with
    | PNew w =>
      match exec_cmds (hello setup L p) (set_sock w (sock_new false)) with
      | (Ret _, w1) => if spawn then Some (L, L, PReady w1, v ++ created L p) else pend L L w1 (v ++ created L p)
      | (Throw _, w1) => match L with Some _ => Some (L, None, POver w1, v ++ created L p) | None => None end
      | (Wait, w1) => match L with Some _ => Some (L, None, PStuck w1, v ++ created L p) | None => None end
      | _ => None
      end
    | _ => Some x
    end
  | BRun _ =>
    match ph with
    | PReady w => pgo i L l w w (v ++ [NListen])
    | PListen w w1 => pgo i L l w w1 v
    | _ => Some x
    end
  end.

Definition alive (x : bphase) : bool := match x with PReady _ | PListen _ _ => true | _ => false end.
Definition obj_ok (i : nat) (b : bool) (o : option task) : Prop :=
  if b then exists l k, o = Some (Task l (Some k)) /\ k_conn k = i else o = None.
Definition binvs (s : bserver) : Prop := forall i, obj_ok i (alive (b_phase s i)) (h_objs (b_life s) i).

Lemma bview_app i a ph log l : bview i (BServer a ph (log ++ l)) = flat_map (seen_of i) log ++ flat_map (seen_of i) l.
Proof. unfold bview. cbn [b_log]. apply flat_map_app. Qed.

Lemma blife_set l s : blife (OSetListener l) s = BOk (BServer (HState l (h_objs (b_life s)) (h_count (b_life s)) (h_log (b_life s))) (b_phase s) (b_log s)).
Proof. unfold blife. cbn [hstep h_log]. now rewrite skipn_len, app_nil_r. Qed.
Lemma blife_handle i j p t s : exists a, 
  blife (OHandle i j p t) s = BOk (BServer a (b_phase s) (b_log s ++ map SLife
    (match h_listener (b_life s) with Some l => [EvAfterCreate l (Socket (h_count (b_life s)) j false) p] | None => [] end))) /\
  h_listener a = h_listener (b_life s) /\
  h_objs a = if (t && match h_listener (b_life s) with Some _ => true | None => false end)%bool then h_objs (b_life s)
    else upd (h_objs (b_life s)) i (Some (Task (h_listener (b_life s)) (Some (Socket (h_count (b_life s)) j false)))).
Proof.
  unfold blife. cbn [hstep]. cbv zeta. destruct (h_listener (b_life s)) as [l|] eqn:El; [destruct t|];
  match goal with |- context [HState ?a ?b ?c ?d] => exists (HState a b c d) end; cbn [h_log h_listener h_objs andb];
    rewrite ?skipn_app_len, ?skipn_len, ?andb_false_r; auto.
Qed.
Lemma blife_run i s l k : h_objs (b_life s) i = Some (Task l (Some k)) -> exists a,
  blife (ORun i) s = BOk (BServer a (b_phase s) (b_log s ++ map SLife [EvListen k])) /\ h_listener a = h_listener (b_life s) /\ h_objs a = h_objs (b_life s).
Proof.
  intros E. unfold blife. cbn [hstep]. rewrite E. match goal with |- context [HState ?a ?b ?c ?d] => exists (HState a b c d) end.
  cbn [h_log h_listener h_objs]. rewrite skipn_app_len. auto.
Qed.
Lemma blife_destroy i s l k : h_objs (b_life s) i = Some (Task l (Some k)) -> exists a,
  blife (ODestroy i) s = BOk (BServer a (b_phase s) (b_log s ++ map SLife (match l with Some l => [EvBeforeDestroy l k] | None => [] end))) /\
  h_listener a = h_listener (b_life s) /\ h_objs a = upd (h_objs (b_life s)) i None.
Proof.
  intros E. unfold blife. cbn [hstep]. rewrite E. destruct l as [l|];
  match goal with |- context [HState ?a ?b ?c ?d] => exists (HState a b c d) end; cbn [h_log h_listener h_objs];
    rewrite ?skipn_app_len, ?skipn_len; auto.
Qed.

(** [r] is the outcome of a step of connection [j] from [s]; [x]: its outcome seen from [j]. *)
Definition follows (j : nat) (s : bserver) (x : option bpart) (r : sres) : Prop :=
  match r with
  | BOk s' => x = Some (bpart_of j s') /\ obj_ok j (alive (b_phase s' j)) (h_objs (b_life s') j) /\ h_listener (b_life s') = h_listener (b_life s) /\
     forall i, i <> j -> h_objs (b_life s') i = h_objs (b_life s) i /\ b_phase s' i = b_phase s i /\ bview i s' = bview i s
  | _ => x = None
  end.
Lemma follows_other j s s' x r : h_listener (b_life s') = h_listener (b_life s) ->
  (forall i, i <> j -> h_objs (b_life s') i = h_objs (b_life s) i /\ b_phase s' i = b_phase s i /\ bview i s' = bview i s) ->
  follows j s' x r -> follows j s x r.
Proof.
  intros H1 H2 H. destruct r; [|exact H|exact H]. destruct H as (A & B & C & D). split; [exact A|]. split; [exact B|]. split; [congruence|].
  intros i Hi. destruct (D i Hi) as (D1 & D2 & D3). destruct (H2 i Hi) as (E1 & E2 & E3). repeat split; congruence.
Qed.
Lemma seen_other i j l : i <> j -> (forall e, In e l -> match e with SLife (EvAfterCreate _ k _) | SLife (EvListen k) | SLife (EvBeforeDestroy _ k) => k_conn k = j | SCall c _ _ => c = j end) ->
  flat_map (seen_of i) l = [].
Proof.
  intros Hi. induction l as [|e l IH]; intros H; [reflexivity|]. cbn [flat_map]. rewrite IH by (intros; apply H; now right).
  specialize (H e (or_introl eq_refl)). rewrite app_nil_r. apply Nat.eqb_neq in Hi. rewrite Nat.eqb_sym in Hi.
  destruct e as [[l0 k p|k|l0 k]|c l0 ev]; cbn [seen_of]; rewrite H, Hi; reflexivity.
Qed.

Lemma destroy_part j w s l k : h_objs (b_life s) j = Some (Task l (Some k)) -> k_conn k = j ->
  follows j s (pend (h_listener (b_life s)) l w (bview j s)) (destroy farewell j w s).
Proof.
  intros Eo Hk. unfold destroy. rewrite Eo. cbn [t_listener]. destruct (blife_destroy j s l k Eo) as (a & -> & H1 & H2). cbn [bthen].
  unfold pend. change (on_destroy farewell l) with (bye farewell l).
  assert (forall ph, alive ph = false -> follows j s (Some (h_listener (b_life s), None, ph, bview j s ++ destroyed l))
    (BOk (set_phase j ph (BServer a (b_phase s) (b_log s ++ map SLife (match l with Some l => [EvBeforeDestroy l k] | None => [] end)))))) as H.
  { intros ph Hph. cbn [follows]. unfold set_phase, add_calls, bpart_of. cbn [b_life b_phase b_log]. rewrite bview_app, H1, H2, !upd_same. split; [|split; [|split]].
    - cbn [obj_l]. do 2 f_equal. destruct l as [l|]; cbn [map flat_map seen_of destroyed]; [|reflexivity]. rewrite Hk, Nat.eqb_refl. reflexivity.
    - rewrite Hph. reflexivity.
    - reflexivity.
    - intros i Hi. rewrite !upd_other by exact Hi. split; [reflexivity|]. split; [reflexivity|]. rewrite bview_app.
      rewrite (seen_other i j (map SLife _)); [now rewrite app_nil_r|exact Hi|].
      intros e He. destruct l as [l|]; cbn [map In] in He; [|destruct He]. destruct He as [<-|[]]. exact Hk. }
  destruct (exec_cmds (bye farewell l) w) as [[[]|e| |u|] w']; [apply H; reflexivity|reflexivity|apply H; reflexivity|reflexivity|reflexivity].
Qed.

Lemma view_calls' i j log : flat_map (seen_of i) (map (fun c => SCall j (fst c) (snd c)) log) = if Nat.eqb j i then called log else [].
Proof. apply view_calls. Qed.

Lemma run_part j w w1 s l k : h_objs (b_life s) j = Some (Task l (Some k)) -> k_conn k = j ->
  follows j s (pgo j (h_listener (b_life s)) l w w1 (bview j s)) (thread_run farewell react j w w1 s).
Proof.
  intros Eo Hk. unfold thread_run, pgo. destruct (listen (react j) w) as [[[]|e| |u|] w']; try reflexivity.
  - set (s1 := add_calls j _ s).
    assert (forall i, bview i s1 = bview i s ++ if Nat.eqb j i then called (skipn (length (w_log w1)) (w_log w')) else []) as HV.
    { intros i. unfold s1, add_calls. rewrite bview_app, view_calls'. reflexivity. }
    eapply (follows_other j s s1); [reflexivity| |].
    + intros i Hi. split; [reflexivity|]. split; [reflexivity|]. rewrite HV. apply Nat.eqb_neq in Hi. rewrite Nat.eqb_sym in Hi. rewrite Hi. apply app_nil_r.
    + pose proof (HV j) as HVj. rewrite Nat.eqb_refl in HVj. rewrite <- HVj. exact (destroy_part j w' s1 l k Eo Hk).
  - cbn [follows]. unfold set_phase, add_calls, bpart_of. cbn [b_life b_phase b_log]. rewrite bview_app, view_calls', Nat.eqb_refl, upd_same, Eo.
    split; [reflexivity|]. split; [exists l, k; auto|]. split; [reflexivity|].
    intros i Hi. rewrite upd_other by exact Hi. split; [reflexivity|]. split; [reflexivity|]. rewrite bview_app, view_calls'.
    apply Nat.eqb_neq in Hi. rewrite Nat.eqb_sym in Hi. rewrite Hi. apply app_nil_r.
Qed.

Lemma bstep_part e s : binvs s ->
  match bstep setup farewell react e s with
  | BOk s' => binvs s' /\ forall i, if bconcerns i e then bpstep i e (bpart_of i s) = Some (bpart_of i s') else bpart_of i s' = bpart_of i s
  | _ => exists i, bconcerns i e = true /\ bpstep i e (bpart_of i s) = None
  end.
Proof.
  intros HI.
  assert (forall j x r, (forall i, bconcerns i e = Nat.eqb j i) -> x = bpstep j e (bpart_of j s) -> follows j s x r ->
    match r with
    | BOk s' => binvs s' /\ forall i, if bconcerns i e then bpstep i e (bpart_of i s) = Some (bpart_of i s') else bpart_of i s' = bpart_of i s
    | _ => exists i, bconcerns i e = true /\ bpstep i e (bpart_of i s) = None
    end) as Hgo.
  { intros j x r Hc Hx H. destruct r as [s'| |]; [|exists j; rewrite Hc, Nat.eqb_refl; split; [reflexivity|]; cbn in H; congruence..].
    destruct H as (A & B & C & D). split.
    - intros i. destruct (Nat.eq_dec i j) as [->|Hi]; [exact B|]. destruct (D i Hi) as (D1 & D2 & D3). rewrite D1, D2. apply HI.
    - intros i. rewrite Hc. destruct (Nat.eqb_spec j i) as [<-|Hi]; [congruence|].
      destruct (D i) as (D1 & D2 & D3); [congruence|]. unfold bpart_of. now rewrite C, D1, D2, D3. }
  destruct e as [l|j p spawn|j rs|j]; cbn [bstep].
  - rewrite blife_set. split; [exact HI|]. intros i. reflexivity.
  - eapply (Hgo j); [reflexivity|reflexivity|]. clear Hgo. unfold bpart_of at 1. cbn [bpstep].
    assert (follows j s (Some (bpart_of j s)) (BOk s)) as Hid.
    { split; [reflexivity|]. split; [apply HI|]. split; [reflexivity|]. auto. }
    pose proof (HI j) as Hj. destruct (b_phase s j) as [w|w|w w1|w|w] eqn:Ep; try (unfold bpart_of in Hid; rewrite Ep in Hid; exact Hid).
    cbn [alive obj_ok] in Hj.
    change (on_create setup) with (hello setup). set (L := h_listener (b_life s)).
    assert (forall t s1, blife (OHandle j j p t) s = BOk s1 ->
      b_phase s1 = b_phase s /\ h_listener (b_life s1) = L /\ bview j s1 = bview j s ++ created L p /\
      (forall i, i <> j -> h_objs (b_life s1) i = h_objs (b_life s) i /\ bview i s1 = bview i s) /\
      h_objs (b_life s1) j = (if (t && match L with Some _ => true | None => false end)%bool then None
         else Some (Task L (Some (Socket (h_count (b_life s)) j false))))) as Hh.
    { intros t s1 E1. destruct (blife_handle j j p t s) as (a & Ea & G1 & G2). fold L in Ea, G1, G2. rewrite E1 in Ea. injection Ea as ->.
      cbn [b_phase b_life]. rewrite G1, G2, !bview_app. split; [reflexivity|]. split; [reflexivity|]. split; [|split].
      - f_equal. destruct L as [l|]; cbn [map flat_map seen_of created k_conn]; rewrite ?Nat.eqb_refl; reflexivity.
      - intros i Hi. split; [destruct (_ && _)%bool; [reflexivity|now apply upd_other]|]. rewrite bview_app, (seen_other i j (map SLife _)); [apply app_nil_r|exact Hi|].
        intros e He. destruct L; cbn [map In] in He; [|destruct He]. destruct He as [<-|[]]. reflexivity.
      - destruct (_ && _)%bool; [exact Hj|apply upd_same]. }
    assert (forall t, exists s1, blife (OHandle j j p t) s = BOk s1) as Hex.
    { intros t. destruct (blife_handle j j p t s) as (a & Ea & _). eauto. }
    assert (forall ph, alive ph = false -> follows j s (match L with Some _ => Some (L, None, ph, bview j s ++ created L p) | None => None end)
      (match L with Some _ => bthen (blife (OHandle j j p true) s) (fun s1 => BOk (set_phase j ph s1)) | None => BUndef end)) as Hno.
    { intros ph Hph. destruct (Hex true) as [s1 E1]. destruct (Hh true s1 E1) as (A & B & C & D & F). rewrite E1.
      destruct L as [l|] eqn:EL; [|reflexivity]. cbn [bthen follows]. unfold set_phase, add_calls, bpart_of. cbn [b_life b_phase b_log]. rewrite upd_same, Hph, B, F. cbn [andb].
      split; [|split; [|split]].
      - cbn [obj_l]. rewrite <- C. reflexivity.
      - reflexivity.
      - symmetry. exact EL.
      - intros i Hi. rewrite upd_other by exact Hi. rewrite A. destruct (D i Hi) as [D1 D2]. split; [exact D1|]. split; [reflexivity|]. exact D2. }
    assert (L = None -> forall o w1, exec_cmds (hello setup L p) (set_sock w (sock_new false)) = (o, w1) -> exists a, o = Ret a) as HL0.
    { intros -> o w1 E. cbn in E. unfold ret in E. injection E as <- <-. eauto. }
    destruct (exec_cmds (hello setup L p) (set_sock w (sock_new false))) as [o w1] eqn:Es. specialize (fun H => HL0 H o w1 eq_refl).
    destruct o as [[]|e| |u|]; try reflexivity.
    + destruct (Hex false) as [s1 E1]. destruct (Hh false s1 E1) as (A & B & C & D & F). rewrite E1. cbn [bthen andb] in *.
      destruct spawn.
      * cbn [follows]. unfold set_phase, add_calls, bpart_of. cbn [b_life b_phase b_log]. rewrite upd_same, F, B. split; [|split; [|split]].
        -- cbn [obj_l t_listener]. rewrite <- C. reflexivity.
        -- cbn [alive obj_ok]. eauto.
        -- reflexivity.
        -- intros i Hi. rewrite upd_other by exact Hi. rewrite A. destruct (D i Hi) as [D1 D2]. split; [exact D1|]. split; [reflexivity|]. exact D2.
      * eapply (follows_other j s s1); [exact B| |].
        { intros i Hi. destruct (D i Hi) as [D1 D2]. rewrite A. auto. }
        rewrite <- C. rewrite <- B at 1. eapply destroy_part; [exact F|reflexivity].
    + specialize (Hno (POver w1) eq_refl). destruct L; [exact Hno|]. destruct (HL0 eq_refl); discriminate.
    + specialize (Hno (PStuck w1) eq_refl). destruct L; [exact Hno|]. destruct (HL0 eq_refl); discriminate.
  - eapply (Hgo j _ (BOk _)); [reflexivity|reflexivity|]. cbn [follows]. unfold set_phase, add_calls, bpart_of. cbn [b_life b_phase b_log bpstep]. rewrite upd_same.
    split; [reflexivity|]. split; [pose proof (HI j) as Hj; destruct (b_phase s j); exact Hj|]. split; [reflexivity|].
    intros i Hi. rewrite upd_other by exact Hi. auto.
  - eapply (Hgo j); [reflexivity|reflexivity|]. unfold bpart_of at 1. cbn [bpstep].
    assert (follows j s (Some (bpart_of j s)) (BOk s)) as Hid.
    { split; [reflexivity|]. split; [apply HI|]. split; [reflexivity|]. auto. }
    pose proof (HI j) as Hj. destruct (b_phase s j) as [w|w|w w1|w|w] eqn:Ep; try (unfold bpart_of in Hid; rewrite Ep in Hid; exact Hid);
      destruct Hj as (l & k & Eo & Hk); rewrite Eo; cbn [obj_l t_listener].
    + destruct (blife_run j s l k Eo) as (a & -> & G1 & G2). cbn [bthen].
      set (s1 := BServer a _ _).
      assert (forall i, bview i s1 = bview i s ++ if Nat.eqb j i then [NListen] else []) as HV.
      { intros i. unfold s1. rewrite bview_app. cbn [map flat_map seen_of]. rewrite Hk. destruct (Nat.eqb j i); cbn [app]; rewrite ?app_nil_r; reflexivity. }
      eapply (follows_other j s s1); [exact G1| |].
      * intros i Hi. cbn [s1 b_life b_phase]. rewrite G2. split; [reflexivity|]. split; [reflexivity|]. rewrite HV.
        apply Nat.eqb_neq in Hi. rewrite Nat.eqb_sym in Hi. rewrite Hi. apply app_nil_r.
      * pose proof (HV j) as HVj. rewrite Nat.eqb_refl in HVj. rewrite <- HVj. rewrite <- G1. eapply run_part; [cbn [s1 b_life]; rewrite G2; exact Eo|exact Hk].
    + eapply run_part; eassumption.
Qed.

Definition obind {A B} (x : option A) (f : A -> option B) : option B := match x with Some a => f a | None => None end.
Definition bpfold (i : nat) (evs : list bev) (x : bpart) : option bpart := fold_left (fun x e => obind x (bpstep i e)) evs (Some x).
Lemma fold_none i evs : fold_left (fun x e => obind x (bpstep i e)) evs None = None.
Proof. induction evs; [reflexivity|assumption]. Qed.

Lemma brun_part evs : forall s, binvs s ->
  match brun setup farewell react evs s with
  | BOk s' => binvs s' /\ forall i, bpfold i (bown i evs) (bpart_of i s) = Some (bpart_of i s')
  | _ => exists i, bpfold i (bown i evs) (bpart_of i s) = None
  end.
Proof.
  induction evs as [|e evs IH]; intros s HI; cbn [brun bown filter]; [split; [exact HI|reflexivity]|].
  pose proof (bstep_part e s HI) as H. destruct (bstep setup farewell react e s) as [s1| |]; cbn [bthen].
  - destruct H as [H1 H2]. specialize (IH s1 H1). destruct (brun setup farewell react evs s1) as [s2| |].
    + destruct IH as [G1 G2]. split; [exact G1|]. intros i. specialize (H2 i). specialize (G2 i). destruct (bconcerns i e).
      * unfold bpfold in *. cbn [fold_left obind]. rewrite H2. exact G2.
      * now rewrite H2 in G2.
    + destruct IH as [i G]. exists i. specialize (H2 i). destruct (bconcerns i e).
      * unfold bpfold in *. cbn [fold_left obind]. rewrite H2. exact G.
      * now rewrite H2 in G.
    + destruct IH as [i G]. exists i. specialize (H2 i). destruct (bconcerns i e).
      * unfold bpfold in *. cbn [fold_left obind]. rewrite H2. exact G.
      * now rewrite H2 in G.
  - destruct H as (i & Hc & H). exists i. rewrite Hc. unfold bpfold. cbn [fold_left obind]. rewrite H. apply fold_none.
  - destruct H as (i & Hc & H). exists i. rewrite Hc. unfold bpfold. cbn [fold_left obind]. rewrite H. apply fold_none.
Qed.
Lemma binvs_init ws : binvs (bserver_init ws).
Proof. intros i. reflexivity. Qed.
End Part.
