(** Property theorems: C91, applications on blocking and asynchronous sockets talking over a network. *)
From Verif Require Import Bytes Frame World WebSocket AsyncWebSocket SpecFrame SpecSend SpecListen SpecApi SpecReply SpecAsync SpecNet SpecTalk SpecMixed
  ProofFrame ProofStream ProofSend ProofCodec ProofHeader ProofListen ProofReading ProofApi ProofInv ProofHistory ProofProps
  ProofAsync ProofAsync2 ProofAsync3 PropListen PropListen2 PropReply PropAsync PropAsync2 PropAsync3 PropNet PropTalk ProofQuit.
From Coq Require Import ZifyBool ZifyNat ZifyN.
Local Open Scope N_scope.
Local Arguments takeN : simpl never.
Local Arguments dropN : simpl never.
Local Arguments lenN : simpl never.
Local Arguments be_enc : simpl never.
Local Arguments be_dec : simpl never.

(** * An application as a function of streams *)
Definition plain (g : partner) : application := fun os => fst (g os).
Definition quits (g : partner) (log : list (nat * event)) : bool :=
  match snd (last log (0%nat, EvEnd 0)) with EvMsg _ _ => false | _ => snd (g (transcript log)) end.
Lemma acts_plain g l log : acts g l log = listener_of (plain g) l log ++ (if quits g log then [CThrow] else []).
Proof. unfold acts, listener_of, quits, plain. destruct (snd (last log (0%nat, EvEnd 0))); reflexivity. Qed.
Lemma acts_blocking g l log : as_blocking (acts g) l log = as_blocking (listener_of (plain g)) l log ++ (if quits g log then [CThrow] else []).
Proof. unfold as_blocking. rewrite acts_plain, map_app. destruct (quits g log); reflexivity. Qed.
(** What the application hears of [os] before it gives up. *)
Fixpoint hears (g : partner) (pre os : list obs) : list obs :=
  match os with
  | [] => []
  | o :: r => o :: match o with OByte _ _ => hears g (pre ++ [o]) r | _ => if snd (g (pre ++ [o])) then [] else hears g (pre ++ [o]) r end
  end.
Lemma hears_mono g a : forall pre b, prefix a b -> prefix (hears g pre a) (hears g pre b).
Proof.
  induction a as [|o a IH]; intros pre b [t ->]; cbn [app hears]; [apply prefix_nil|].
  assert (prefix (o :: hears g (pre ++ [o]) a) (o :: hears g (pre ++ [o]) (a ++ t))) as H
    by (destruct (IH (pre ++ [o]) (a ++ t)) as [u ->]; [eexists; reflexivity|exists u; reflexivity]).
  destruct o; try exact H; destruct (snd (g (pre ++ [_]))); try exact H; apply prefix_refl.
Qed.
Lemma hears_bytes g op d : forall pre r, hears g pre (map (OByte op) d ++ r) = map (OByte op) d ++ hears g (pre ++ map (OByte op) d) r.
Proof. induction d as [|b d IH]; intros pre r; cbn [map app hears]; [now rewrite app_nil_r|]. rewrite IH, <- app_assoc. reflexivity. Qed.
Lemma transcript_one l ev : transcript [(l, ev)] = observe ev.
Proof. unfold transcript. cbn. apply app_nil_r. Qed.
Lemma transcript_cut g new : forall pre, transcript (cut (quits g) pre new) = hears g (transcript pre) (transcript new).
Proof.
  induction new as [|[l ev] r IH]; intros pre; [reflexivity|]. cbn [cut].
  change ((l, ev) :: r) with ([(l, ev)] ++ r). rewrite (transcript_app [(l, ev)] r), transcript_one.
  change ((l, ev) :: (if quits g (pre ++ [(l, ev)]) then [] else cut (quits g) (pre ++ [(l, ev)]) r)) with
    ([(l, ev)] ++ (if quits g (pre ++ [(l, ev)]) then [] else cut (quits g) (pre ++ [(l, ev)]) r)).
  rewrite transcript_app, transcript_one.
  unfold quits at 1. rewrite last_last. cbn [snd]. rewrite transcript_app, transcript_one.
  assert (forall b : bool, transcript (if b then [] else cut (quits g) (pre ++ [(l, ev)]) r) = if b then [] else hears g (transcript pre ++ observe ev) (transcript r)) as H.
  { intros []; [reflexivity|]. rewrite IH, transcript_app, transcript_one. reflexivity. }
  destruct ev as [op d|op|p|p|c p]; cbn [observe] in *.
  - pose proof (H false) as H0. cbn [transcript] in H0. rewrite H0. now rewrite hears_bytes.
  - rewrite H. cbn [app hears]. reflexivity.
  - rewrite H. cbn [app hears]. reflexivity.
  - rewrite H. cbn [app hears]. reflexivity.
  - rewrite H. cbn [app hears]. reflexivity.
Qed.

Lemma sends_throw cs (b : bool) : sends_of (map (CSend false) cs ++ (if b then [CThrow] else [])) = cs.
Proof. induction cs as [|c cs IH]; cbn; [now destruct b|now rewrite IH]. Qed.
Lemma acts_replies g new : forall log, replies (acts g) log new = app_sends (plain g) (transcript log) (transcript new).
Proof.
  intros log. rewrite <- app_replies. revert log. induction new as [|[l ev] r IH]; intros log; [reflexivity|]. cbn [replies fst]. rewrite IH. f_equal.
  unfold acts, listener_of, plain. destruct (snd (last (log ++ [(l, ev)]) (0%nat, EvEnd 0))); [reflexivity|..]; now rewrite sends_throw, sends_of_map.
Qed.
Lemma plain_modest g : sensible g -> modest (plain g).
Proof. intros H os. apply H. Qed.
Lemma acts_classes g : sensible g -> user_react (acts g) /\ no_use (acts g) /\ forall m, mask_react m (acts g).
Proof.
  intros Hg. destruct (app_classes (plain g) (plain_modest g Hg)) as (H1 & H2 & H3 & _).
  split; [|split].
  - intros l log. rewrite acts_plain. apply Forall_app. split; [apply H1|]. destruct (quits g log); repeat constructor.
  - intros l log. rewrite acts_plain. apply Forall_app. split; [apply H2|]. destruct (quits g log); repeat constructor. discriminate.
  - intros m l log. rewrite acts_plain. apply Forall_app. split; [apply (polite_mask m _ H3)|]. destruct (quits g log); repeat constructor.
Qed.

Definition heard (g : partner) (w : world) (bs : bytes) : list obs := hears g [] (saw w bs).
Lemma heard_mono g w a b : prefix a b -> prefix (heard g w a) (heard g w b).
Proof. intros H. now apply hears_mono, saw_mono. Qed.
Notation spoken g := (said (plain g)).

(** * One endpoint *)
Definition earrive (rs : list rev) (e : endpoint) : endpoint :=
  match e with EBlock w arr now => EBlock w (arr ++ rs) now | EAsync sc => EAsync (fst sc, arrive rs (snd sc)) end.
Fixpoint erun (r : react_t) (evs : list xev) (e : endpoint) : endpoint :=
  match evs with [] => e | Tick :: k => erun r k (etick r e) | Arrive rs :: k => erun r k (earrive rs e) end.
Lemma erun_app r a : forall b e, erun r (a ++ b) e = erun r b (erun r a e).
Proof. induction a as [|[|rs] a IH]; intros b e; cbn [app erun]; auto. Qed.
Lemma edeliver_run r evs e seg : edeliver seg (erun r evs e) = erun r (evs ++ match seg with [] => [] | b :: bs => [Arrive [RData b bs]] end) e.
Proof. rewrite erun_app. destruct seg as [|b bs]; [reflexivity|]. cbn [erun]. destruct (erun r evs e) as [|[]]; reflexivity. Qed.
Lemma edeliver_world seg e : eworld (edeliver seg e) = eworld e \/ exists sc, e = EAsync sc.
Proof. destruct e as [w rs now|sc]; [left|right; eauto]. now destruct seg. Qed.
Lemma edeliver_out seg e : eout (edeliver seg e) = eout e.
Proof. unfold eout. destruct e as [w rs now|sc]; [now destruct seg|]. destruct seg; reflexivity. Qed.
Lemma edeliver_shown seg e : eshown (edeliver seg e) = eshown e.
Proof. unfold eshown. destruct e as [w rs now|sc]; [now destruct seg|]. destruct seg; reflexivity. Qed.
Lemma erun_async r evs : forall sc, erun r evs (EAsync sc) = EAsync (run r evs sc).
Proof. induction evs as [|[|rs] evs IH]; intros sc; cbn [erun run etick earrive]; [reflexivity|apply IH|]. rewrite IH. destruct sc; reflexivity. Qed.
Lemma erun_block r w evs : forall arr now, exists now', erun r evs (EBlock w arr now) = EBlock w (arr ++ arrivals evs) now' /\
  (nticks evs = 0%nat -> now' = now) /\
  (nticks evs <> 0%nat -> exists mid after, arrivals evs = mid ++ after /\ now' = snd (listen r (set_in w (arr ++ mid)))).
Proof.
  induction evs as [|[|rs] evs IH]; intros arr now; cbn [erun etick earrive arrivals nticks].
  - exists now. rewrite app_nil_r. split; [reflexivity|]. split; [auto|congruence].
  - destruct (IH arr (snd (listen r (set_in w arr)))) as (now' & E1 & E2 & E3). exists now'. split; [exact E1|]. split; [discriminate|]. intros _.
    destruct (Nat.eq_dec (nticks evs) 0) as [H|H]; [|exact (E3 H)]. exists [], (arrivals evs). rewrite app_nil_r. auto.
  - destruct (IH (arr ++ rs) now) as (now' & E1 & E2 & E3). exists now'. rewrite <- app_assoc in E1. split; [exact E1|]. split; [exact E2|]. intros H.
    destruct (E3 H) as (mid & after & M1 & M2). exists (rs ++ mid), after. rewrite M1, !app_assoc. auto.
Qed.

(** The blocking socket. *)
Lemma block_exact g w X : sensible g -> ready w -> clean X ->
  let now := snd (listen (acts g) (set_in w X)) in
  transcript (w_log now) = heard g w (bytes_of X) /\ w_out now = spoken g w (transcript (w_log now)).
Proof.
  intros Hg (Hin & Hlog & Hh & Hl & Hlo & Hb & l & Hls) Hc. cbv zeta.
  destruct (listen (acts g) (set_in w X)) as [o1 w1] eqn:E1. destruct (listen (listener_of (plain g)) (set_in w X)) as [o2 w2] eqn:E2. cbn [snd].
  destruct (app_classes (plain g) (plain_modest g Hg)) as (_ & _ & Hp & Hns). destruct (acts_classes g Hg) as (_ & _ & Hm).
  destruct (listen_exact (listener_of (plain g)) (set_in w X) o2 w2 Hc Hh Hp Hns Hb Hlo E2) as (new & N1 & _ & N3 & _).
  destruct (cut_listen (quits g) _ _ (acts_plain g) _ _ _ _ _ E1 E2) as (new' & L2 & L1). cbn [set_in w_log] in *. rewrite Hlog in *. cbn [app] in *. subst new'.
  assert (transcript (w_log w1) = heard g w (bytes_of X)) as H1.
  { rewrite L1, transcript_cut. unfold heard. f_equal. rewrite N1, N3. unfold seen, saw, opn_of, bs_of. cbn [set_in w_sock w_in]. now rewrite Hls. }
  split; [exact H1|].
  destruct (C49_replies _ (acts g) (set_in w X) o1 w1 eq_refl (Hm _) (clean_mask _ _ Hc) Hh E1) as (new' & M1 & M2 & _). cbn [set_in w_log w_out w_rnd w_rpos w_sock] in *. rewrite Hlog in *. cbn [app] in M1.
  rewrite M2, <- M1, acts_replies. reflexivity.
Qed.
(** Its asynchronous counterpart. *)
Lemma try_exact g w X o' w' : sensible g -> ready w -> clean X -> listen_try (as_blocking (acts g)) (give w X) = (o', w') -> transcript (w_log w') = heard g w (bytes_of X).
Proof.
  intros Hg (Hin & Hlog & Hh & Hl & Hlo & Hb & l & Hls) Hc E1.
  destruct (listen_try (as_blocking (listener_of (plain g))) (give w X)) as [o2 w2] eqn:E2.
  destruct (app_classes (plain g) (plain_modest g Hg)) as (Hu & _ & Hp & Hns).
  assert (good (as_blocking (listener_of (plain g))) (give w X)) as Hgd.
  { split; [cbn; rewrite Hin; exact Hc|]. split; [exact Hh|]. split; [now apply as_blocking_polite|]. split; [now apply user_never_stops|]. split; [exact Hb|exact Hlo]. }
  destruct (listen_try_exact _ _ _ _ Hgd E2) as (new & N1 & _ & N3 & _).
  destruct (cut_listen_try (quits g) _ _ (acts_blocking g) _ _ _ _ _ E1 E2) as (new' & L2 & L1). cbn [give set_in w_log] in *. rewrite Hlog in *. cbn [app] in *. subst new'.
  rewrite L1, transcript_cut. unfold heard. f_equal. rewrite N1, N3. unfold seen, saw, opn_of, bs_of. cbn [give set_in w_sock w_in]. rewrite Hls, Hin. reflexivity.
Qed.

Definition emore (a b : endpoint) : Prop := prefix (eshown a) (eshown b) /\ prefix (eout a) (eout b).
Lemma transcript_prefix a b : prefix a b -> prefix (transcript a) (transcript b).
Proof. intros [t ->]. rewrite transcript_app. eexists. reflexivity. Qed.

(** At any time an endpoint is behind the stream function. *)
Lemma end_safe bl g w evs : sensible g -> ready w -> clean (arrivals evs) ->
  let e := erun (acts g) evs (estart bl w) in
  prefix (eshown e) (heard g w (bytes_of (arrivals evs))) /\ prefix (eout e) (spoken g w (eshown e)).
Proof.
  intros Hg Hr Hc e. pose proof Hr as (Hin & Hlog & Hh & Hl & Hlo & Hb & _). destruct (acts_classes g Hg) as (Hu & _ & Hm). unfold e. destruct bl; cbn [estart].
  - destruct (erun_block (acts g) w evs [] w) as (now & E & E0 & E1). rewrite E. unfold eshown, eout. cbn [eworld].
    destruct (Nat.eq_dec (nticks evs) 0) as [H|H].
    + rewrite (E0 H), Hlog. split; [apply prefix_nil|]. unfold said. eexists; reflexivity.
    + destruct (E1 H) as (mid & after & A & ->). cbn [app]. rewrite A in Hc |- *. apply Forall_app in Hc as [Hc _].
      destruct (block_exact g w mid Hg Hr Hc) as [B1 B2]. rewrite B2. split; [|apply prefix_refl]. rewrite B1. apply heard_mono. rewrite bytes_of_app. eexists; reflexivity.
  - rewrite erun_async. unfold eshown, eout. cbn [eworld]. assert (io_only (w_in w)) as Hio by (rewrite Hin; constructor).
    destruct (run (acts g) evs (ARun, start_listen w)) as [st c] eqn:E. cbn [snd].
    destruct (listen_try (as_blocking (acts g)) (give w (arrivals evs))) as [o' w'] eqn:ES.
    destruct (async_begins _ _ _ _ _ Hl Hio (clean_io_only _ Hc) Hu E) as (o1 & w1 & EL & (new & more & N1 & N2) & _).
    assert (w1 = w') as -> by (rewrite listen_of_try, ES in EL; destruct o'; congruence).
    split.
    + rewrite <- (try_exact g w _ _ _ Hg Hr Hc ES). apply transcript_prefix. rewrite N1, N2, app_assoc. eexists; reflexivity.
    + destruct (C56_replies _ _ w evs st c Hl Hio (clean_io_only _ Hc) Hu eq_refl (Hm _) Hh E) as (new' & N1' & R1 & _).
      rewrite Hlog in *. cbn [app] in N1'. rewrite acts_replies in R1. rewrite N1'. exact R1.
Qed.
(** With enough steps it has caught up with what had arrived. *)
Lemma end_live bl g w evs : sensible g -> ready w -> clean (arrivals evs) ->
  exists n, forall evs2, clean (arrivals evs2) -> (n <= nticks evs2)%nat ->
  let e := erun (acts g) (evs ++ evs2) (estart bl w) in
  prefix (heard g w (bytes_of (arrivals evs))) (eshown e) /\ prefix (spoken g w (heard g w (bytes_of (arrivals evs)))) (eout e).
Proof.
  intros Hg Hr Hc. pose proof Hr as (Hin & Hlog & Hh & Hl & Hlo & Hb & _). destruct (acts_classes g Hg) as (Hu & Hnu & Hm). destruct bl; cbn [estart].
  - exists 1%nat. intros evs2 Hc2 Hn. cbv zeta. rewrite erun_app. destruct (erun_block (acts g) w evs [] w) as (now & E & _ & _). rewrite E. cbn [app].
    destruct (erun_block (acts g) w evs2 (arrivals evs) now) as (now' & E' & _ & E1). rewrite E'. unfold eshown, eout. cbn [eworld].
    destruct E1 as (mid & after & A & ->); [lia|]. rewrite A in Hc2. apply Forall_app in Hc2 as [Hc2 _].
    assert (clean (arrivals evs ++ mid)) as Hc' by (apply Forall_app; split; assumption).
    destruct (block_exact g w _ Hg Hr Hc') as [B1 B2]. rewrite B2, B1.
    assert (prefix (heard g w (bytes_of (arrivals evs))) (heard g w (bytes_of (arrivals evs ++ mid)))) as H by (apply heard_mono; rewrite bytes_of_app; eexists; reflexivity).
    split; [exact H|]. now apply said_mono.
  - assert (io_only (w_in w)) as Hio by (rewrite Hin; constructor).
    destruct (listen_try (as_blocking (acts g)) (give w (arrivals evs))) as [o' w'] eqn:ES.
    destruct (C52_completion (acts g) w evs o' w' Hl Hio (clean_io_only _ Hc) Hu ES) as [n1 H1].
    destruct (C56_completion _ (acts g) w evs Hl Hio (clean_io_only _ Hc) Hu Hnu eq_refl (Hm _) Hh) as [n2 H2].
    exists (n1 + n2)%nat. intros evs2 Hc2 Hn2. cbv zeta. rewrite erun_async. unfold eshown, eout. cbn [eworld].
    destruct (run (acts g) (evs ++ ticks (n1 + n2)) (ARun, start_listen w)) as [st0 c0] eqn:E0.
    destruct (H1 (n1 + n2)%nat ltac:(lia) _ _ E0) as [[_ Hse]| ->].
    2: { exfalso. destruct (C31_only_way _ _ _ _ E0) as (log & l & op & d & _ & Hi).
         specialize (Hnu l (w_log (c_world c0))). rewrite Forall_forall in Hnu. exact (Hnu _ Hi eq_refl). }
    destruct (H2 (n1 + n2)%nat ltac:(lia) _ _ E0) as (new' & N1' & R). rewrite Hlog in N1', R. cbn [app] in N1'. rewrite acts_replies in R.
    assert (transcript (w_log (c_world c0)) = heard g w (bytes_of (arrivals evs))) as HT.
    { destruct Hse as (_ & _ & _ & _ & -> & _). exact (try_exact g w _ _ _ Hg Hr Hc ES). }
    assert (more c0 (snd (run (acts g) (evs ++ evs2) (ARun, start_listen w)))) as [M1 M2].
    { rewrite run_app. rewrite run_app in E0. destruct (run (acts g) evs (ARun, start_listen w)) as [st1 c1] eqn:E1.
      change c0 with (snd (st0, c0)). rewrite <- E0. apply ticks_more; [|now apply clean_io_only|exact Hn2].
      apply (run_io (acts g) evs ARun (start_listen w) st1 c1 (or_introl eq_refl) Hio (clean_io_only _ Hc) E1). }
    split.
    + rewrite <- HT. now apply transcript_prefix.
    + rewrite <- HT, N1'. unfold said. cbn [transcript flat_map] in R. rewrite <- R. exact M2.
Qed.
(** Nothing shown or written is taken back. *)
Lemma end_more bl g w evs : sensible g -> ready w -> clean (arrivals evs) -> let e := erun (acts g) evs (estart bl w) in emore e (etick (acts g) e).
Proof.
  intros Hg Hr Hc e. unfold e. destruct bl; cbn [estart].
  - destruct (erun_block (acts g) w evs [] w) as (now & E & E0 & E1). rewrite E. cbn [app etick]. unfold emore, eshown, eout. cbn [eworld].
    destruct (block_exact g w _ Hg Hr Hc) as [B1 B2]. rewrite B2, B1. pose proof Hr as (_ & Hlog & _).
    destruct (Nat.eq_dec (nticks evs) 0) as [H|H].
    + rewrite (E0 H), Hlog. split; [apply prefix_nil|]. unfold said. eexists; reflexivity.
    + destruct (E1 H) as (mid & after & A & ->). cbn [app]. rewrite A in Hc |- *. apply Forall_app in Hc as [Hc _].
      destruct (block_exact g w mid Hg Hr Hc) as [C1 C2]. rewrite C2, C1.
      assert (prefix (heard g w (bytes_of mid)) (heard g w (bytes_of (mid ++ after)))) as G by (apply heard_mono; rewrite bytes_of_app; eexists; reflexivity).
      split; [exact G|now apply said_mono].
  - rewrite erun_async. unfold emore, eshown, eout. cbn [eworld etick]. destruct (tick_more (acts g) (run (acts g) evs (ARun, start_listen w))) as [M1 M2].
    split; [now apply transcript_prefix|exact M2].
Qed.

(** * The two together *)
Section Talk.
Variables (ba bb : bool) (ga gb : partner) (wa wb : world).
Hypothesis (Ga : sensible ga) (Gb : sensible gb) (Ra : ready wa) (Rb : ready wb).
Let ra := acts ga.
Let rb := acts gb.

Definition mdriven (s : chat) (ea eb : list xev) : Prop :=
  m_a s = erun ra ea (estart ba wa) /\ m_b s = erun rb eb (estart bb wb) /\
  clean (arrivals ea) /\ clean (arrivals eb) /\ (m_ab s <= length (eout (m_a s)))%nat /\ (m_ba s <= length (eout (m_b s)))%nat /\
  bytes_of (arrivals eb) = firstn (m_ab s) (eout (m_a s)) /\ bytes_of (arrivals ea) = firstn (m_ba s) (eout (m_b s)).
Definition ma_of (s : chat) (e : tev) : list xev :=
  match e with
  | TickA => [Tick]
  | BA k => match segment k (m_ba s) (eout (m_b s)) with [] => [] | b :: bs => [Arrive [RData b bs]] end
  | _ => [] end.
Definition mb_of (s : chat) (e : tev) : list xev :=
  match e with
  | TickB => [Tick]
  | AB k => match segment k (m_ab s) (eout (m_a s)) with [] => [] | b :: bs => [Arrive [RData b bs]] end
  | _ => [] end.
Lemma mdriven_step s ea eb e : mdriven s ea eb -> mdriven (mstep ra rb s e) (ea ++ ma_of s e) (eb ++ mb_of s e).
Proof.
  intros (H1 & H2 & H4 & H5 & H6 & H7 & H8 & H9). unfold mdriven. destruct e as [| |k|k]; cbn [mstep ma_of mb_of m_a m_b m_ab m_ba]; rewrite ?app_nil_r.
  - split; [rewrite erun_app, <- H1; reflexivity|]. rewrite arrivals_app. cbn [arrivals]. rewrite app_nil_r.
    assert (prefix (eout (m_a s)) (eout (etick ra (m_a s)))) as G by (rewrite H1; apply (end_more ba ga wa ea Ga Ra H4)).
    destruct (firstn_prefix (m_ab s) _ _ G H6) as [F1 F2]. repeat (split; [assumption|]). split; [|exact H9]. rewrite H8. exact F1.
  - split; [exact H1|]. split; [rewrite erun_app, <- H2; reflexivity|]. rewrite arrivals_app. cbn [arrivals]. rewrite app_nil_r.
    assert (prefix (eout (m_b s)) (eout (etick rb (m_b s)))) as G by (rewrite H2; apply (end_more bb gb wb eb Gb Rb H5)).
    destruct (firstn_prefix (m_ba s) _ _ G H7) as [F1 F2]. repeat (split; [assumption|]). rewrite H9. exact F1.
  - set (seg := segment k (m_ab s) (eout (m_a s))).
    rewrite !arrivals_app, deliver_arr, bytes_of_app, deliver_bytes, edeliver_out. split; [exact H1|]. split; [rewrite H2; apply edeliver_run|].
    split; [exact H4|]. split; [apply Forall_app; split; [exact H5|apply deliver_clean]|].
    split; [pose proof (segment_le k (m_ab s) (eout (m_a s))); fold seg in H; lia|]. split; [exact H7|].
    split; [|exact H9]. rewrite H8. now apply segment_app.
  - set (seg := segment k (m_ba s) (eout (m_b s))).
    rewrite !arrivals_app, deliver_arr, bytes_of_app, deliver_bytes, edeliver_out. split; [rewrite H1; apply edeliver_run|]. split; [exact H2|].
    split; [apply Forall_app; split; [exact H4|apply deliver_clean]|]. split; [exact H5|]. split; [exact H6|].
    split; [pose proof (segment_le k (m_ba s) (eout (m_b s))); fold seg in H; lia|]. split; [exact H8|].
    rewrite H9. now apply segment_app.
Qed.

(** The conversation, round by round: it does not depend on [ba] and [bb]. *)
Fixpoint ca (n : nat) : bytes := match n with O => [] | S k => spoken ga wa (heard ga wa (cb k)) end
with cb (n : nat) : bytes := match n with O => [] | S k => spoken gb wb (heard gb wb (ca k)) end.

Lemma cchain n : prefix (ca n) (ca (S n)) /\ prefix (cb n) (cb (S n)).
Proof.
  induction n as [|n [IH1 IH2]]; [split; apply prefix_nil|]. split.
  - change (prefix (spoken ga wa (heard ga wa (cb n))) (spoken ga wa (heard ga wa (cb (S n))))). now apply said_mono, heard_mono.
  - change (prefix (spoken gb wb (heard gb wb (ca n))) (spoken gb wb (heard gb wb (ca (S n))))). now apply said_mono, heard_mono.
Qed.
Lemma cchain_le n m : (n <= m)%nat -> prefix (ca n) (ca m) /\ prefix (cb n) (cb m).
Proof.
  induction 1 as [|m _ [IH1 IH2]]; [split; apply prefix_refl|]. destruct (cchain m) as [H1 H2].
  split; eapply prefix_trans; eassumption.
Qed.

Notation mrun' evs := (mrun ba bb ga gb evs wa wb).
Lemma mrun_snoc evs e : mrun' (evs ++ [e]) = mstep ra rb (mrun' evs) e.
Proof. unfold mrun. rewrite fold_left_app. reflexivity. Qed.
Lemma mdriven_mrun evs : exists ea eb, mdriven (mrun' evs) ea eb.
Proof.
  induction evs as [|e evs IH] using List.rev_ind.
  - exists [], []. unfold mdriven, mrun. cbn. repeat split; try constructor; lia.
  - destruct IH as (ea & eb & H). rewrite mrun_snoc. eexists. eexists. apply mdriven_step. exact H.
Qed.
Lemma mdriven_safe s ea eb : mdriven s ea eb ->
  prefix (eshown (m_a s)) (heard ga wa (bytes_of (arrivals ea))) /\ prefix (eout (m_a s)) (spoken ga wa (eshown (m_a s))) /\
  prefix (eshown (m_b s)) (heard gb wb (bytes_of (arrivals eb))) /\ prefix (eout (m_b s)) (spoken gb wb (eshown (m_b s))) /\
  prefix (bytes_of (arrivals ea)) (eout (m_b s)) /\ prefix (bytes_of (arrivals eb)) (eout (m_a s)).
Proof.
  intros (H1 & H2 & H4 & H5 & H6 & H7 & H8 & H9). rewrite H8, H9.
  destruct (end_safe ba ga wa ea Ga Ra H4) as [A1 A2]. destruct (end_safe bb gb wb eb Gb Rb H5) as [B1 B2].
  fold ra in A1, A2. fold rb in B1, B2. rewrite <- H1 in A1, A2. rewrite <- H2 in B1, B2. rewrite H8 in B1. rewrite H9 in A1.
  repeat (split; [assumption|]). split; apply prefix_firstn.
Qed.
Lemma msafe evs : let s := mrun' evs in
  exists n, prefix (eout (m_a s)) (ca n) /\ prefix (eout (m_b s)) (cb n) /\
            prefix (eshown (m_a s)) (heard ga wa (cb n)) /\ prefix (eshown (m_b s)) (heard gb wb (ca n)).
Proof.
  cbv zeta.
  assert (forall s, (exists ea eb, mdriven s ea eb) -> (exists n, prefix (eout (m_a s)) (ca n) /\ prefix (eout (m_b s)) (cb n)) ->
    exists n, prefix (eout (m_a s)) (ca n) /\ prefix (eout (m_b s)) (cb n) /\
            prefix (eshown (m_a s)) (heard ga wa (cb n)) /\ prefix (eshown (m_b s)) (heard gb wb (ca n))) as Hsh.
  { intros s (ea & eb & D) (n & P1 & P2). exists n. destruct (mdriven_safe _ _ _ D) as (A1 & _ & B1 & _ & C1 & C2).
    split; [exact P1|]. split; [exact P2|]. split; [eapply prefix_trans; [exact A1|]; apply heard_mono; exact (prefix_trans _ _ _ C1 P2)|
      eapply prefix_trans; [exact B1|]; apply heard_mono; exact (prefix_trans _ _ _ C2 P1)]. }
  apply Hsh; [apply mdriven_mrun|].
  induction evs as [|e evs IH] using List.rev_ind.
  - exists 1%nat. unfold mrun, eout. cbn [fold_left m_a m_b ca cb said]. unfold estart.
    split; [destruct ba|destruct bb]; cbn; eexists; reflexivity.
  - destruct (Hsh _ (mdriven_mrun evs) IH) as (n & P1 & P2 & P3 & P4). clear IH. rewrite mrun_snoc.
    destruct (mdriven_mrun evs) as (ea & eb & D). pose proof (mdriven_step _ _ _ e D) as D'.
    destruct (mdriven_safe _ _ _ D) as (_ & _ & _ & _ & C1 & C2).
    destruct (mdriven_safe _ _ _ D') as (A1' & A2' & B1' & B2' & C1' & C2').
    set (s := mrun' evs) in *. exists (S n). destruct (cchain n) as [K1 K2].
    destruct e as [| |k|k]; cbn [mstep ma_of mb_of m_a m_b] in *; rewrite ?app_nil_r in *.
    + rewrite arrivals_app in A1'. cbn [arrivals] in A1'. rewrite app_nil_r in A1'. split; [|exact (prefix_trans _ _ _ P2 K2)].
      eapply prefix_trans; [exact A2'|]. apply said_mono. eapply prefix_trans; [exact A1'|]. apply heard_mono. exact (prefix_trans _ _ _ C1 P2).
    + rewrite arrivals_app in B1'. cbn [arrivals] in B1'. rewrite app_nil_r in B1'. split; [exact (prefix_trans _ _ _ P1 K1)|].
      eapply prefix_trans; [exact B2'|]. apply said_mono. eapply prefix_trans; [exact B1'|]. apply heard_mono. exact (prefix_trans _ _ _ C2 P1).
    + rewrite edeliver_out. split; [exact (prefix_trans _ _ _ P1 K1)|exact (prefix_trans _ _ _ P2 K2)].
    + rewrite edeliver_out. split; [exact (prefix_trans _ _ _ P1 K1)|exact (prefix_trans _ _ _ P2 K2)].
Qed.
End Talk.

(** * C91 *)
(** Whatever the applications, the implementations used and the schedules: two executions never contradict each other. *)
Theorem C91_deterministic : forall ga gb wa wb ba1 bb1 evs1 ba2 bb2 evs2 s1 s2, sensible ga -> sensible gb -> ready wa -> ready wb ->
  mrun ba1 bb1 ga gb evs1 wa wb = s1 -> mrun ba2 bb2 ga gb evs2 wa wb = s2 ->
  comparable (eshown (m_a s1)) (eshown (m_a s2)) /\ comparable (eshown (m_b s1)) (eshown (m_b s2)) /\
  comparable (eout (m_a s1)) (eout (m_a s2)) /\ comparable (eout (m_b s1)) (eout (m_b s2)).
Proof.
  intros ga gb wa wb ba1 bb1 evs1 ba2 bb2 evs2 s1 s2 Ga Gb Ra Rb <- <-.
  destruct (msafe ba1 bb1 ga gb wa wb Ga Gb Ra Rb evs1) as (n1 & A1 & A2 & A3 & A4). destruct (msafe ba2 bb2 ga gb wa wb Ga Gb Ra Rb evs2) as (n2 & B1 & B2 & B3 & B4).
  destruct (cchain_le ga gb wa wb n1 (Nat.max n1 n2) ltac:(lia)) as [K1 K2]. destruct (cchain_le ga gb wa wb n2 (Nat.max n1 n2) ltac:(lia)) as [K3 K4].
  split; [|split; [|split]].
  - eapply prefix_comparable; [exact (prefix_trans _ _ _ A3 (heard_mono ga wa _ _ K2))|exact (prefix_trans _ _ _ B3 (heard_mono ga wa _ _ K4))].
  - eapply prefix_comparable; [exact (prefix_trans _ _ _ A4 (heard_mono gb wb _ _ K1))|exact (prefix_trans _ _ _ B4 (heard_mono gb wb _ _ K3))].
  - eapply prefix_comparable; [exact (prefix_trans _ _ _ A1 K1)|exact (prefix_trans _ _ _ B1 K3)].
  - eapply prefix_comparable; [exact (prefix_trans _ _ _ A2 K2)|exact (prefix_trans _ _ _ B2 K4)].
Qed.
Print Assumptions C91_deterministic.

(** * Fair schedules *)
Section Fair.
Variables (ba bb : bool) (ga gb : partner) (wa wb : world) (f : nat -> tev).
Hypothesis (Ga : sensible ga) (Gb : sensible gb) (Ra : ready wa) (Rb : ready wb) (Hf : tfair f).
Let s (n : nat) : chat := mrun ba bb ga gb (tupto f n) wa wb.
Notation mdriven := (mdriven ba bb ga gb wa wb).
Notation tcnt := (tcnt f).

Lemma ms_S n : s (S n) = mstep (acts ga) (acts gb) (s n) (f n).
Proof.
  unfold s. replace (tupto f (S n)) with (tupto f n ++ [f n]) by (unfold tupto; rewrite seq_S, map_app; reflexivity).
  unfold mrun. rewrite fold_left_app. reflexivity.
Qed.
Lemma mdriven_from N ea eb : mdriven (s N) ea eb -> forall n, (N <= n)%nat ->
  exists ea' eb', mdriven (s n) (ea ++ ea') (eb ++ eb') /\
    nticks ea' = (tcnt 0 n - tcnt 0 N)%nat /\ nticks eb' = (tcnt 1 n - tcnt 1 N)%nat.
Proof.
  intros D n Hn. induction Hn as [|n Hn IH].
  - exists [], []. rewrite !app_nil_r, !Nat.sub_diag. auto.
  - destruct IH as (ea' & eb' & D1 & H1 & H2). rewrite ms_S. eexists. eexists.
    split; [pose proof (mdriven_step ba bb ga gb wa wb Ga Gb Ra Rb _ _ _ (f n) D1) as D2; rewrite <- !app_assoc in D2; exact D2|].
    rewrite !nticks_app, H1, H2. pose proof (tcnt_mono (plain ga) (plain gb) wa wb f 0 N n Hn). pose proof (tcnt_mono (plain ga) (plain gb) wa wb f 1 N n Hn). cbn [PropTalk.tcnt].
    destruct (f n) as [| |k|k]; cbn [ma_of mb_of tkind Nat.eqb nticks]; try (split; lia).
    + destruct (segment _ _ _); cbn [nticks]; split; lia.
    + destruct (segment _ _ _); cbn [nticks]; split; lia.
Qed.
Lemma mout_step n :
  (m_ab (s n) <= m_ab (s (S n)))%nat /\ (m_ba (s n) <= m_ba (s (S n)))%nat /\
  (tkind (f n) = 2 -> m_ab (s n) < length (eout (m_a (s n))) -> m_ab (s n) < m_ab (s (S n)))%nat /\
  (tkind (f n) = 3 -> m_ba (s n) < length (eout (m_b (s n))) -> m_ba (s n) < m_ba (s (S n)))%nat.
Proof.
  rewrite ms_S. destruct (f n) as [| |k|k]; cbn [mstep m_a m_b m_ab m_ba tkind]; repeat split; try lia; try discriminate.
  - intros _ H. pose proof (segment_pos k _ _ H). lia.
  - intros _ H. pose proof (segment_pos k _ _ H). lia.
Qed.
Lemma mround n N : (forall k, (N <= k)%nat -> prefix (ca ga gb wa wb n) (eout (m_a (s k))) /\ prefix (cb ga gb wa wb n) (eout (m_b (s k)))) ->
  exists N', forall k, (N' <= k)%nat ->
    prefix (ca ga gb wa wb (S n)) (eout (m_a (s k))) /\ prefix (cb ga gb wa wb (S n)) (eout (m_b (s k))) /\
    prefix (heard ga wa (cb ga gb wa wb n)) (eshown (m_a (s k))) /\ prefix (heard gb wb (ca ga gb wa wb n)) (eshown (m_b (s k))).
Proof.
  intros H. set (A := ca ga gb wa wb n) in *. set (B := cb ga gb wa wb n) in *.
  destruct (tfair_fills (plain ga) (plain gb) wa wb f Hf 2 (fun k => m_ab (s k)) (length A) N ltac:(lia)) as (N1 & HN1 & F1).
  { intros k Hk. destruct (mout_step k) as (H1 & _ & H2 & _). split; [exact H1|]. intros Hx Hy. apply H2; [exact Hx|].
    destruct (H k Hk) as [[t Ht] _]. rewrite Ht, app_length. lia. }
  destruct (tfair_fills (plain ga) (plain gb) wa wb f Hf 3 (fun k => m_ba (s k)) (length B) N ltac:(lia)) as (N2 & HN2 & F2).
  { intros k Hk. destruct (mout_step k) as (_ & H1 & _ & H2). split; [exact H1|]. intros Hx Hy. apply H2; [exact Hx|].
    destruct (H k Hk) as [_ [t Ht]]. rewrite Ht, app_length. lia. }
  set (M := Nat.max N1 N2). destruct (mdriven_mrun ba bb ga gb wa wb Ga Gb Ra Rb (tupto f M)) as (ea & eb & D). fold (s M) in D.
  pose proof D as (_ & _ & D4 & D5 & _ & _ & D8 & D9).
  assert (prefix A (bytes_of (arrivals eb)) /\ prefix B (bytes_of (arrivals ea))) as [PA PB].
  { destruct (H M ltac:(lia)) as [[t1 T1] [t2 T2]]. specialize (F1 M ltac:(lia)). specialize (F2 M ltac:(lia)). rewrite D8, D9, T1, T2.
    rewrite !firstn_app, (firstn_all2 A), (firstn_all2 B) by lia. split; eexists; reflexivity. }
  destruct (end_live ba ga wa ea Ga Ra D4) as [na LA]. destruct (end_live bb gb wb eb Gb Rb D5) as [nb LB].
  destruct (tfair_cnt (plain ga) (plain gb) wa wb f Hf 0 (na + tcnt 0 M) ltac:(lia)) as [N3 HN3]. destruct (tfair_cnt (plain ga) (plain gb) wa wb f Hf 1 (nb + tcnt 1 M) ltac:(lia)) as [N4 HN4].
  exists (Nat.max M (Nat.max N3 N4)). intros k Hk. destruct (mdriven_from M ea eb D k ltac:(lia)) as (ea' & eb' & (E1 & E2 & E4 & E5 & _) & T1 & T2).
  rewrite arrivals_app in E4, E5. apply Forall_app in E4 as [_ E4]. apply Forall_app in E5 as [_ E5].
  specialize (HN3 k ltac:(lia)). specialize (HN4 k ltac:(lia)).
  destruct (LA ea' E4 ltac:(lia)) as [LA1 LA2]. destruct (LB eb' E5 ltac:(lia)) as [LB1 LB2]. rewrite <- E1 in LA1, LA2. rewrite <- E2 in LB1, LB2.
  split; [|split; [|split]].
  - eapply prefix_trans; [|exact LA2]. change (ca ga gb wa wb (S n)) with (said (plain ga) wa (heard ga wa B)). apply said_mono, heard_mono, PB.
  - eapply prefix_trans; [|exact LB2]. change (cb ga gb wa wb (S n)) with (said (plain gb) wb (heard gb wb A)). apply said_mono, heard_mono, PA.
  - eapply prefix_trans; [|exact LA1]. apply heard_mono, PB.
  - eapply prefix_trans; [|exact LB1]. apply heard_mono, PA.
Qed.
Lemma mlive n : exists N, forall k, (N <= k)%nat -> prefix (ca ga gb wa wb n) (eout (m_a (s k))) /\ prefix (cb ga gb wa wb n) (eout (m_b (s k))).
Proof.
  induction n as [|n [N IH]]; [exists 0%nat; intros; split; apply prefix_nil|].
  destruct (mround n N IH) as [N' H]. exists N'. intros k Hk. destruct (H k Hk) as (H1 & H2 & _). auto.
Qed.
End Fair.

(** Everything that is shown or written in some execution, with some choice of implementations, is shown and written, after finitely many steps, in
    every execution, with any choice of implementations, in which both sides and both directions of the network keep going. *)
Theorem C91_fair : forall ga gb wa wb ba1 bb1 evs ba2 bb2 f s1, sensible ga -> sensible gb -> ready wa -> ready wb -> tfair f ->
  mrun ba1 bb1 ga gb evs wa wb = s1 ->
  exists N, forall n, (N <= n)%nat -> forall s2, mrun ba2 bb2 ga gb (tupto f n) wa wb = s2 ->
  prefix (eshown (m_a s1)) (eshown (m_a s2)) /\ prefix (eshown (m_b s1)) (eshown (m_b s2)) /\
  prefix (eout (m_a s1)) (eout (m_a s2)) /\ prefix (eout (m_b s1)) (eout (m_b s2)).
Proof.
  intros ga gb wa wb ba1 bb1 evs ba2 bb2 f s1 Ga Gb Ra Rb Hf <-.
  destruct (msafe ba1 bb1 ga gb wa wb Ga Gb Ra Rb evs) as (n & A1 & A2 & A3 & A4).
  destruct (mlive ba2 bb2 ga gb wa wb f Ga Gb Ra Rb Hf n) as [N1 H1].
  destruct (mround ba2 bb2 ga gb wa wb f Ga Gb Ra Rb Hf n N1 H1) as [N2 H2].
  exists (Nat.max N1 N2). intros k Hk s2 <-. destruct (H1 k ltac:(lia)) as [B1 B2]. destruct (H2 k ltac:(lia)) as (_ & _ & B3 & B4).
  split; [exact (prefix_trans _ _ _ A3 B3)|]. split; [exact (prefix_trans _ _ _ A4 B4)|].
  split; [exact (prefix_trans _ _ _ A1 B1)|exact (prefix_trans _ _ _ A2 B2)].
Qed.
Print Assumptions C91_fair.

(** Every pong is answered by a longer ping, every ping by a pong with its payload; A throws at the third pong. *)
Definition impatient : partner := fun os =>
  match last os (OEnd 0) with
  | OPong p => ((if lenN p <? 100 then [SoPing (Some (x61 :: p))] else []), 2 <=? lenN p)
  | OPing p => ((if lenN p <? 100 then [SoPong (Some p)] else []), false)
  | _ => ([], false)
  end.
Example C91_nonvacuous :
  let wa := World [] [WAccept 1; WIo IoRetry] [x89; x80; x01; x02; x03; x04] (fun i => n2b (N.of_nat i)) 4 [] (set_listener (sock_new true) (Some 3%nat)) in
  let wb := aworld [] [WIo IoRetry; WAccept 1] in
  sensible impatient /\ ready wa /\ ready wb /\ tfair in_turn /\
  eshown (m_a (mrun true false impatient impatient (tupto in_turn 900) wa wb)) = [OPong []; OPong [x61]; OPong [x61; x61]] /\
  eshown (m_b (mrun true false impatient impatient (tupto in_turn 900) wa wb)) = [OPing []; OPing [x61]; OPing [x61; x61]; OPing [x61; x61; x61]] /\
  eshown (m_a (mrun false true impatient impatient (tupto lazy_net 900) wa wb)) = [OPong []; OPong [x61]; OPong [x61; x61]].
Proof.
  cbv zeta. split.
  { intros os. unfold impatient. destruct (last os (OEnd 0)) as [op b|op|p|p|c p]; cbn [fst]; try constructor.
    - destruct (lenN p <? 100) eqn:E; repeat constructor. cbn. lia.
    - destruct (lenN p <? 100) eqn:E; repeat constructor. cbn. unfold lenN in *. cbn [length]. lia. }
  assert (forall w, w_in w = [] /\ w_log w = [] /\ s_listening (w_sock w) = false /\ s_last (w_sock w) = (-1)%Z /\ s_buf (w_sock w) = 1024%Z ->
    healthy (w_wr w) -> (exists l, s_listener (w_sock w) = Some l) -> ready w) as Hr.
  { intros w (H1 & H2 & H3 & H4 & H5) H6 H7. repeat (split; [assumption|]). split; [left; exact H4|]. split; [rewrite H5; reflexivity|exact H7]. }
  split; [apply Hr; [repeat split|repeat constructor|eexists; reflexivity]|]. split; [apply Hr; [repeat split|repeat constructor|eexists; reflexivity]|].
  split.
  { intros k Hk n. exists (4 * n + k)%nat. split; [lia|]. unfold in_turn. replace (Nat.modulo (4 * n + k) 4) with k.
    - destruct k as [|[|[|[|k]]]]; try reflexivity. lia.
    - rewrite Nat.add_comm, Nat.mul_comm, Nat.mod_add by lia. symmetry. now apply Nat.mod_small. }
  split; [vm_compute; reflexivity|]. split; vm_compute; reflexivity.
Qed.
