(** Property theorems: C58, two applications talking over a network. *)
From Verif Require Import Bytes Frame World WebSocket AsyncWebSocket SpecFrame SpecSend SpecListen SpecApi SpecReply SpecAsync SpecNet SpecTalk
  ProofFrame ProofStream ProofSend ProofCodec ProofHeader ProofListen ProofReading ProofApi ProofInv ProofHistory ProofProps
  ProofAsync ProofAsync2 ProofAsync3 PropListen PropListen2 PropReply PropAsync PropAsync2 PropAsync3 PropNet.
From Coq Require Import ZifyBool ZifyNat ZifyN.
Local Open Scope N_scope.
Local Arguments takeN : simpl never.
Local Arguments dropN : simpl never.
Local Arguments lenN : simpl never.
Local Arguments be_enc : simpl never.
Local Arguments be_dec : simpl never.
Notation step := AsyncWebSocket.step.

(** * More arrivals do not take anything back *)
Fixpoint nticks (evs : list xev) : nat := match evs with [] => 0 | Tick :: r => S (nticks r) | Arrive _ :: r => nticks r end%nat.
Lemma nticks_app a b : nticks (a ++ b) = (nticks a + nticks b)%nat.
Proof. induction a as [|[|s] a IH]; cbn; [reflexivity|now rewrite IH|exact IH]. Qed.
Definition more (c c' : conf) : Prop := prefix (w_log (c_world c)) (w_log (c_world c')) /\ prefix (w_out (c_world c)) (w_out (c_world c')).
Lemma more_refl c : more c c.
Proof. split; apply prefix_refl. Qed.
Lemma more_trans a b c : more a b -> more b c -> more a c.
Proof. intros [A1 A2] [B1 B2]. split; eapply prefix_trans; eassumption. Qed.
Lemma more_arrive s c : more c (arrive s c).
Proof. split; apply prefix_refl. Qed.

Section More.
Variable react : react_t.
Lemma tick_more sc : more (snd sc) (snd (tick react sc)).
Proof.
  destruct sc as [st c]. unfold tick. destruct st; try apply more_refl; cbn [snd];
    destruct (step react c) as [st1 c1] eqn:E; apply step_grows in E; cbn [snd]; split; apply E.
Qed.
Lemma run_more evs : forall sc, more (snd sc) (snd (run react evs sc)).
Proof.
  induction evs as [|[|s] evs IH]; intros sc; cbn [run]; [apply more_refl| |].
  - eapply more_trans; [apply tick_more|apply IH].
  - eapply more_trans; [|apply IH]. apply more_arrive.
Qed.
Lemma ticks_arrive n s : forall st c, io_only (w_in (c_world c)) -> more (snd (run react (ticks n) (st, c))) (snd (run react (ticks n) (st, arrive s c))).
Proof.
  induction n as [|n IH]; intros st c Hio; [apply more_arrive|]. cbn [ticks run].
  assert (going st \/ ~ going st) as [Hg|Hg] by (destruct st; [left; now left|left; now right|right; intros [|]; discriminate..]).
  2: { assert (forall c, tick react (st, c) = (st, c)) as Ht by (intros c0; destruct st; try reflexivity; exfalso; apply Hg; [now left|now right]).
       rewrite !Ht, !run_ticks_stopped by exact Hg. apply more_arrive. }
  assert (forall c, tick react (st, c) = step react c) as Ht by (intros c0; destruct Hg as [-> | ->]; reflexivity). rewrite !Ht.
  destruct (step react c) as [st1 c1] eqn:E. destruct st1.
  - rewrite (step_arrive react s _ _ _ E) by discriminate. apply IH. apply (step_grows _ _ _ _ E). exact Hio.
  - pose proof (step_wait react _ _ Hio E) as ->. rewrite run_ticks_wait by exact E. cbn [snd].
    eapply more_trans; [apply (more_arrive s)|]. rewrite <- Ht. eapply more_trans; [exact (tick_more (st, arrive s c))|apply run_more].
  - rewrite (step_arrive react s _ _ _ E) by discriminate. apply IH. apply (step_grows _ _ _ _ E). exact Hio.
  - rewrite (step_arrive react s _ _ _ E) by discriminate. apply IH. apply (step_grows _ _ _ _ E). exact Hio.
  - rewrite (step_arrive react s _ _ _ E) by discriminate. apply IH. apply (step_grows _ _ _ _ E). exact Hio.
Qed.
Lemma ticks_more evs : forall n st c, io_only (w_in (c_world c)) -> io_only (arrivals evs) -> (n <= nticks evs)%nat ->
  more (snd (run react (ticks n) (st, c))) (snd (run react evs (st, c))).
Proof.
  induction evs as [|[|s] evs IH]; intros n st c Hio Har Hn; cbn [nticks run] in *.
  - replace n with 0%nat by lia. apply more_refl.
  - destruct n as [|n]; [eapply more_trans; [|apply run_more]; apply tick_more|]. cbn [ticks run].
    destruct (tick react (st, c)) as [st1 c1] eqn:E. apply IH; [|exact Har|lia].
    unfold tick in E. destruct st; try (injection E as <- <-; exact Hio); apply (step_grows _ _ _ _ E); exact Hio.
  - cbn [arrivals] in Har. apply Forall_app in Har as [H1 H2].
    eapply more_trans; [apply (ticks_arrive n s); exact Hio|]. apply IH; [|exact H2|exact Hn].
    cbn. now apply io_only_app.
Qed.
End More.

(** * Applications as functions of streams *)
Fixpoint app_sends (g : application) (pre os : list obs) : list sendop :=
  match os with
  | [] => []
  | o :: r => (match o with OByte _ _ => [] | _ => g (pre ++ [o]) end) ++ app_sends g (pre ++ [o]) r
  end.
Lemma app_sends_app g os1 : forall pre os2, app_sends g pre (os1 ++ os2) = app_sends g pre os1 ++ app_sends g (pre ++ os1) os2.
Proof.
  induction os1 as [|o r IH]; intros pre os2; cbn [app app_sends]; [now rewrite app_nil_r|].
  rewrite IH, <- !app_assoc. reflexivity.
Qed.
Lemma app_sends_bytes g op d : forall pre, app_sends g pre (map (OByte op) d) = [].
Proof. induction d as [|b d IH]; intros pre; cbn; [reflexivity|apply IH]. Qed.
Lemma sends_of_map ops : sends_of (map (CSend false) ops) = ops.
Proof. induction ops as [|o r IH]; cbn; [reflexivity|now rewrite IH]. Qed.
Lemma app_replies g new : forall log, replies (listener_of g) log new = app_sends g (transcript log) (transcript new).
Proof.
  induction new as [|[l ev] r IH]; intros log; [reflexivity|]. cbn [replies fst].
  change ((l, ev) :: r) with ([(l, ev)] ++ r). rewrite (transcript_app [(l, ev)] r), app_sends_app, IH, transcript_app. f_equal.
  unfold listener_of. rewrite last_last. cbn [snd].
  assert (transcript [(l, ev)] = observe ev) as Ho by (unfold transcript; cbn; apply app_nil_r). rewrite transcript_app, Ho.
  destruct ev as [o d|o|p|p|c p]; cbn [observe]; [now rewrite app_sends_bytes|..]; cbn [app_sends]; rewrite sends_of_map, app_nil_r; reflexivity.
Qed.
Lemma app_classes g : modest g -> user_react (listener_of g) /\ no_use (listener_of g) /\ polite_react (listener_of g) /\ never_stops (listener_of g).
Proof.
  intros Hg.
  assert (forall l log, exists ops, listener_of g l log = map (CSend false) ops /\ Forall (fun op => lenN (req_payload op) < 2 ^ 31) ops) as H.
  { intros l log. unfold listener_of. destruct (snd (last log (0%nat, EvEnd 0))); [exists []; split; [reflexivity|constructor]|eexists; split; [reflexivity|apply Hg]..]. }
  repeat split; intros l log; destruct (H l log) as (ops & -> & Hf); clear - Hf.
  - apply Forall_map, Forall_forall. intros x _. exact I.
  - apply Forall_map, Forall_forall. intros x _. discriminate.
  - apply Forall_map. exact Hf.
  - induction ops as [|o r IH]; [reflexivity|]. inversion Hf; subst. cbn. now apply IH.
Qed.

Definition saw (w : world) (bs : bytes) : list obs := stream_reading (open_of (w_sock w)) bs.
Definition said (g : application) (w : world) (os : list obs) : bytes := w_out w ++ frames_of (s_mask (w_sock w)) (w_rnd w) (w_rpos w) (app_sends g [] os).
Lemma saw_mono w a b : prefix a b -> prefix (saw w a) (saw w b).
Proof. intros [t ->]. apply stream_trunc. Qed.
Lemma said_mono g w a b : prefix a b -> prefix (said g w a) (said g w b).
Proof. intros [t ->]. unfold said. rewrite app_sends_app, frames_of_app, !app_assoc. eexists. reflexivity. Qed.

(** At any time an endpoint is behind the stream function. *)
Lemma endpoint_safe g w evs : modest g -> ready w -> clean (arrivals evs) ->
  let sc := run (listener_of g) evs (ARun, start_listen w) in
  prefix (shown_to sc) (saw w (bytes_of (arrivals evs))) /\ prefix (out_of sc) (said g w (shown_to sc)).
Proof.
  intros Hg (Hin & Hlog & Hh & Hl & Hlo & Hb & _) Hc sc. destruct (app_classes g Hg) as (Hu & _ & Hp & _).
  assert (io_only (w_in w)) as Hio by (rewrite Hin; constructor).
  destruct sc as [st c] eqn:E. unfold shown_to, out_of. cbn [snd]. unfold sc in E.
  destruct (C53_only_a_prefix _ _ _ _ _ Hl Hio (clean_io_only _ Hc) Hu Hlo E) as (new & N1 & _ & N3).
  rewrite Hlog in N1. cbn [app] in N1. rewrite Hin in N3. cbn [app] in N3. rewrite N1. split; [exact N3|].
  destruct (C56_replies _ _ w evs st c Hl Hio (clean_io_only _ Hc) Hu eq_refl (polite_mask _ _ Hp) Hh E) as (new' & N1' & R1 & _).
  rewrite Hlog, N1 in N1'. cbn [app] in N1'. subst new'. rewrite Hlog, app_replies in R1. exact R1.
Qed.
(** With enough steps it has caught up with what had arrived. *)
Lemma endpoint_live g w evs : modest g -> ready w -> clean (arrivals evs) ->
  exists n, forall evs2, clean (arrivals evs2) -> (n <= nticks evs2)%nat ->
  let sc := run (listener_of g) (evs ++ evs2) (ARun, start_listen w) in
  prefix (saw w (bytes_of (arrivals evs))) (shown_to sc) /\ prefix (said g w (saw w (bytes_of (arrivals evs)))) (out_of sc).
Proof.
  intros Hg (Hin & Hlog & Hh & Hl & Hlo & Hb & l0 & Hls) Hc. destruct (app_classes g Hg) as (Hu & Hnu & Hp & Hns).
  assert (io_only (w_in w)) as Hio by (rewrite Hin; constructor).
  destruct (C53_delivery (listener_of g) w evs Hl Hu) as [n1 H1].
  { split; [cbn; rewrite Hin; exact Hc|]. split; [exact Hh|]. split; [exact Hp|]. split; [exact Hns|]. split; [exact Hb|exact Hlo]. }
  destruct (C56_completion _ (listener_of g) w evs Hl Hio (clean_io_only _ Hc) Hu Hnu eq_refl (polite_mask _ _ Hp) Hh) as [n2 H2].
  exists (n1 + n2)%nat. intros evs2 Hc2 Hn2 sc.
  destruct (run (listener_of g) (evs ++ ticks (n1 + n2)) (ARun, start_listen w)) as [st0 c0] eqn:E0.
  destruct (H1 (n1 + n2)%nat ltac:(lia) _ _ E0) as [-> |(new & N1 & _ & N3 & _)].
  { exfalso. destruct (C31_only_way _ _ _ _ E0) as (log & l & op & d & _ & Hi).
    specialize (Hnu l (w_log (c_world c0))). rewrite Forall_forall in Hnu. exact (Hnu _ Hi eq_refl). }
  destruct (H2 (n1 + n2)%nat ltac:(lia) _ _ E0) as (new' & N1' & R). rewrite Hlog in N1, N1'. cbn [app] in N1, N1'. rewrite N1 in N1'. subst new'.
  rewrite Hlog, app_replies in R. rewrite Hin in N3. cbn [app] in N3. unfold seen in N3. rewrite Hls in N3. fold (saw w (bytes_of (arrivals evs))) in N3.
  assert (more c0 (snd sc)) as [M1 M2].
  { unfold sc. rewrite run_app. rewrite run_app in E0. destruct (run (listener_of g) evs (ARun, start_listen w)) as [st1 c1] eqn:E1.
    change c0 with (snd (st0, c0)). rewrite <- E0. apply ticks_more; [|now apply clean_io_only|exact Hn2].
    apply (run_io (listener_of g) evs ARun (start_listen w) st1 c1 (or_introl eq_refl) Hio (clean_io_only _ Hc) E1). }
  unfold shown_to, out_of. split.
  - rewrite <- N3, <- N1. destruct M1 as [t ->]. rewrite transcript_app. eexists. reflexivity.
  - unfold said. rewrite <- N3. cbn [transcript flat_map] in R. rewrite <- R. exact M2.
Qed.

(** * The two together *)
Section Talk.
Variables (ga gb : application) (wa wb : world).
Hypothesis (Ga : modest ga) (Gb : modest gb) (Ra : ready wa) (Rb : ready wb).
Let ra := listener_of ga.
Let rb := listener_of gb.

Definition tdriven (s : talk) (ea eb : list xev) : Prop :=
  t_a s = run ra ea (ARun, start_listen wa) /\ t_b s = run rb eb (ARun, start_listen wb) /\
  clean (arrivals ea) /\ clean (arrivals eb) /\ (t_ab s <= length (out_of (t_a s)))%nat /\ (t_ba s <= length (out_of (t_b s)))%nat /\
  bytes_of (arrivals eb) = firstn (t_ab s) (out_of (t_a s)) /\ bytes_of (arrivals ea) = firstn (t_ba s) (out_of (t_b s)).
Definition ea_of (s : talk) (e : tev) : list xev :=
  match e with
  | TickA => [Tick]
  | BA k => match segment k (t_ba s) (out_of (t_b s)) with [] => [] | b :: bs => [Arrive [RData b bs]] end
  | _ => [] end.
Definition eb_of (s : talk) (e : tev) : list xev :=
  match e with
  | TickB => [Tick]
  | AB k => match segment k (t_ab s) (out_of (t_a s)) with [] => [] | b :: bs => [Arrive [RData b bs]] end
  | _ => [] end.
Lemma tdriven_step s ea eb e : tdriven s ea eb -> tdriven (tstep ra rb s e) (ea ++ ea_of s e) (eb ++ eb_of s e).
Proof.
  intros (H1 & H2 & H4 & H5 & H6 & H7 & H8 & H9). unfold tdriven. destruct e as [| |k|k]; cbn [tstep ea_of eb_of t_a t_b t_ab t_ba]; rewrite ?app_nil_r.
  - split; [rewrite run_tick_end, H1; reflexivity|]. rewrite arrivals_app. cbn [arrivals]. rewrite app_nil_r.
    destruct (firstn_prefix (t_ab s) _ _ (tick_out ra (t_a s)) H6) as [F1 F2]. repeat (split; [assumption|]). split; [|exact H9]. rewrite H8. exact F1.
  - split; [exact H1|]. split; [rewrite run_tick_end, H2; reflexivity|]. rewrite arrivals_app. cbn [arrivals]. rewrite app_nil_r.
    destruct (firstn_prefix (t_ba s) _ _ (tick_out rb (t_b s)) H7) as [F1 F2]. repeat (split; [assumption|]). rewrite H9. exact F1.
  - unfold out_of in *. set (seg := segment k (t_ab s) (w_out (c_world (snd (t_a s))))).
    rewrite !arrivals_app, deliver_arr, bytes_of_app, deliver_bytes, deliver_out. split; [exact H1|]. split; [rewrite H2; apply deliver_run|].
    split; [exact H4|]. split; [apply Forall_app; split; [exact H5|apply deliver_clean]|].
    split; [pose proof (segment_le k (t_ab s) (w_out (c_world (snd (t_a s))))); fold seg in H; lia|]. split; [exact H7|].
    split; [|exact H9]. rewrite H8. now apply segment_app.
  - unfold out_of in *. set (seg := segment k (t_ba s) (w_out (c_world (snd (t_b s))))).
    rewrite !arrivals_app, deliver_arr, bytes_of_app, deliver_bytes, deliver_out. split; [rewrite H1; apply deliver_run|]. split; [exact H2|].
    split; [apply Forall_app; split; [exact H4|apply deliver_clean]|]. split; [exact H5|]. split; [exact H6|].
    split; [pose proof (segment_le k (t_ba s) (w_out (c_world (snd (t_b s))))); fold seg in H; lia|]. split; [exact H8|].
    rewrite H9. now apply segment_app.
Qed.

(** The conversation, round by round. *)
Fixpoint oa (n : nat) : bytes := match n with O => [] | S k => said ga wa (saw wa (ob k)) end
with ob (n : nat) : bytes := match n with O => [] | S k => said gb wb (saw wb (oa k)) end.

Lemma chain n : prefix (oa n) (oa (S n)) /\ prefix (ob n) (ob (S n)).
Proof.
  induction n as [|n [IH1 IH2]]; [split; apply prefix_nil|]. split.
  - change (prefix (said ga wa (saw wa (ob n))) (said ga wa (saw wa (ob (S n))))). now apply said_mono, saw_mono.
  - change (prefix (said gb wb (saw wb (oa n))) (said gb wb (saw wb (oa (S n))))). now apply said_mono, saw_mono.
Qed.
Lemma chain_le n m : (n <= m)%nat -> prefix (oa n) (oa m) /\ prefix (ob n) (ob m).
Proof.
  induction 1 as [|m _ [IH1 IH2]]; [split; apply prefix_refl|]. destruct (chain m) as [H1 H2].
  split; eapply prefix_trans; eassumption.
Qed.

Lemma trun_snoc evs e : trun ga gb (evs ++ [e]) wa wb = tstep ra rb (trun ga gb evs wa wb) e.
Proof. unfold trun. rewrite fold_left_app. reflexivity. Qed.
Lemma tdriven_trun evs : exists ea eb, tdriven (trun ga gb evs wa wb) ea eb.
Proof.
  induction evs as [|e evs IH] using List.rev_ind.
  - exists [], []. unfold tdriven, trun, out_of. cbn. repeat split; try constructor; lia.
  - destruct IH as (ea & eb & H). rewrite trun_snoc. eexists. eexists. apply tdriven_step. exact H.
Qed.
Lemma tdriven_safe s ea eb : tdriven s ea eb ->
  prefix (shown_to (t_a s)) (saw wa (bytes_of (arrivals ea))) /\ prefix (out_of (t_a s)) (said ga wa (shown_to (t_a s))) /\
  prefix (shown_to (t_b s)) (saw wb (bytes_of (arrivals eb))) /\ prefix (out_of (t_b s)) (said gb wb (shown_to (t_b s))) /\
  prefix (bytes_of (arrivals ea)) (out_of (t_b s)) /\ prefix (bytes_of (arrivals eb)) (out_of (t_a s)).
Proof.
  intros (H1 & H2 & H4 & H5 & H6 & H7 & H8 & H9). rewrite H8, H9.
  destruct (endpoint_safe ga wa ea Ga Ra H4) as [A1 A2]. destruct (endpoint_safe gb wb eb Gb Rb H5) as [B1 B2].
  fold ra in A1, A2. fold rb in B1, B2. rewrite <- H1 in A1, A2. rewrite <- H2 in B1, B2. rewrite H8 in B1. rewrite H9 in A1.
  repeat (split; [assumption|]). split; apply prefix_firstn.
Qed.
Lemma tsafe evs : let s := trun ga gb evs wa wb in
  exists n, prefix (out_of (t_a s)) (oa n) /\ prefix (out_of (t_b s)) (ob n) /\
            prefix (shown_to (t_a s)) (saw wa (ob n)) /\ prefix (shown_to (t_b s)) (saw wb (oa n)).
Proof.
  cbv zeta.
  assert (forall s, (exists ea eb, tdriven s ea eb) -> (exists n, prefix (out_of (t_a s)) (oa n) /\ prefix (out_of (t_b s)) (ob n)) ->
    exists n, prefix (out_of (t_a s)) (oa n) /\ prefix (out_of (t_b s)) (ob n) /\
            prefix (shown_to (t_a s)) (saw wa (ob n)) /\ prefix (shown_to (t_b s)) (saw wb (oa n))) as Hsh.
  { intros s (ea & eb & D) (n & P1 & P2). exists n. destruct (tdriven_safe _ _ _ D) as (A1 & _ & B1 & _ & C1 & C2).
    split; [exact P1|]. split; [exact P2|]. split; [eapply prefix_trans; [exact A1|]; apply saw_mono; exact (prefix_trans _ _ _ C1 P2)|
      eapply prefix_trans; [exact B1|]; apply saw_mono; exact (prefix_trans _ _ _ C2 P1)]. }
  apply Hsh; [apply tdriven_trun|].
  induction evs as [|e evs IH] using List.rev_ind.
  - exists 1%nat. unfold trun, out_of. cbn [fold_left t_a t_b snd start_listen c_world oa ob said].
    split; eexists; reflexivity.
  - destruct (Hsh _ (tdriven_trun evs) IH) as (n & P1 & P2 & P3 & P4). clear IH. rewrite trun_snoc.
    destruct (tdriven_trun evs) as (ea & eb & D). pose proof (tdriven_step _ _ _ e D) as D'.
    destruct (tdriven_safe _ _ _ D) as (_ & _ & _ & _ & C1 & C2).
    destruct (tdriven_safe _ _ _ D') as (A1' & A2' & B1' & B2' & C1' & C2').
    set (s := trun ga gb evs wa wb) in *. exists (S n). destruct (chain n) as [K1 K2].
    destruct e as [| |k|k]; cbn [tstep ea_of eb_of t_a t_b] in *; rewrite ?app_nil_r in *.
    + rewrite arrivals_app in A1'. cbn [arrivals] in A1'. rewrite app_nil_r in A1'. split; [|exact (prefix_trans _ _ _ P2 K2)].
      eapply prefix_trans; [exact A2'|]. apply said_mono. eapply prefix_trans; [exact A1'|]. apply saw_mono. exact (prefix_trans _ _ _ C1 P2).
    + rewrite arrivals_app in B1'. cbn [arrivals] in B1'. rewrite app_nil_r in B1'. split; [exact (prefix_trans _ _ _ P1 K1)|].
      eapply prefix_trans; [exact B2'|]. apply said_mono. eapply prefix_trans; [exact B1'|]. apply saw_mono. exact (prefix_trans _ _ _ C2 P1).
    + unfold out_of in *. rewrite deliver_out. split; [exact (prefix_trans _ _ _ P1 K1)|exact (prefix_trans _ _ _ P2 K2)].
    + unfold out_of in *. rewrite deliver_out. split; [exact (prefix_trans _ _ _ P1 K1)|exact (prefix_trans _ _ _ P2 K2)].
Qed.
End Talk.

Lemma prefix_comparable {A} (c : list A) : forall a b, prefix a c -> prefix b c -> comparable a b.
Proof.
  induction c as [|x c IH]; intros a b [t Ha] [u Hb].
  - destruct a; [|discriminate]. left. apply prefix_nil.
  - destruct a as [|y a]; [left; apply prefix_nil|]. destruct b as [|z b]; [right; apply prefix_nil|].
    cbn in Ha, Hb. injection Ha as <- Ha. injection Hb as <- Hb.
    destruct (IH a b) as [[v ->]|[v ->]]; [now exists t|now exists u|left; now exists v|right; now exists v].
Qed.

(** * C58 *)
(** Whatever the applications and the schedules: two executions never contradict each other. What one side has been
    shown, or has written, in one of them is a prefix of that in the other, or the other way round. *)
Theorem C58_deterministic : forall ga gb wa wb evs1 evs2 s1 s2, modest ga -> modest gb -> ready wa -> ready wb ->
  trun ga gb evs1 wa wb = s1 -> trun ga gb evs2 wa wb = s2 ->
  comparable (shown_to (t_a s1)) (shown_to (t_a s2)) /\ comparable (shown_to (t_b s1)) (shown_to (t_b s2)) /\
  comparable (out_of (t_a s1)) (out_of (t_a s2)) /\ comparable (out_of (t_b s1)) (out_of (t_b s2)).
Proof.
  intros ga gb wa wb evs1 evs2 s1 s2 Ga Gb Ra Rb <- <-.
  destruct (tsafe ga gb wa wb Ga Gb Ra Rb evs1) as (n1 & A1 & A2 & A3 & A4). destruct (tsafe ga gb wa wb Ga Gb Ra Rb evs2) as (n2 & B1 & B2 & B3 & B4).
  destruct (chain_le ga gb wa wb n1 (Nat.max n1 n2) ltac:(lia)) as [K1 K2]. destruct (chain_le ga gb wa wb n2 (Nat.max n1 n2) ltac:(lia)) as [K3 K4].
  split; [|split; [|split]].
  - eapply prefix_comparable; [exact (prefix_trans _ _ _ A3 (saw_mono wa _ _ K2))|exact (prefix_trans _ _ _ B3 (saw_mono wa _ _ K4))].
  - eapply prefix_comparable; [exact (prefix_trans _ _ _ A4 (saw_mono wb _ _ K1))|exact (prefix_trans _ _ _ B4 (saw_mono wb _ _ K3))].
  - eapply prefix_comparable; [exact (prefix_trans _ _ _ A1 K1)|exact (prefix_trans _ _ _ B1 K3)].
  - eapply prefix_comparable; [exact (prefix_trans _ _ _ A2 K2)|exact (prefix_trans _ _ _ B2 K4)].
Qed.
Print Assumptions C58_deterministic.

(** * Fair schedules *)
Section Fair.
Variables (ga gb : application) (wa wb : world) (f : nat -> tev).
Hypothesis (Ga : modest ga) (Gb : modest gb) (Ra : ready wa) (Rb : ready wb) (Hf : tfair f).
Let s (n : nat) : talk := trun ga gb (tupto f n) wa wb.
Notation tdriven := (tdriven ga gb wa wb).

Fixpoint tcnt (k : nat) (n : nat) : nat :=
  match n with O => 0%nat | S n => (tcnt k n + if Nat.eqb (tkind (f n)) k then 1 else 0)%nat end.
Lemma tcnt_mono k a b : (a <= b)%nat -> (tcnt k a <= tcnt k b)%nat.
Proof. induction 1 as [|b _ IH]; [lia|]. cbn. lia. Qed.
Lemma tfair_cnt k M : (k < 4)%nat -> exists N, forall n, (N <= n)%nat -> (M <= tcnt k n)%nat.
Proof.
  intros Hk. induction M as [|M [N IH]]; [exists 0%nat; lia|].
  destruct (Hf k Hk N) as (m & Hm & Hkm). exists (S m). intros n Hn. pose proof (tcnt_mono k (S m) n Hn) as H.
  cbn [tcnt] in H. rewrite Hkm, Nat.eqb_refl in H. specialize (IH m Hm). lia.
Qed.
Lemma tfair_fills k (g : nat -> nat) L N0 : (k < 4)%nat ->
  (forall n, (N0 <= n)%nat -> (g n <= g (S n))%nat /\ (tkind (f n) = k -> g n < L -> g n < g (S n))%nat) ->
  exists N, (N0 <= N)%nat /\ forall n, (N <= n)%nat -> (L <= g n)%nat.
Proof.
  intros Hk Hg.
  assert (forall a b, (N0 <= a)%nat -> (a <= b)%nat -> (g a <= g b)%nat) as Hm.
  { intros a b Ha Hab. induction Hab as [|b Hab IH]; [lia|]. destruct (Hg b ltac:(lia)) as (H & _). lia. }
  assert (forall M, (M <= L)%nat -> exists N, (N0 <= N)%nat /\ forall n, (N <= n)%nat -> (M <= g n)%nat) as H.
  { induction M as [|M IH]; intros HM; [exists N0; split; [lia|]; intros; lia|].
    destruct IH as (N & HN & IH); [lia|]. destruct (Hf k Hk N) as (m & Hm1 & Hkm). exists (S m). split; [lia|].
    intros n Hn. pose proof (Hm (S m) n ltac:(lia) Hn) as H1. destruct (Hg m ltac:(lia)) as (H2 & H3). specialize (IH m Hm1). specialize (H3 Hkm). lia. }
  apply (H L). lia.
Qed.
Lemma s_S n : s (S n) = tstep (listener_of ga) (listener_of gb) (s n) (f n).
Proof.
  unfold s. replace (tupto f (S n)) with (tupto f n ++ [f n]) by (unfold tupto; rewrite seq_S, map_app; reflexivity).
  unfold trun. rewrite fold_left_app. reflexivity.
Qed.
Lemma tdriven_from N ea eb : tdriven (s N) ea eb -> forall n, (N <= n)%nat ->
  exists ea' eb', tdriven (s n) (ea ++ ea') (eb ++ eb') /\
    nticks ea' = (tcnt 0 n - tcnt 0 N)%nat /\ nticks eb' = (tcnt 1 n - tcnt 1 N)%nat.
Proof.
  intros D n Hn. induction Hn as [|n Hn IH].
  - exists [], []. rewrite !app_nil_r, !Nat.sub_diag. auto.
  - destruct IH as (ea' & eb' & D1 & H1 & H2). rewrite s_S. eexists. eexists.
    split; [rewrite <- app_assoc || idtac; pose proof (tdriven_step ga gb wa wb _ _ _ (f n) D1) as D2; rewrite <- !app_assoc in D2; exact D2|].
    rewrite !nticks_app, H1, H2. pose proof (tcnt_mono 0 N n Hn). pose proof (tcnt_mono 1 N n Hn). cbn [tcnt].
    destruct (f n) as [| |k|k]; cbn [ea_of eb_of tkind Nat.eqb nticks]; try (split; lia).
    + destruct (segment _ _ _); cbn [nticks]; split; lia.
    + destruct (segment _ _ _); cbn [nticks]; split; lia.
Qed.
Lemma out_step n : more (snd (t_a (s n))) (snd (t_a (s (S n)))) /\ more (snd (t_b (s n))) (snd (t_b (s (S n)))) /\
  (t_ab (s n) <= t_ab (s (S n)))%nat /\ (t_ba (s n) <= t_ba (s (S n)))%nat /\
  (tkind (f n) = 2 -> t_ab (s n) < length (out_of (t_a (s n))) -> t_ab (s n) < t_ab (s (S n)))%nat /\
  (tkind (f n) = 3 -> t_ba (s n) < length (out_of (t_b (s n))) -> t_ba (s n) < t_ba (s (S n)))%nat.
Proof.
  rewrite s_S. assert (forall seg sc, more (snd sc) (snd (deliver seg sc))) as Hd by (intros [|b bs] sc; split; apply prefix_refl).
  destruct (f n) as [| |k|k]; cbn [tstep t_a t_b t_ab t_ba tkind]; repeat split; try apply prefix_refl; try apply tick_more; try apply Hd; try lia; try discriminate.
  - intros _ H. pose proof (segment_pos k _ _ H). lia.
  - intros _ H. pose proof (segment_pos k _ _ H). lia.
Qed.

Lemma tround n N : (forall k, (N <= k)%nat -> prefix (oa ga gb wa wb n) (out_of (t_a (s k))) /\ prefix (ob ga gb wa wb n) (out_of (t_b (s k)))) ->
  exists N', forall k, (N' <= k)%nat ->
    prefix (oa ga gb wa wb (S n)) (out_of (t_a (s k))) /\ prefix (ob ga gb wa wb (S n)) (out_of (t_b (s k))) /\
    prefix (saw wa (ob ga gb wa wb n)) (shown_to (t_a (s k))) /\ prefix (saw wb (oa ga gb wa wb n)) (shown_to (t_b (s k))).
Proof.
  intros H. set (A := oa ga gb wa wb n) in *. set (B := ob ga gb wa wb n) in *.
  destruct (tfair_fills 2 (fun k => t_ab (s k)) (length A) N ltac:(lia)) as (N1 & HN1 & F1).
  { intros k Hk. destruct (out_step k) as (_ & _ & H1 & _ & H2 & _). split; [exact H1|]. intros Hx Hy. apply H2; [exact Hx|].
    destruct (H k Hk) as [[t Ht] _]. rewrite Ht, app_length. lia. }
  destruct (tfair_fills 3 (fun k => t_ba (s k)) (length B) N ltac:(lia)) as (N2 & HN2 & F2).
  { intros k Hk. destruct (out_step k) as (_ & _ & _ & H1 & _ & H2). split; [exact H1|]. intros Hx Hy. apply H2; [exact Hx|].
    destruct (H k Hk) as [_ [t Ht]]. rewrite Ht, app_length. lia. }
  set (M := Nat.max N1 N2). destruct (tdriven_trun ga gb wa wb (tupto f M)) as (ea & eb & D). fold (s M) in D.
  pose proof D as (_ & _ & D4 & D5 & _ & _ & D8 & D9).
  assert (prefix A (bytes_of (arrivals eb)) /\ prefix B (bytes_of (arrivals ea))) as [PA PB].
  { destruct (H M ltac:(lia)) as [[t1 T1] [t2 T2]]. specialize (F1 M ltac:(lia)). specialize (F2 M ltac:(lia)). rewrite D8, D9, T1, T2.
    rewrite !firstn_app, (firstn_all2 A), (firstn_all2 B) by lia. split; eexists; reflexivity. }
  destruct (endpoint_live ga wa ea Ga Ra D4) as [na LA]. destruct (endpoint_live gb wb eb Gb Rb D5) as [nb LB].
  destruct (tfair_cnt 0 (na + tcnt 0 M) ltac:(lia)) as [N3 HN3]. destruct (tfair_cnt 1 (nb + tcnt 1 M) ltac:(lia)) as [N4 HN4].
  exists (Nat.max M (Nat.max N3 N4)). intros k Hk. destruct (tdriven_from M ea eb D k ltac:(lia)) as (ea' & eb' & (E1 & E2 & E4 & E5 & _) & T1 & T2).
  rewrite arrivals_app in E4, E5. apply Forall_app in E4 as [_ E4]. apply Forall_app in E5 as [_ E5].
  specialize (HN3 k ltac:(lia)). specialize (HN4 k ltac:(lia)).
  destruct (LA ea' E4 ltac:(lia)) as [LA1 LA2]. destruct (LB eb' E5 ltac:(lia)) as [LB1 LB2]. rewrite <- E1 in LA1, LA2. rewrite <- E2 in LB1, LB2.
  split; [|split; [|split]].
  - eapply prefix_trans; [|exact LA2]. change (oa ga gb wa wb (S n)) with (said ga wa (saw wa B)). apply said_mono, saw_mono, PB.
  - eapply prefix_trans; [|exact LB2]. change (ob ga gb wa wb (S n)) with (said gb wb (saw wb A)). apply said_mono, saw_mono, PA.
  - eapply prefix_trans; [|exact LA1]. apply saw_mono, PB.
  - eapply prefix_trans; [|exact LB1]. apply saw_mono, PA.
Qed.
Lemma tlive n : exists N, forall k, (N <= k)%nat -> prefix (oa ga gb wa wb n) (out_of (t_a (s k))) /\ prefix (ob ga gb wa wb n) (out_of (t_b (s k))).
Proof.
  induction n as [|n [N IH]]; [exists 0%nat; intros; split; apply prefix_nil|].
  destruct (tround n N IH) as [N' H]. exists N'. intros k Hk. destruct (H k Hk) as (H1 & H2 & _). auto.
Qed.
End Fair.

(** Everything that is shown or written in some execution is shown and written, after finitely many steps, in every
    execution in which both sides and both directions of the network keep going. *)
Theorem C58_fair : forall ga gb wa wb f evs s1, modest ga -> modest gb -> ready wa -> ready wb -> tfair f ->
  trun ga gb evs wa wb = s1 ->
  exists N, forall n, (N <= n)%nat -> forall s2, trun ga gb (tupto f n) wa wb = s2 ->
  prefix (shown_to (t_a s1)) (shown_to (t_a s2)) /\ prefix (shown_to (t_b s1)) (shown_to (t_b s2)) /\
  prefix (out_of (t_a s1)) (out_of (t_a s2)) /\ prefix (out_of (t_b s1)) (out_of (t_b s2)).
Proof.
  intros ga gb wa wb f evs s1 Ga Gb Ra Rb Hf <-.
  destruct (tsafe ga gb wa wb Ga Gb Ra Rb evs) as (n & A1 & A2 & A3 & A4).
  destruct (tlive ga gb wa wb f Ga Gb Ra Rb Hf n) as [N1 H1].
  destruct (tround ga gb wa wb f Ga Gb Ra Rb Hf n N1 H1) as [N2 H2].
  exists (Nat.max N1 N2). intros k Hk s2 <-. destruct (H1 k ltac:(lia)) as [B1 B2]. destruct (H2 k ltac:(lia)) as (_ & _ & B3 & B4).
  split; [exact (prefix_trans _ _ _ A3 B3)|]. split; [exact (prefix_trans _ _ _ A4 B4)|].
  split; [exact (prefix_trans _ _ _ A1 B1)|exact (prefix_trans _ _ _ A2 B2)].
Qed.
Print Assumptions C58_fair.

(** A conversation without end: every pong is answered by a longer ping, every ping by a pong with its payload. *)
Definition pinger : application := fun os =>
  match last os (OEnd 0) with OPong p => [SoPing (Some (x61 :: p))] | OPing p => [SoPong (Some p)] | _ => [] end.
Definition in_turn (n : nat) : tev := match Nat.modulo n 4 with 0 => TickA | 1 => TickB | 2 => AB 0 | _ => BA 3 end%nat.
Definition lazy_net (n : nat) : tev := match Nat.modulo n 9 with 0 => TickA | 1 => TickA | 2 => TickB | 3 => AB 7 | 4 => BA 2 | _ => TickB end%nat.
Definition short (g : application) : application := fun os => filter (fun op => lenN (req_payload op) <? 100) (g os).
Example C58_nonvacuous :
  let g := short pinger in
  let wa := World [] [WAccept 1; WIo IoRetry] [x89; x80; x01; x02; x03; x04] (fun i => n2b (N.of_nat i)) 4 [] (set_listener (sock_new true) (Some 3%nat)) in
  let wb := aworld [] [WIo IoRetry; WAccept 1] in
  modest g /\ ready wa /\ ready wb /\ tfair in_turn /\ tfair lazy_net /\
  firstn 4 (shown_to (t_a (trun g g (tupto in_turn 900) wa wb))) = [OPong []; OPong [x61]; OPong [x61; x61]; OPong [x61; x61; x61]] /\
  firstn 3 (shown_to (t_b (trun g g (tupto lazy_net 500) wa wb))) = [OPing []; OPing [x61]; OPing [x61; x61]].
Proof.
  cbv zeta. split.
  { intros os. apply Forall_forall. intros op H. unfold short in H. apply filter_In in H as [_ H]. lia. }
  assert (forall w, w_in w = [] /\ w_log w = [] /\ s_listening (w_sock w) = false /\ s_last (w_sock w) = (-1)%Z /\ s_buf (w_sock w) = 1024%Z ->
    healthy (w_wr w) -> (exists l, s_listener (w_sock w) = Some l) -> ready w) as Hr.
  { intros w (H1 & H2 & H3 & H4 & H5) H6 H7. repeat (split; [assumption|]). split; [left; exact H4|]. split; [rewrite H5; reflexivity|exact H7]. }
  split; [apply Hr; [repeat split|repeat constructor|eexists; reflexivity]|]. split; [apply Hr; [repeat split|repeat constructor|eexists; reflexivity]|].
  split.
  { intros k Hk n. exists (4 * n + k)%nat. split; [lia|]. unfold in_turn. replace (Nat.modulo (4 * n + k) 4) with k.
    - destruct k as [|[|[|[|k]]]]; try reflexivity. lia.
    - rewrite Nat.add_comm, Nat.mul_comm, Nat.mod_add by lia. symmetry. now apply Nat.mod_small. }
  split.
  { intros k Hk n. exists (9 * n + S k)%nat. split; [lia|]. unfold lazy_net. replace (Nat.modulo (9 * n + S k) 9) with (S k).
    - destruct k as [|[|[|[|k]]]]; try reflexivity. lia.
    - rewrite Nat.add_comm, Nat.mul_comm, Nat.mod_add by lia. symmetry. apply Nat.mod_small. lia. }
  split; vm_compute; reflexivity.
Qed.
