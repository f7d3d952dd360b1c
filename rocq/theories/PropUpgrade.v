(** Property theorems: C92, what the server says right after the handshake. *)
From Coq Require Import String.
From Verif Require Import Bytes Base64 Frame World WebSocket SpecFrame SpecSend SpecListen SpecApi SpecAccept SpecEndToEnd Handshake Upgrade SpecUpgrade
  ProofStream ProofApi ProofProps PropNet PropAccept PropEndToEnd PropHandshake2.
From Coq Require Import ZifyBool ZifyNat ZifyN Lia.
Local Open Scope string_scope.
Local Open Scope list_scope.
Local Open Scope N_scope.
Local Arguments takeN : simpl never.
Local Arguments dropN : simpl never.
Local Arguments lenN : simpl never.

Definition at_end (r : bytes) : bool := bytes_eqb (firstn 4 r) SECTION_END.
Lemma bytes_eqb_iff a : forall b, bytes_eqb a b = true <-> a = b.
Proof.
  induction a as [|x a IH]; intros [|y b]; cbn; try (split; congruence). rewrite Bool.andb_true_iff, IH. split.
  - intros [H ->]. apply Byte.byte_dec_bl in H. now subst.
  - intros [= -> ->]. split; [now apply Byte.byte_dec_lb|reflexivity].
Qed.
Lemma at_end_blank r : at_end r = true <-> blank (List.rev r).
Proof.
  unfold at_end. rewrite bytes_eqb_iff. split.
  - intros H. exists (List.rev (skipn 4 r)). rewrite <- (firstn_skipn 4 r), H at 1. rewrite rev_app_distr. reflexivity.
  - intros [a H]. rewrite <- (rev_involutive r), H, rev_app_distr. reflexivity.
Qed.
Lemma find_end_unfold seen b d : find_end seen (b :: d) = if at_end (b :: seen) then Some ([b], d)
  else match find_end (b :: seen) d with None => None | Some (a, r) => Some (b :: a, r) end.
Proof. reflexivity. Qed.
(** A piece of [t ++ rest], where [t] completes the section. *)
Lemma find_end_in t : forall seen d more rest, header_section (List.rev seen ++ t) -> t <> [] -> d ++ more = t ++ rest ->
  (exists r, d = t ++ r /\ rest = r ++ more /\ find_end seen d = Some (t, r)) \/
  (exists t', t = d ++ t' /\ t' <> [] /\ find_end seen d = None /\ more = t' ++ rest).
Proof.
  induction t as [|b t IH]; intros seen d more rest Hs Ht E; [contradiction|]. destruct d as [|b' d].
  - right. exists (b :: t). cbn in *. auto.
  - cbn [app] in E. injection E as -> E. rewrite find_end_unfold. replace (List.rev seen ++ b :: t) with (List.rev (b :: seen) ++ t) in Hs by (cbn; now rewrite <- app_assoc).
    destruct (at_end (b :: seen)) eqn:Ee.
    + apply at_end_blank in Ee. destruct Hs as [_ Hs]. specialize (Hs _ _ eq_refl Ee). subst t. left. exists d. cbn in E. auto.
    + destruct t as [|c t].
      * exfalso. rewrite app_nil_r in Hs. destruct Hs as [Hs _]. apply at_end_blank in Hs. congruence.
      * destruct (IH (b :: seen) d more rest Hs ltac:(discriminate) E) as [(r & -> & -> & F)|(t' & D & N & F & ->)].
        -- left. exists r. rewrite F. auto.
        -- right. exists t'. rewrite F. split; [now rewrite D|auto].
Qed.
Lemma unread_bytes d s : bytes_of (unread d s) = d ++ bytes_of s.
Proof. destruct d; reflexivity. Qed.
Lemma unread_clean d s : clean s -> clean (unread d s).
Proof. destruct d; [auto|]. intros H. constructor; [exact I|exact H]. Qed.
Lemma unread_size d s : (script_size (unread d s) <= S (length d) + script_size s)%nat.
Proof. destruct d as [|b d]; cbn [unread script_size length]; lia. Qed.

(** [t] completes the section, [rest] follows. *)
Lemma read_section_spec n : (0 < n)%Z -> forall fuel seen t rest w, clean (w_in w) -> header_section (List.rev seen ++ t) -> t <> [] ->
  bytes_of (w_in w) = t ++ rest -> (script_size (w_in w) < fuel)%nat ->
  exists lost kept w', read_section fuel n seen w = (Ret (Some (List.rev seen ++ t, lost)), w') /\ rest = lost ++ kept /\ bytes_of (w_in w') = kept /\ clean (w_in w') /\
    (Z.of_N (lenN lost) < n)%Z /\ (exists s', w' = set_in w s') /\
    (forall r1 r2, w_in w = r1 ++ r2 -> bytes_of r1 = t -> lost = []).
Proof.
  intros Hn. induction fuel as [|fuel IH]; intros seen t rest w Hc Hs Ht Hb Hf; [lia|]. cbn [read_section]. unfold bind, readSimple.
  destruct (n <? 0)%Z eqn:E1; [lia|]. destruct (n =? 0)%Z eqn:E2; [lia|].
  destruct (w_in w) as [|e s] eqn:Ew; [destruct t; [contradiction|discriminate]|]. inversion Hc as [|? ? He Hc']. subst.
  destruct e as [b bs|[]|x]; cbn in He; try contradiction; cbn [read_raw].
  - set (d := takeN (Z.to_N n) (b :: bs)). set (d' := dropN (Z.to_N n) (b :: bs)).
    assert (d ++ d' = b :: bs) as Hd by apply take_drop.
    assert (d ++ (d' ++ bytes_of s) = t ++ rest) as Hb' by (rewrite app_assoc, Hd; exact Hb).
    assert (lenN d <= Z.to_N n) as Hl. { unfold d. rewrite lenN_takeN. lia. }
    assert (d <> []) as Hd0. { unfold d. rewrite takeN_firstn. destruct (N.to_nat (Z.to_N n)) eqn:E; [lia|]. discriminate. }
    destruct (find_end_in t seen d _ rest Hs Ht Hb') as [(r & D & R & F)|(t' & D & N & F & R)]; rewrite F.
    + exists r, (d' ++ bytes_of s). eexists. split; [reflexivity|]. split; [exact R|]. cbn [set_sock set_in w_in]. rewrite unread_bytes. split; [reflexivity|].
      split; [now apply unread_clean|]. split; [|split; [eexists; destruct w; reflexivity|]].
      * rewrite D in Hl. unfold lenN in *. rewrite app_length in Hl. destruct t; [contradiction|]. cbn [length] in Hl. lia.
      * intros r1 r2 Er Er1. destruct r1 as [|e r1]; [exfalso; apply Ht; symmetry; exact Er1|]. cbn [app] in Er. injection Er as <- ->.
        assert (lenN t >= lenN (b :: bs)) as G. { rewrite <- Er1. change (bytes_of (RData b bs :: r1)) with ((b :: bs) ++ bytes_of r1). unfold lenN. rewrite app_length. lia. }
        rewrite <- Hd, D in G. unfold lenN in G. rewrite !app_length in G. destruct r; [reflexivity|]. cbn [length] in G. lia.
    + set (w1 := set_sock (set_in w (unread d' s)) (w_sock w)).
      destruct (IH (List.rev d ++ seen) t' rest w1) as (lost & kept & w' & G1 & G2 & G3 & G4 & G5 & (s' & G6) & G7).
      * now apply unread_clean.
      * rewrite rev_app_distr, rev_involutive, <- app_assoc, <- D. exact Hs.
      * exact N.
      * cbn. rewrite unread_bytes. exact R.
      * cbn [w1 set_sock set_in w_in]. pose proof (unread_size d' s) as Hu. cbn [script_size] in Hf.
        assert (S (length d') <= S (length bs))%nat as Hx.
        { apply (f_equal (@length _)) in Hd. rewrite app_length in Hd. cbn [length] in Hd. destruct d; [contradiction|]. cbn [length] in Hd. lia. }
        lia.
      * exists lost, kept, w'. split; [rewrite G1; rewrite rev_app_distr, rev_involutive, <- app_assoc, <- D; reflexivity|].
        repeat (split; [assumption|]). split; [exists s'; rewrite G6; unfold w1; destruct w; reflexivity|].
        intros r1 r2 Er Er1. destruct r1 as [|e r1]; [exfalso; apply Ht; symmetry; exact Er1|]. cbn [app] in Er. injection Er as <- ->.
        apply (G7 (unread d' r1) r2).
        -- cbn. unfold unread. destruct d'; reflexivity.
        -- rewrite unread_bytes. change (bytes_of (RData b bs :: r1)) with ((b :: bs) ++ bytes_of r1) in Er1. rewrite <- Hd, D, <- app_assoc in Er1. now apply app_inv_head in Er1.
  - set (w1 := set_sock (set_in w s) (w_sock w)).
    destruct (IH seen t rest w1) as (lost & kept & w' & G1 & G2 & G3 & G4 & G5 & (s' & G6) & G7); try assumption.
    + cbn [script_size] in Hf. cbn. lia.
    + exists lost, kept, w'. split; [exact G1|]. repeat (split; [assumption|]). split; [exists s'; rewrite G6; unfold w1; destruct w; reflexivity|].
      intros r1 r2 Er Er1. destruct r1 as [|e r1]; [exfalso; apply Ht; symmetry; exact Er1|]. cbn [app] in Er. injection Er as <- ->. apply (G7 r1 r2); [reflexivity|exact Er1].
Qed.

Lemma received_section n w section frames : (0 < n)%Z -> clean (w_in w) -> header_section section -> bytes_of (w_in w) = section ++ frames ->
  exists lost kept w', receive_response n w = (Ret (Some (section, lost)), w') /\ frames = lost ++ kept /\ bytes_of (w_in w') = kept /\ clean (w_in w') /\
    (Z.of_N (lenN lost) < n)%Z /\ (exists s', w' = set_in w s') /\ (forall r1 r2, w_in w = r1 ++ r2 -> bytes_of r1 = section -> lost = []).
Proof.
  intros Hn Hc Hs Hb. unfold receive_response. assert (section <> []) as H0 by (destruct Hs as [[a ->] _]; now destruct a).
  apply (read_section_spec n Hn (S (script_size (w_in w))) [] section frames w Hc Hs H0 Hb). lia.
Qed.
Lemma over_connect parse n e path h w section lost w' : receive_response n w = (Ret (Some (section, lost)), w') -> acceptable parse e path h section ->
  connect e (over parse n w) path h = Connected tt /\ (forall k, (3 <= k)%nat -> csteps k e (over parse n w) path (connectAsync h) = CDone (Connected tt)).
Proof.
  intros E H. assert (connect e (over parse n w) path h = Connected tt) as G by (unfold over; rewrite E; exact H).
  split; [exact G|]. intros k Hk. rewrite <- G. apply C40_async_same; [discriminate|exact Hk].
Qed.
Lemma client_reads react l w : clean (w_in w) -> healthy (w_wr w) -> w_log w = [] -> polite_react react -> never_stops react ->
  exists o w', listen react (client_on l w) = (o, w') /\ transcript (w_log w') = stream_reading false (bytes_of (w_in w)).
Proof.
  intros Hc Hh Hl Hp Hn. destruct (listen react (client_on l w)) as [o w'] eqn:E. exists o, w'. split; [reflexivity|].
  destruct (listen_exact react (client_on l w) o w' Hc Hh Hp Hn eq_refl (or_introl eq_refl) E) as (new & H1 & _ & H3 & _).
  change (w_log (client_on l w)) with (w_log w) in H1. rewrite Hl in H1. rewrite H1. exact H3.
Qed.

(** Whatever pieces the response and the frames that follow it come in: what is lost is a beginning of the frames, shorter than the buffer, and nothing
    if the response's last byte ends a piece; the client's listener is told exactly the rest. *)
Theorem C92_handover_partial : forall parse n e path h react l w section frames, (0 < n)%Z -> clean (w_in w) -> healthy (w_wr w) -> w_log w = [] ->
  polite_react react -> never_stops react -> header_section section -> acceptable parse e path h section -> bytes_of (w_in w) = section ++ frames ->
  exists lost kept, frames = lost ++ kept /\ (Z.of_N (lenN lost) < n)%Z /\
    (forall r1 r2, w_in w = r1 ++ r2 -> bytes_of r1 = section -> lost = []) /\
    client_told parse n e path h react l w (stream_reading false kept).
Proof.
  intros parse n e path h react l w section frames Hn Hc Hh Hl Hp Hns Hs Ha Hb.
  destruct (received_section n w section frames Hn Hc Hs Hb) as (lost & kept & w' & E & F & K & C & L & (s' & W) & G).
  exists lost, kept. split; [exact F|]. split; [exact L|]. split; [exact G|].
  destruct (over_connect parse n e path h w section lost w' E Ha) as [A1 A2]. split; [exact A1|]. split; [exact A2|].
  unfold handed_over. rewrite E. cbn [snd]. rewrite <- K. apply client_reads; [exact C|subst w'; exact Hh|subst w'; exact Hl|exact Hp|exact Hns].
Qed.
Print Assumptions C92_handover_partial.

(** So a server that speaks only after the client has read the response is heard in full. *)
Theorem C92_after_response_partial : forall parse n e path h react l w section r1 r2 server ops, (0 < n)%Z -> clean (w_in w) -> healthy (w_wr w) -> w_log w = [] ->
  polite_react react -> never_stops react -> header_section section -> acceptable parse e path h section ->
  w_in w = r1 ++ r2 -> bytes_of r1 = section -> carried server ops r2 ->
  client_told parse n e path h react l w (told_of ops).
Proof.
  intros parse n e path h react l w section r1 r2 server ops Hn Hc Hh Hl Hp Hns Hs Ha Hr H1 Hcar.
  destruct (C92_handover_partial parse n e path h react l w section (bytes_of r2) Hn Hc Hh Hl Hp Hns Hs Ha) as (lost & kept & F & _ & G & T); [rewrite Hr, bytes_of_app, H1; reflexivity|].
  rewrite (G r1 r2 Hr H1) in F. cbn [app] in F. subst kept. rewrite <- (proj1 (carried_reading _ _ _ Hcar)). exact T.
Qed.
Print Assumptions C92_after_response_partial.

(** A server that speaks at once may not be heard at all: if its response and what it says arrive together, connect() succeeds all the same and the
    listener is told nothing. *)
Theorem C92_at_once_refuted : forall parse n e path h react l w section b bs server ops arrives, (0 < n)%Z -> healthy (w_wr w) -> w_log w = [] ->
  polite_react react -> never_stops react -> header_section section -> acceptable parse e path h section ->
  carried server ops arrives -> b :: bs = section ++ bytes_of arrives -> (Z.of_N (lenN (b :: bs)) <= n)%Z -> w_in w = [RData b bs] ->
  client_told parse n e path h react l w [].
Proof.
  intros parse n e path h react l w section b bs server ops arrives Hn Hh Hl Hp Hns Hs Ha Hcar Hb Hlen Hin.
  assert (clean (w_in w)) as Hc by (rewrite Hin; repeat constructor).
  assert (bytes_of (w_in w) = section ++ bytes_of arrives) as Hb' by (rewrite Hin, <- Hb; cbn; now rewrite app_nil_r).
  assert (section <> []) as H0 by (destruct Hs as [[a ->] _]; now destruct a).
  assert (receive_response n w = (Ret (Some (section, bytes_of arrives)), set_sock (set_in w []) (w_sock w))) as E.
  { unfold receive_response. cbn [read_section]. unfold bind, readSimple. destruct (n <? 0)%Z eqn:E1; [lia|]. destruct (n =? 0)%Z eqn:E2; [lia|].
    rewrite Hin. cbn [read_raw]. rewrite takeN_all, dropN_all by lia.
    destruct (find_end_in section [] (b :: bs) [] (bytes_of arrives) Hs H0) as [(r & D & R & F)|(t' & D & N & F & R)]; [rewrite app_nil_r; exact Hb|..].
    - rewrite F. rewrite app_nil_r in R. rewrite R. reflexivity.
    - destruct t'; [contradiction|discriminate]. }
  destruct (over_connect parse n e path h w section _ _ E Ha) as [A1 A2]. split; [exact A1|]. split; [exact A2|].
  unfold handed_over. rewrite E. cbn [snd]. apply (client_reads react l (set_sock (set_in w []) (w_sock w))); try assumption. constructor.
Qed.
Print Assumptions C92_at_once_refuted.

(** The library's own server greets every client with a text message. If the greeting comes in a segment of its own the client's listener is told,
    if it comes with the response, not. *)
Definition demo_section : bytes := Base64.str "HTTP/1.1 101 Switching Protocols" ++ [x0d; x0a] ++ Base64.str "Upgrade: websocket" ++ [x0d; x0a; x0d; x0a].
Definition demo_parse (s : bytes) : option (N * headers) :=
  if bytes_eqb s demo_section then p_exec own_server (Base64.str "/ws") (fst (clientsideHandshake (e_rnd env0) (e_pos env0) (copy_headers app0))) 5%nat else None.
Definition demo_conn (s : list World.rev) : world := World s [] [] (fun _ => x00) 0 [] (sock_new false).
Definition greeting : bytes := [x81; x02; x68; x69].
Definition demo_react : react_t := fun _ _ => [].
Example C92_nonvacuous :
  let separate := demo_conn [RData x48 (skipn 1 demo_section); RIo IoRetry; RData x81 (skipn 1 greeting)] in
  let together := demo_conn [RData x48 (skipn 1 (demo_section ++ greeting))] in
  header_section demo_section /\ acceptable demo_parse env0 (Base64.str "/ws") app0 demo_section /\
  carried (demo_conn []) [SoText (Some [x68; x69])] [RData x81 (skipn 1 greeting)] /\
  polite_react demo_react /\ never_stops demo_react /\
  client_told demo_parse 4096 env0 (Base64.str "/ws") app0 demo_react 3 separate [OByte 1 x68; OByte 1 x69; OEnd 1] /\
  client_told demo_parse 4096 env0 (Base64.str "/ws") app0 demo_react 3 together [].
Proof.
  cbv zeta.
  assert (header_section demo_section) as H1.
  { split; [exists (Base64.str "HTTP/1.1 101 Switching Protocols" ++ [x0d; x0a] ++ Base64.str "Upgrade: websocket"); reflexivity|].
    intros a b E [a' Ha].
    assert (forallb (fun k => negb (at_end (List.rev (firstn k demo_section)))) (seq 0 (length demo_section)) = true) as F by (vm_compute; reflexivity).
    rewrite forallb_forall in F. destruct b as [|c b]; [reflexivity|]. exfalso.
    specialize (F (length a)). rewrite in_seq, E, app_length in F. cbn [length] in F. specialize (F ltac:(lia)).
    rewrite firstn_app, Nat.sub_diag, firstn_all in F. cbn [firstn] in F. rewrite app_nil_r in F.
    assert (at_end (List.rev a) = true) as G by (apply at_end_blank; rewrite rev_involutive; exists a'; exact Ha). rewrite G in F. discriminate. }
  assert (acceptable demo_parse env0 (Base64.str "/ws") app0 demo_section) as H2 by (unfold acceptable; vm_compute; reflexivity).
  assert (carried (demo_conn []) [SoText (Some [x68; x69])] [RData x81 (skipn 1 greeting)]) as H3.
  { split; [constructor|]. split; [repeat constructor; intros; discriminate|]. split; [repeat constructor|]. eexists. split; vm_compute; reflexivity. }
  assert (polite_react demo_react) as H4 by (intros l log; constructor). assert (never_stops demo_react) as H5 by (intros l log; constructor).
  repeat (split; [assumption|]). split.
  - change [OByte 1 x68; OByte 1 x69; OEnd 1] with (told_of [SoText (Some [x68; x69])]).
    eapply C92_after_response_partial with (section := demo_section) (r1 := [RData x48 (skipn 1 demo_section); RIo IoRetry]); try eassumption; try reflexivity.
    + repeat constructor.
    + constructor.
  - eapply C92_at_once_refuted with (section := demo_section); try eassumption; try reflexivity; [constructor|]. vm_compute. discriminate.
Qed.
