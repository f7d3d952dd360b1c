(** Lemmas for C101: callbacks that call listenAsync. What is still to be shown, for every state of the listening coroutines. *)
From Verif Require Import Bytes Frame World WebSocket AsyncWebSocket Object AsyncObject AsyncReentry SpecAsync SpecSend SpecFrame SpecListen SpecObject
  ProofFrame ProofStream ProofSend ProofListen ProofReading ProofQuit ProofObject ProofAsyncObject ProofReentry2.
From Coq Require Import Lia PeanoNat ZifyBool ZifyN ZifyNat.
Local Open Scope N_scope.
Local Arguments takeN : simpl never.
Local Arguments dropN : simpl never.
Local Arguments lenN : simpl never.
Local Arguments be_enc : simpl never.
Local Arguments be_dec : simpl never.
Local Arguments packHeaderBits : simpl never.
Local Arguments unpackHeaderBits : simpl never.
Local Arguments xor_from : simpl never.

(** * Frames in parts *)
Definition cooked (k : option mask4) (off : N) (p : bytes) : bytes := match k with Some m => xor_from m off p | None => p end.
Lemma cooked_0 k p : masked_opt k p = cooked k 0 p.
Proof. destruct k; [|reflexivity]. cbn. now rewrite xor_from_rfc. Qed.
Lemma lenN_cooked k off p : lenN (cooked k off p) = lenN p.
Proof. destruct k; [apply lenN_xor_from|reflexivity]. Qed.
Lemma cooked_app k off p1 p2 : cooked k off (p1 ++ p2) = cooked k off p1 ++ cooked k (off + lenN p1) p2.
Proof. destruct k; [apply xor_from_app|reflexivity]. Qed.
Definition ext (lf : lform) (n : N) : bytes := match lf with L7 => [] | L16 => be_enc 2 n | L64 => be_enc 8 n end.
Definition tnum (lf : lform) : N := match lf with L7 => 1 | L16 => 2 | L64 => 3 end.
Notation plen f := (lenN (f_payload f)).
Definition body (f : frame) (r : list (lform * frame)) : bytes := cooked (f_key f) 0 (f_payload f) ++ wires r.
Definition two (lf : lform) (f : frame) : bytes :=
  [n2b (bitv (f_fin f) 128 + bitv (f_rsv1 f) 64 + bitv (f_rsv2 f) 32 + bitv (f_rsv3 f) 16 + f_opcode f);
   n2b (bitv (has_key (f_key f)) 128 + match lf with L7 => plen f | L16 => 126 | L64 => 127 end)].
Lemma wires_cons lf f r : wires ((lf, f) :: r) = two lf f ++ ext lf (plen f) ++ key_bytes (f_key f) ++ body f r.
Proof.
  unfold wires at 1. cbn [flat_map fst snd]. unfold wire, rfc_header, two, body, ext. rewrite cooked_0. cbn [app]. rewrite <- !app_assoc. reflexivity.
Qed.
(** The header so far. *)
Definition head (f : frame) (h : header) : Prop := h_fin h = f_fin f /\ h_opcode h = f_opcode f /\ h_hasMask h = has_key (f_key f).
Definition full (f : frame) (h : header) : Prop := head f h /\ h_len h = Z.of_N (plen f) /\ forall m, f_key f = Some m -> h_mask h = m.
Lemma unpack_two lf f h : f_opcode f < 16 -> lform_ok lf (plen f) = true ->
  exists h', unpackHeaderBits (be_dec (two lf f)) h = (h', match lf with L7 => plen f | L16 => 126 | L64 => 127 end) /\ head f h'.
Proof.
  intros Ho Hl. set (l7 := match lf with L7 => _ | _ => _ end). assert (l7 < 128) as H7 by (unfold l7; destruct lf; cbn [lform_ok] in Hl; lia).
  pose proof (unpack_sumbits (f_fin f) (f_rsv1 f) (f_rsv2 f) (f_rsv3 f) (has_key (f_key f)) (f_opcode f) l7 h Ho H7) as E.
  replace (be_dec (two lf f)) with (sumbits (f_fin f) (f_rsv1 f) (f_rsv2 f) (f_rsv3 f) (has_key (f_key f)) (f_opcode f) l7).
  - rewrite E. eexists. split; [reflexivity|]. repeat split.
  - unfold two. fold l7.
    change (be_dec [n2b (bitv (f_fin f) 128 + bitv (f_rsv1 f) 64 + bitv (f_rsv2 f) 32 + bitv (f_rsv3 f) 16 + f_opcode f); n2b (bitv (has_key (f_key f)) 128 + l7)])
      with (b2n (n2b (bitv (f_fin f) 128 + bitv (f_rsv1 f) 64 + bitv (f_rsv2 f) 32 + bitv (f_rsv3 f) 16 + f_opcode f)) * 256 ^ 1 + (b2n (n2b (bitv (has_key (f_key f)) 128 + l7)) * 256 ^ 0 + 0)).
    rewrite !n2b_small.
    + unfold sumbits. change (256 ^ 1) with 256. change (256 ^ 0) with 1. lia.
    + unfold bitv. destruct (has_key _); lia.
    + unfold bitv. destruct (f_fin f), (f_rsv1 f), (f_rsv2 f), (f_rsv3 f); lia.
Qed.
Lemma app_same_len {A} (a b c d : list A) : lenN a = lenN b -> a ++ c = b ++ d -> a = b /\ c = d.
Proof.
  intros H E. assert (takeN (lenN a) (a ++ c) = takeN (lenN a) (b ++ d)) as E1 by now rewrite E.
  assert (dropN (lenN a) (a ++ c) = dropN (lenN a) (b ++ d)) as E2 by now rewrite E.
  rewrite (takeN_app_exact (lenN a) a c), (takeN_app_exact (lenN a) b d) in E1 by auto.
  rewrite (dropN_app_exact (lenN a) a c), (dropN_app_exact (lenN a) b d) in E2 by auto. auto.
Qed.

(** * Reading *)
Lemma read_clean n s k r s' k' : 0 < n -> clean s -> read_raw n s k = (r, s', k') -> clean s' /\ k' = k /\
  match r with
  | RGot d => bytes_of s = d ++ bytes_of s' /\ 0 < lenN d <= n /\ (script_size s' < script_size s)%nat
  | RErr e => e = IoRetry /\ bytes_of s = bytes_of s' /\ (script_size s' < script_size s)%nat
  | RPending => s = [] /\ s' = []
  end.
Proof.
  intros Hn Hc E. destruct (read_raw_clean _ _ _ _ _ _ E Hc) as (H1 & H2 & H3). pose proof (read_raw_bytes _ _ _ _ _ _ Hn E) as H4.
  split; [exact H1|]. split; [exact H2|]. destruct r as [d|e|].
  - destruct H4 as (A1 & A2 & A3 & A4). auto.
  - destruct H4 as (A1 & A2). auto.
  - destruct H4 as [A1 A2]. split; [|exact A2]. destruct s as [|[b bs|e|x] s]; [reflexivity| |discriminate|]; cbn [read_raw] in E; [discriminate|]. inversion Hc as [|? ? He _]; destruct He.
Qed.

Section At.
(** [all]: the frames there were at the beginning. *)
Variables (l : nat) (nc : bool) (all : list (lform * frame)).
Notation HA := (CoHandle (Some l) HfAct).
Definition valid (k : sock) (fs : list (lform * frame)) : Prop := readable (open_of k) fs = true /\ (nc = true -> no_close fs) /\ exists read, all = read ++ fs.
Definition fine (k : sock) : Prop := (0 < s_buf k)%Z /\ last_ok k /\ s_listener k = Some l.
Inductive boundary : list cor -> Prop :=
| bd_nil : boundary []
| bd_listen : boundary [CoListen]
| bd_handled : boundary [CoHandle (Some l) HfFinish; CoListen]
| bd_read al pr : boundary [CoPayload (Some l) false al pr RpFinish; CoHandle (Some l) HfFinish; CoListen].
Definition short_of (op : N) : bool := 8 <=? op.
Definition next_of (op : N) : hf_pc := match op with 8 => HfOnClose | 9 => HfOnPing | 10 => HfOnPong | _ => HfFinish end.
Definition left_of (f : frame) (p2 : bytes) : list obs :=
  if short_of (f_opcode f) then frame_shown f else map (OByte (f_opcode f)) p2 ++ (if f_fin f then [OEnd (f_opcode f)] else []).
Definition known (f : frame) : Prop := In (f_opcode f) [0; 1; 2; 8; 9; 10] /\ plen f < 2 ^ 63 /\ (nc = true -> f_opcode f <> 8).
(** [A]: the bytes to come; [T]: what is still to be shown. *)
Inductive at_ (A : bytes) : list obs -> header -> bytes -> list cor -> sock -> Prop :=
| at_boundary fs h sh K k : boundary K -> A = wires fs -> valid k fs -> (nc = true -> h_opcode h <> 8) -> (K = [] -> nc = false) -> at_ A (frames_shown fs) h sh K k
| at_act fs h sh got k : got ++ A = wires fs -> lenN got <= 2 -> valid k fs -> at_ A (frames_shown fs) h sh [CoReadFrame (RfAct got); HA; CoListen] k
| at_bb fs h sh bb k : bb ++ A = wires fs -> lenN bb = 2 -> valid k fs -> at_ A (frames_shown fs) h sh [CoReadFrame (RfOnBb bb); HA; CoListen] k
| at_len lf f r h sh got k : got ++ A = ext lf (plen f) ++ key_bytes (f_key f) ++ body f r -> lenN got <= lenN (ext lf (plen f)) -> lf <> L7 -> head f h ->
    valid k ((lf, f) :: r) -> at_ A (frames_shown ((lf, f) :: r)) h sh [CoReadFrame (RfReadLen (tnum lf) got); HA; CoListen] k
| at_onlen lf f r h sh k : A = key_bytes (f_key f) ++ body f r -> head f h -> (lf = L7 -> h_len h = Z.of_N (plen f)) ->
    valid k ((lf, f) :: r) -> at_ A (frames_shown ((lf, f) :: r)) h sh [CoReadFrame (RfOnLen (tnum lf) (ext lf (plen f))); HA; CoListen] k
| at_mask lf f r h sh got m k : got ++ A = octets m ++ body f r -> lenN got <= 4 -> f_key f = Some m -> head f h -> h_len h = Z.of_N (plen f) ->
    valid k ((lf, f) :: r) -> at_ A (frames_shown ((lf, f) :: r)) h sh [CoReadFrame (RfReadMask got); HA; CoListen] k
| at_handle lf f r h sh k : A = body f r -> full f h -> valid k ((lf, f) :: r) -> at_ A (frames_shown ((lf, f) :: r)) h sh [HA; CoListen] k
| at_payload f r p1 p2 h sh k : f_payload f = p1 ++ p2 -> A = cooked (f_key f) (lenN p1) p2 ++ wires r -> full f h -> known f -> (short_of (f_opcode f) = true -> sh = p1) -> valid k r ->
    at_ A (left_of f p2 ++ frames_shown r) h sh [CoPayload (Some l) (short_of (f_opcode f)) (s_buf k) (Z.of_N (lenN p1)) RpAct; CoHandle (Some l) (next_of (f_opcode f)); CoListen] k
| at_read f r p1 p2 h sh k n : f_payload f = p1 ++ p2 -> A = cooked (f_key f) (lenN p1) p2 ++ wires r -> full f h -> known f -> (short_of (f_opcode f) = true -> sh = p1) -> valid k r ->
    (0 < n <= s_buf k)%Z -> (n <= Z.of_N (lenN p2))%Z ->
    at_ A (left_of f p2 ++ frames_shown r) h sh [CoPayload (Some l) (short_of (f_opcode f)) (s_buf k) (Z.of_N (lenN p1)) (RpReadData n); CoHandle (Some l) (next_of (f_opcode f)); CoListen] k
| at_ondata f r p1 d p2 h sh k : f_payload f = p1 ++ d ++ p2 -> A = cooked (f_key f) (lenN p1 + lenN d) p2 ++ wires r -> full f h -> known f -> (short_of (f_opcode f) = true -> sh = p1) -> valid k r ->
    d <> [] ->
    at_ A (left_of f (d ++ p2) ++ frames_shown r) h sh [CoPayload (Some l) (short_of (f_opcode f)) (s_buf k) (Z.of_N (lenN p1)) (RpOnData (cooked (f_key f) (lenN p1) d)); CoHandle (Some l) (next_of (f_opcode f)); CoListen] k
| at_on f r h sh k : A = wires r -> full f h -> known f -> short_of (f_opcode f) = true -> sh = f_payload f -> valid k r ->
    at_ A (frame_shown f ++ frames_shown r) h sh [CoHandle (Some l) (next_of (f_opcode f)); CoListen] k.

(** A measure that falls with every step that does not wait. *)
Definition rank (K : list cor) : nat :=
  match K with
  | CoReadFrame (RfAct got) :: _ => if lenN got =? 2 then 13 else 0
  | CoReadFrame (RfOnBb _) :: _ => 12
  | CoReadFrame (RfReadLen _ _) :: _ => 11
  | CoReadFrame (RfOnLen _ _) :: _ => 10
  | CoReadFrame (RfReadMask _) :: _ => 9
  | CoHandle _ HfAct :: _ => 8
  | CoPayload _ _ _ _ (RpOnData _) :: _ => 7
  | CoPayload _ _ _ _ RpAct :: _ => 6
  | CoPayload _ _ _ _ (RpReadData _) :: _ => 5
  | CoPayload _ _ _ _ RpFinish :: _ => 3
  | CoHandle _ HfFinish :: _ => 2
  | CoHandle _ _ :: _ => 4
  | CoListen :: _ => 1
  | _ => 0
  end.
Definition less (w' : world) (K' : list cor) (w : world) (K : list cor) : Prop :=
  (script_size (w_in w') < script_size (w_in w))%nat \/ (w_in w' = w_in w /\ (rank K' < rank K)%nat).

Definition okw (fut A : bytes) (w : world) : Prop := A = bytes_of (w_in w) ++ fut /\ clean (w_in w) /\ fine (w_sock w).
(** One step of the listening coroutines. *)
Definition stepped (fut : bytes) (T : list obs) (h : header) (sh : bytes) (K : list cor) (w : world) : Prop :=
  (exists st h' sh' K' w' A', (forall react, AsyncWebSocket.step react (Conf h sh K w) = (st, Conf h' sh' K' w')) /\ okw fut A' w' /\ at_ A' T h' sh' K' (w_sock w') /\
     w_log w' = w_log w /\ w_wr w' = w_wr w /\
     ((st = ARun /\ less w' K' w K) \/ (st = AWait /\ w_in w = [] /\ w_in w' = [] /\ (A' = [] -> T = [])) \/ (st = ADone /\ K = [] /\ K' = []))) \/
  (exists ev freed h' sh' K' w' A' T', (forall react, AsyncWebSocket.step react (Conf h sh K w) = (ARun, Conf h' sh' (CoUser (react l (w_log w')) freed :: K') w')) /\
     okw fut A' w' /\ at_ A' T' h' sh' K' (w_sock w') /\ w_log w' = w_log w ++ [(l, ev)] /\ w_wr w' = w_wr w /\ T = observe ev ++ T' /\ less w' K' w K /\
     match ev with EvMsg _ _ => True | _ => boundary K' /\ K' <> [] end).

Lemma go_plain fut T h sh K w h' sh' K' w' A' : (forall react, AsyncWebSocket.step react (Conf h sh K w) = (ARun, Conf h' sh' K' w')) -> okw fut A' w' -> at_ A' T h' sh' K' (w_sock w') ->
  w_log w' = w_log w -> w_wr w' = w_wr w -> less w' K' w K -> stepped fut T h sh K w.
Proof. intros H1 H2 H3 H4 H5 H6. left. exists ARun, h', sh', K', w', A'. auto 10. Qed.
Lemma go_wait fut T h sh K w h' sh' K' w' A' : (forall react, AsyncWebSocket.step react (Conf h sh K w) = (AWait, Conf h' sh' K' w')) -> okw fut A' w' -> at_ A' T h' sh' K' (w_sock w') ->
  w_log w' = w_log w -> w_wr w' = w_wr w -> w_in w = [] -> w_in w' = [] -> (A' = [] -> T = []) -> stepped fut T h sh K w.
Proof. intros H1 H2 H3 H4 H5 H6 H7 H8. left. exists AWait, h', sh', K', w', A'. do 5 (split; [assumption|]). right. left. auto. Qed.
Lemma go_call fut T h sh K w ev freed h' sh' K' A' T' :
  (forall react, AsyncWebSocket.step react (Conf h sh K w) = let (co, w') := call_listener react l ev freed w in (ARun, Conf h' sh' (co :: K') w')) ->
  okw fut A' w -> at_ A' T' h' sh' K' (w_sock w) -> T = observe ev ++ T' -> (rank K' < rank K)%nat ->
  match ev with EvMsg _ _ => True | _ => boundary K' /\ K' <> [] end -> stepped fut T h sh K w.
Proof.
  intros H1 H2 H3 H4 H5 H6. right. exists ev, freed, h', sh', K', (set_log w (w_log w ++ [(l, ev)])), A', T'. split; [exact H1|]. split; [exact H2|]. split; [exact H3|].
  split; [reflexivity|]. split; [reflexivity|]. split; [exact H4|]. split; [right; split; [reflexivity|exact H5]|exact H6].
Qed.
Lemma exact_read fut n got A w : okw fut A w -> lenN got <= n -> 0 < n -> exists r w', readExactAsyncInline n got w = (r, w') /\ w_log w' = w_log w /\ w_wr w' = w_wr w /\ w_sock w' = w_sock w /\
  ((lenN got = n /\ r = INext got /\ w' = w) \/
   (lenN got < n /\ exists got' A', r = IAgain got' /\ okw fut A' w' /\ got' ++ A' = got ++ A /\ lenN got' <= n /\ (script_size (w_in w') < script_size (w_in w))%nat) \/
   (lenN got < n /\ r = IWait /\ w_in w = [] /\ w_in w' = [])).
Proof.
  intros (HA & Hc & Hf) Hg Hn. unfold readExactAsyncInline. destruct (N.leb_spec n (lenN got)).
  - do 2 eexists. split; [reflexivity|]. do 3 (split; [reflexivity|]). left. split; [lia|auto].
  - destruct (read_raw (n - lenN got) (w_in w) (w_sock w)) as [[r s'] k'] eqn:E. destruct (read_clean (n - lenN got) _ _ _ _ _ ltac:(lia) Hc E) as (H1 & H2 & H3). subst k'.
    destruct r as [d|e|].
    + destruct H3 as (B1 & B2 & B3). do 2 eexists. split; [reflexivity|]. do 3 (split; [reflexivity|]). right. left. split; [lia|].
      exists (got ++ d), (bytes_of s' ++ fut). split; [reflexivity|]. split; [split; [reflexivity|split; assumption]|]. split; [rewrite HA, B1, <- !app_assoc; reflexivity|].
      split; [rewrite lenN_app; lia|exact B3].
    + destruct H3 as (-> & B1 & B2). do 2 eexists. split; [reflexivity|]. do 3 (split; [reflexivity|]). right. left. split; [lia|].
      exists got, (bytes_of s' ++ fut). split; [reflexivity|]. split; [split; [reflexivity|split; assumption]|]. split; [rewrite HA, B1; reflexivity|]. auto.
    + destruct H3 as [-> ->]. do 2 eexists. split; [reflexivity|]. do 3 (split; [reflexivity|]). right. right. auto.
Qed.

Lemma lform_63 lf n : lform_ok lf n = true -> n < 2 ^ 63.
Proof.
  intros H. destruct lf; apply N.ltb_lt in H; [| |exact H]; (eapply N.lt_trans; [exact H|]); apply N.ltb_lt; vm_compute; reflexivity.
Qed.
Lemma stays w K' w1 K : w_in w1 = w_in w -> (rank K' < rank K)%nat -> less w1 K' w K.
Proof. intros H1 H2. right. auto. Qed.
Lemma shorter w K' w1 K : (script_size (w_in w1) < script_size (w_in w))%nat -> less w1 K' w K.
Proof. now left. Qed.
Lemma lenN_ext lf n : lenN (ext lf n) = match lf with L7 => 0 | L16 => 2 | L64 => 8 end.
Proof. destruct lf; [reflexivity|apply (lenN_be_enc 2)|apply (lenN_be_enc 8)]. Qed.
Lemma valid_cons k lf f r : valid k ((lf, f) :: r) -> f_opcode f < 16 /\ lform_ok lf (plen f) = true /\ accepts (open_of k) (finfo_of f) = true /\
  readable (next_open (open_of k) (finfo_of f)) r = true /\ (nc = true -> f_opcode f <> 8 /\ no_close r) /\ exists read, all = read ++ r.
Proof.
  intros (H & H2 & rd & E3). cbn [readable] in H. apply andb_prop in H as [H H5]. apply andb_prop in H as [H H4]. apply andb_prop in H as [H H3]. apply N.ltb_lt in H.
  do 4 (split; [assumption|]). split; [intros E; specialize (H2 E); inversion H2; subst; auto|]. exists (rd ++ [(lf, f)]). now rewrite E3, <- app_assoc.
Qed.
Lemma accepts_cases opn i : accepts opn i = true -> In (i_opcode i) [0; 1; 2; 8; 9; 10] /\ (i_opcode i = 0 -> opn = true) /\ (8 <= i_opcode i -> eff_len (i_len i) <=? 125 = true).
Proof.
  unfold accepts. intros H.
  destruct (i_opcode i) as [|[[[[q|q|]|[q|q|]|]|[[q|q|]|[q|q|]|]|]|[[[q|q|]|[q|q|]|]|[[q|q|]|[q|q|]|]|]|]]; try discriminate H; (split; [cbn; auto 10|]); (split; [try discriminate; auto|]); auto; lia.
Qed.
Lemma left_all f : In (f_opcode f) [0; 1; 2; 8; 9; 10] -> frame_shown f = left_of f (f_payload f).
Proof. unfold left_of, short_of, frame_shown, shown. intros [E|[E|[E|[E|[E|[E|[]]]]]]]; rewrite <- E; reflexivity. Qed.
Lemma same_sock fut A w w' : okw fut A w -> w_sock w' = w_sock w -> fine (w_sock w'). 
Proof. intros (_ & _ & H) ->. exact H. Qed.

Ltac bnd := apply at_boundary; auto; solve [constructor | discriminate].
Lemma at_step_boundary fut A w fs h sh K k : k = w_sock w -> okw fut A w -> boundary K -> A = wires fs -> valid k fs -> (nc = true -> h_opcode h <> 8) -> (K = [] -> nc = false) -> stepped fut (frames_shown fs) h sh K w.
Proof.
  intros Ek Hw H H0 H1 H2 H3.
  destruct H.
    + left. exists ADone, h, sh, [], w, A. split; [reflexivity|]. split; [exact Hw|]. split; [subst k; bnd|]. auto 10.
    + destruct (h_opcode h =? OPCODE_CLOSE) eqn:E.
      * apply N.eqb_eq in E. unfold OPCODE_CLOSE in E. assert (nc = false) as Hnc by (destruct nc; [exfalso; now apply H2|reflexivity]).
        eapply go_plain with (A' := A); [intros react; cbn [AsyncWebSocket.step]; rewrite E; reflexivity|exact Hw| |reflexivity|reflexivity|apply stays; [reflexivity|apply Nat.ltb_lt; reflexivity]].
        subst k. bnd.
      * eapply go_plain with (A' := A); [intros react; cbn [AsyncWebSocket.step]; rewrite E; reflexivity|exact Hw| |reflexivity|reflexivity|apply stays; [reflexivity|apply Nat.ltb_lt; reflexivity]].
        destruct Hw as (_ & _ & _ & _ & Hl). rewrite Hl. subst k. apply at_act; [exact H0|unfold lenN; cbn; lia|exact H1].
    + eapply go_plain with (A' := A); [intros react; reflexivity|exact Hw| |reflexivity|reflexivity|apply stays; [reflexivity|apply Nat.ltb_lt; reflexivity]].
      subst k. bnd.
    + eapply go_plain with (A' := A); [intros react; reflexivity|exact Hw| |reflexivity|reflexivity|apply stays; [reflexivity|apply Nat.ltb_lt; reflexivity]].
      subst k. bnd.
Qed.
Lemma at_step_act fut A w fs h sh got k : k = w_sock w -> okw fut A w -> got ++ A = wires fs -> lenN got <= 2 -> valid k fs -> stepped fut (frames_shown fs) h sh [CoReadFrame (RfAct got); HA; CoListen] w.
Proof.
  intros Ek Hw H H0 H1.
  destruct (exact_read fut 2 got A w Hw H0 ltac:(lia)) as (r & w' & E & G1 & G2 & G3 & [(F1 & -> & ->)|[(F1 & got' & A' & -> & F2 & F3 & F4 & F5)|(F1 & -> & F2 & F3)]]).
    + eapply go_plain; [intros react; cbn [AsyncWebSocket.step step_readFrame]; rewrite E; reflexivity|exact Hw| |exact G1|exact G2|apply stays; [reflexivity|cbn [rank]; rewrite (proj2 (N.eqb_eq _ _) F1); lia]].
      rewrite <- Ek. now apply at_bb.
    + eapply go_plain; [intros react; cbn [AsyncWebSocket.step step_readFrame]; rewrite E; reflexivity|exact F2| |exact G1|exact G2|apply shorter; exact F5].
      rewrite G3, <- Ek. apply at_act; [now rewrite F3|exact F4|exact H1].
    + eapply go_wait with (A' := A); [intros react; cbn [AsyncWebSocket.step step_readFrame]; rewrite E; reflexivity| | |exact G1|exact G2|exact F2|exact F3| ].
      * destruct Hw as (W1 & W2 & W3). split; [now rewrite F3, <- F2|]. split; [rewrite F3; constructor|now rewrite G3].
      * rewrite G3, <- Ek. now apply at_act.
      * intros E0. rewrite E0, app_nil_r in H. destruct fs as [|[lf f] r]; [reflexivity|]. exfalso. rewrite wires_cons in H. apply (f_equal lenN) in H. rewrite lenN_app in H. change (lenN (two lf f)) with 2 in H. clear -H F1. lia.
Qed.
Lemma at_step_bb fut A w fs h sh bb k : k = w_sock w -> okw fut A w -> bb ++ A = wires fs -> lenN bb = 2 -> valid k fs -> stepped fut (frames_shown fs) h sh [CoReadFrame (RfOnBb bb); HA; CoListen] w.
Proof.
  intros Ek Hw H H0 H1.
  destruct fs as [|[lf f] r]; [destruct bb; [cbv in H0; lia|discriminate]|]. destruct (valid_cons _ _ _ _ H1) as (V1 & V2 & V3 & V4 & V5 & V6).
    rewrite wires_cons in H. apply app_same_len in H as [-> HA]; [|rewrite H0; reflexivity]. destruct (unpack_two lf f h V1 V2) as (h' & E & Hh).
    destruct lf.
    + eapply go_plain with (A' := A); [intros react; cbn [AsyncWebSocket.step step_readFrame]; rewrite E; cbn [lform_ok] in V2; rewrite V2; reflexivity|exact Hw| |reflexivity|reflexivity|apply stays; [reflexivity|apply Nat.ltb_lt; reflexivity]].
      rewrite <- Ek. apply (at_onlen A L7 f r); [exact HA|exact Hh|reflexivity|exact H1].
    + eapply go_plain with (A' := A); [intros react; cbn [AsyncWebSocket.step step_readFrame]; rewrite E; reflexivity|exact Hw| |reflexivity|reflexivity|apply stays; [reflexivity|apply Nat.ltb_lt; reflexivity]].
      rewrite <- Ek. apply (at_len A L16 f r); [exact HA|rewrite lenN_nil; lia|discriminate|exact Hh|exact H1].
    + eapply go_plain with (A' := A); [intros react; cbn [AsyncWebSocket.step step_readFrame]; rewrite E; reflexivity|exact Hw| |reflexivity|reflexivity|apply stays; [reflexivity|apply Nat.ltb_lt; reflexivity]].
      rewrite <- Ek. apply (at_len A L64 f r); [exact HA|rewrite lenN_nil; lia|discriminate|exact Hh|exact H1].
Qed.
Lemma at_step_len fut A w lf f r h sh got k : k = w_sock w -> okw fut A w -> got ++ A = ext lf (plen f) ++ key_bytes (f_key f) ++ body f r -> lenN got <= lenN (ext lf (plen f)) -> lf <> L7 -> head f h -> valid k ((lf, f) :: r) -> stepped fut (frames_shown ((lf, f) :: r)) h sh [CoReadFrame (RfReadLen (tnum lf) got); HA; CoListen] w.
Proof.
  intros Ek Hw H H0 H1 H2 H3.
  assert ((if tnum lf =? 2 then 2 else 8) = lenN (ext lf (plen f))) as En by (rewrite lenN_ext; destruct lf; [congruence|reflexivity|reflexivity]).
    destruct (exact_read fut _ got A w Hw H0 ltac:(rewrite <- En; destruct lf; [congruence|reflexivity|reflexivity])) as (r' & w' & E & G1 & G2 & G3 & [(F1 & -> & ->)|[(F1 & got' & A' & -> & F2 & F3 & F4 & F5)|(F1 & -> & F2 & F3)]]).
    + eapply go_plain; [intros react; cbn [AsyncWebSocket.step step_readFrame]; rewrite En, E; reflexivity|exact Hw| |exact G1|exact G2|apply stays; [reflexivity|apply Nat.ltb_lt; reflexivity]].
      rewrite <- Ek. apply app_same_len in H as [-> HA]; [|exact F1]. apply at_onlen; auto. intros ->. congruence.
    + eapply go_plain; [intros react; cbn [AsyncWebSocket.step step_readFrame]; rewrite En, E; reflexivity|exact F2| |exact G1|exact G2|apply shorter; exact F5].
      rewrite G3, <- Ek. apply at_len; auto. now rewrite F3.
    + eapply go_wait with (A' := A); [intros react; cbn [AsyncWebSocket.step step_readFrame]; rewrite En, E; reflexivity| | |exact G1|exact G2|exact F2|exact F3| ].
      * destruct Hw as (W1 & W2 & W3). split; [now rewrite F3, <- F2|]. split; [rewrite F3; constructor|now rewrite G3].
      * rewrite G3, <- Ek. now apply at_len.
      * intros E0. exfalso. rewrite E0, app_nil_r in H. apply (f_equal lenN) in H. rewrite lenN_app in H. clear -H F1. lia.
Qed.
Lemma at_step_onlen fut A w lf f r h sh k : k = w_sock w -> okw fut A w -> A = key_bytes (f_key f) ++ body f r -> head f h -> (lf = L7 -> h_len h = Z.of_N (plen f)) -> valid k ((lf, f) :: r) -> stepped fut (frames_shown ((lf, f) :: r)) h sh [CoReadFrame (RfOnLen (tnum lf) (ext lf (plen f))); HA; CoListen] w.
Proof.
  intros Ek Hw H H0 H1 H2.
  destruct (valid_cons _ _ _ _ H2) as (V1 & V2 & V3 & V4 & V5 & V6).
    set (h' := if tnum lf =? 2 then set_len h (Z.of_N (be_dec (ext lf (plen f))))
      else if tnum lf =? 3 then set_len h (to_i64 (N.lor (N.shiftl (be_dec (takeN 4 (ext lf (plen f)))) 32) (be_dec (dropN 4 (ext lf (plen f)))))) else h).
    assert (head f h' /\ h_len h' = Z.of_N (plen f)) as [Hh Hn].
    { unfold h'. destruct lf; cbn [tnum ext lform_ok] in *.
      - change (1 =? 2) with false. change (1 =? 3) with false. cbn match. auto.
      - change (2 =? 2) with true. cbn match. split; [exact H0|]. cbn [set_len h_len]. rewrite be_dec_enc. change (256 ^ N.of_nat 2) with 65536. apply N.ltb_lt in V2. now rewrite N.mod_small.
      - change (3 =? 2) with false. change (3 =? 3) with true. cbn match. split; [exact H0|]. cbn [set_len h_len]. rewrite be_dec_split8 by apply (lenN_be_enc 8). rewrite be_dec_enc. apply N.ltb_lt in V2.
        rewrite N.mod_small; [now apply to_i64_small|]. change (256 ^ N.of_nat 8) with 18446744073709551616. change (2 ^ 63) with 9223372036854775808 in V2. clear -V2. lia. }
    destruct (f_key f) as [m|] eqn:Ekey.
    + eapply go_plain with (A' := A); [intros react; cbn [AsyncWebSocket.step step_readFrame]; fold h'; destruct Hh as (_ & _ & ->); rewrite Ekey; reflexivity|exact Hw| |reflexivity|reflexivity|apply stays; [reflexivity|apply Nat.ltb_lt; reflexivity]].
      rewrite <- Ek. apply (at_mask A lf f r) with (m := m); auto; [rewrite lenN_nil; lia].
    + eapply go_plain with (A' := A); [intros react; cbn [AsyncWebSocket.step step_readFrame]; fold h'; destruct Hh as (_ & _ & ->); rewrite Ekey; reflexivity|exact Hw| |reflexivity|reflexivity|apply stays; [reflexivity|apply Nat.ltb_lt; reflexivity]].
      rewrite <- Ek. apply (at_handle A lf f r); [exact H|split; [exact Hh|split; [exact Hn|rewrite Ekey; discriminate]]|exact H2].
Qed.
Lemma at_step_mask fut A w lf f r h sh got m k : k = w_sock w -> okw fut A w -> got ++ A = octets m ++ body f r -> lenN got <= 4 -> f_key f = Some m -> head f h -> h_len h = Z.of_N (plen f) -> valid k ((lf, f) :: r) -> stepped fut (frames_shown ((lf, f) :: r)) h sh [CoReadFrame (RfReadMask got); HA; CoListen] w.
Proof.
  intros Ek Hw H H0 H1 H2 H3 H4.
  destruct (exact_read fut 4 got A w Hw H0 ltac:(lia)) as (r' & w' & E & G1 & G2 & G3 & [(F1 & -> & ->)|[(F1 & got' & A' & -> & F2 & F3 & F4 & F5)|(F1 & -> & F2 & F3)]]).
    + apply app_same_len in H as [-> HA]; [|rewrite F1; reflexivity].
      eapply go_plain; [intros react; cbn [AsyncWebSocket.step step_readFrame]; rewrite E; reflexivity|exact Hw| |exact G1|exact G2|apply stays; [reflexivity|apply Nat.ltb_lt; reflexivity]].
      rewrite <- Ek. apply (at_handle A lf f r); [exact HA|split; [exact H2|split; [exact H3|]]|exact H4]. intros m' Em. rewrite H1 in Em. injection Em as <-. destruct m; reflexivity.
    + eapply go_plain; [intros react; cbn [AsyncWebSocket.step step_readFrame]; rewrite E; reflexivity|exact F2| |exact G1|exact G2|apply shorter; exact F5].
      rewrite G3, <- Ek. apply (at_mask A' lf f r) with (m := m); auto. now rewrite F3.
    + eapply go_wait with (A' := A); [intros react; cbn [AsyncWebSocket.step step_readFrame]; rewrite E; reflexivity| | |exact G1|exact G2|exact F2|exact F3| ].
      * destruct Hw as (W1 & W2 & W3). split; [now rewrite F3, <- F2|]. split; [rewrite F3; constructor|now rewrite G3].
      * rewrite G3, <- Ek. now apply (at_mask A lf f r) with (m := m).
      * intros E0. exfalso. rewrite E0, app_nil_r in H. apply (f_equal lenN) in H. rewrite lenN_app in H. change (lenN (octets m)) with 4 in H. clear -H F1. lia.
Qed.
Lemma at_step_handle fut A w lf f r h sh k : k = w_sock w -> okw fut A w -> A = body f r -> full f h -> valid k ((lf, f) :: r) -> stepped fut (frames_shown ((lf, f) :: r)) h sh [HA; CoListen] w.
Proof.
  intros Ek Hw H H0 H1.
  destruct (valid_cons _ _ _ _ H1) as (V1 & V2 & V3 & V4 & V5 & V6). destruct (accepts_cases _ _ V3) as (Hop & Ho & Hc). cbn [finfo_of i_opcode i_len] in Hop, Ho, Hc.
    assert (known f) as Hk. { split; [exact Hop|]. split; [now apply (lform_63 lf)|]. intros E. now apply V5. }
    destruct H0 as ((Hf1 & Hf2 & Hf3) & Hlen & Hmask). pose proof Hw as (W1 & W2 & Wf1 & Wf2 & Wf3).
    assert (forall sh' k', s_buf k' = s_buf k -> valid k' r -> (short_of (f_opcode f) = true -> sh' = []) ->
      at_ A (frames_shown ((lf, f) :: r)) h sh' [CoPayload (Some l) (short_of (f_opcode f)) (s_buf k) 0 RpAct; CoHandle (Some l) (next_of (f_opcode f)); CoListen] k') as Hgo.
    { intros sh' k' Eb Hv Hs. unfold frames_shown. cbn [flat_map snd]. rewrite left_all by exact Hop. rewrite <- Eb.
      apply (at_payload A f r [] (f_payload f)); [reflexivity|exact H|split; [now split|now split]|exact Hk|exact Hs|exact Hv]. }
    assert (next_open (open_of k) (finfo_of f) = open_of k -> valid k r) as Hsame.
    { intros E. rewrite E in V4. split; [exact V4|]. split; [intros En; now apply V5|exact V6]. }
    unfold accepts in V3. unfold next_open in V4, Hsame. cbn [finfo_of i_opcode i_len i_fin] in V3, V4, Hsame.
    destruct Hop as [E|[E|[E|[E|[E|[E|[]]]]]]]; rewrite <- E in *.
    + apply (go_plain _ _ _ _ _ _ h sh [CoPayload (Some l) false (s_buf k) 0 RpAct; CoHandle (Some l) HfFinish; CoListen] w A); [|exact Hw| |reflexivity|reflexivity|apply stays; [reflexivity|apply Nat.ltb_lt; reflexivity]].
      * intros react. cbn [AsyncWebSocket.step step_handle]. rewrite Hf2. replace (s_last (w_sock w) <? 0)%Z with false by (rewrite <- Ek; unfold open_of in V3; clear -V3; lia).
        unfold readPayloadAsync. cbn [andb]. replace (s_buf (w_sock w) <? 0)%Z with false by (clear -Wf1; lia). rewrite Wf3, <- Ek. reflexivity.
      * rewrite <- Ek. apply (Hgo sh k); auto. discriminate.
    + assert (s_last k = -1)%Z as El by (rewrite <- Ek in Wf2; unfold open_of in V3; destruct Wf2 as [F|[F|F]]; rewrite F in V3; [exact F|discriminate|discriminate]).
      apply (go_plain _ _ _ _ _ _ h sh [CoPayload (Some l) false (s_buf k) 0 RpAct; CoHandle (Some l) HfFinish; CoListen] (set_sock w (set_last k (if f_fin f then (-1)%Z else 1%Z))) A).
      * intros react. cbn [AsyncWebSocket.step step_handle]. rewrite Hf2. unfold checkForContinuationA. rewrite <- Ek, El, Hf1, Hf2. cbn [Z.eqb orb].
        unfold readPayloadAsync. cbn [andb]. cbn [w_sock set_sock s_buf s_listener set_last]. rewrite <- Ek in Wf1, Wf3. replace (s_buf k <? 0)%Z with false by (clear -Wf1; lia). rewrite Wf3. reflexivity.
      * split; [exact W1|]. split; [exact W2|]. rewrite <- Ek in Wf1, Wf3. split; [exact Wf1|]. split; [|exact Wf3]. cbn. destruct (f_fin f); [now left|right; now left].
      * apply (Hgo sh); [reflexivity| |discriminate]. split; [|split; [intros En; now apply V5|exact V6]]. cbn [w_sock set_sock]. unfold open_of. cbn [set_last s_last]. rewrite <- V4. f_equal. destruct (f_fin f); reflexivity.
      * reflexivity.
      * reflexivity.
      * apply stays; [reflexivity|apply Nat.ltb_lt; reflexivity].
    + assert (s_last k = -1)%Z as El by (rewrite <- Ek in Wf2; unfold open_of in V3; destruct Wf2 as [F|[F|F]]; rewrite F in V3; [exact F|discriminate|discriminate]).
      apply (go_plain _ _ _ _ _ _ h sh [CoPayload (Some l) false (s_buf k) 0 RpAct; CoHandle (Some l) HfFinish; CoListen] (set_sock w (set_last k (if f_fin f then (-1)%Z else 2%Z))) A).
      * intros react. cbn [AsyncWebSocket.step step_handle]. rewrite Hf2. unfold checkForContinuationA. rewrite <- Ek, El, Hf1, Hf2. cbn [Z.eqb orb].
        unfold readPayloadAsync. cbn [andb]. cbn [w_sock set_sock s_buf s_listener set_last]. rewrite <- Ek in Wf1, Wf3. replace (s_buf k <? 0)%Z with false by (clear -Wf1; lia). rewrite Wf3. reflexivity.
      * split; [exact W1|]. split; [exact W2|]. rewrite <- Ek in Wf1, Wf3. split; [exact Wf1|]. split; [|exact Wf3]. cbn. destruct (f_fin f); [now left|right; now right].
      * apply (Hgo sh); [reflexivity| |discriminate]. split; [|split; [intros En; now apply V5|exact V6]]. cbn [w_sock set_sock]. unfold open_of. cbn [set_last s_last]. rewrite <- V4. f_equal. destruct (f_fin f); reflexivity.
      * reflexivity.
      * reflexivity.
      * apply stays; [reflexivity|apply Nat.ltb_lt; reflexivity].
    + assert (h_len h <= 125)%Z as Hsh. { rewrite Hlen. unfold eff_len in V3. replace (plen f <? 2 ^ 63) with true in V3 by (symmetry; apply N.ltb_lt, Hk). apply N.leb_le in V3. clear -V3. lia. }
      apply (go_plain _ _ _ _ _ _ h [] [CoPayload (Some l) true (s_buf k) 0 RpAct; CoHandle (Some l) HfOnClose; CoListen] w A); [|exact Hw| |reflexivity|reflexivity|apply stays; [reflexivity|apply Nat.ltb_lt; reflexivity]].
      * intros react. cbn [AsyncWebSocket.step step_handle]. rewrite Hf2. unfold readPayloadAsync. replace (125 <? h_len h)%Z with false by (clear -Hsh; lia). cbn [andb].
        replace (s_buf (w_sock w) <? 0)%Z with false by (clear -Wf1; lia). rewrite Wf3, <- Ek. reflexivity.
      * rewrite <- Ek. apply (Hgo [] k); auto.
    + assert (h_len h <= 125)%Z as Hsh. { rewrite Hlen. unfold eff_len in V3. replace (plen f <? 2 ^ 63) with true in V3 by (symmetry; apply N.ltb_lt, Hk). apply N.leb_le in V3. clear -V3. lia. }
      apply (go_plain _ _ _ _ _ _ h [] [CoPayload (Some l) true (s_buf k) 0 RpAct; CoHandle (Some l) HfOnPing; CoListen] w A); [|exact Hw| |reflexivity|reflexivity|apply stays; [reflexivity|apply Nat.ltb_lt; reflexivity]].
      * intros react. cbn [AsyncWebSocket.step step_handle]. rewrite Hf2. unfold readPayloadAsync. replace (125 <? h_len h)%Z with false by (clear -Hsh; lia). cbn [andb].
        replace (s_buf (w_sock w) <? 0)%Z with false by (clear -Wf1; lia). rewrite Wf3, <- Ek. reflexivity.
      * rewrite <- Ek. apply (Hgo [] k); auto.
    + assert (h_len h <= 125)%Z as Hsh. { rewrite Hlen. unfold eff_len in V3. replace (plen f <? 2 ^ 63) with true in V3 by (symmetry; apply N.ltb_lt, Hk). apply N.leb_le in V3. clear -V3. lia. }
      apply (go_plain _ _ _ _ _ _ h [] [CoPayload (Some l) true (s_buf k) 0 RpAct; CoHandle (Some l) HfOnPong; CoListen] w A); [|exact Hw| |reflexivity|reflexivity|apply stays; [reflexivity|apply Nat.ltb_lt; reflexivity]].
      * intros react. cbn [AsyncWebSocket.step step_handle]. rewrite Hf2. unfold readPayloadAsync. replace (125 <? h_len h)%Z with false by (clear -Hsh; lia). cbn [andb].
        replace (s_buf (w_sock w) <? 0)%Z with false by (clear -Wf1; lia). rewrite Wf3, <- Ek. reflexivity.
      * rewrite <- Ek. apply (Hgo [] k); auto.
Qed.
Lemma at_step_payload fut A w f r p1 p2 h sh k : k = w_sock w -> okw fut A w -> f_payload f = p1 ++ p2 -> A = cooked (f_key f) (lenN p1) p2 ++ wires r -> full f h -> known f -> (short_of (f_opcode f) = true -> sh = p1) -> valid k r -> stepped fut (left_of f p2 ++ frames_shown r) h sh [CoPayload (Some l) (short_of (f_opcode f)) (s_buf k) (Z.of_N (lenN p1)) RpAct; CoHandle (Some l) (next_of (f_opcode f)); CoListen] w.
Proof.
  intros Ek Hw H H0 H1 H2 H3 H4.
  destruct H1 as (Hh & Hlen & Hmask). pose proof Hw as (W1 & W2 & Wf1 & Wf2 & Wf3). rewrite <- Ek in Wf1.
    assert (h_len h = Z.of_N (lenN p1) + Z.of_N (lenN p2))%Z as Hl by (rewrite Hlen, H, lenN_app; clear; lia).
    destruct (Z.ltb_spec (Z.of_N (lenN p1)) (h_len h)) as [Hlt|Hge].
    + set (n := if (h_len h - Z.of_N (lenN p1) <? s_buf k)%Z then (h_len h - Z.of_N (lenN p1))%Z else s_buf k).
      eapply go_plain with (A' := A); [|exact Hw| | | |].
      * intros react. cbn [AsyncWebSocket.step step_payload]. rewrite (proj2 (Z.ltb_lt _ _) Hlt), <- Ek. fold n. reflexivity.
      * rewrite <- Ek. apply at_read; auto; [split; [exact Hh|now split]| |]; unfold n; destruct (Z.ltb_spec (h_len h - Z.of_N (lenN p1)) (s_buf k)); clear -Hlt Hl Wf1 H1; lia.
      * reflexivity.
      * reflexivity.
      * apply stays; [reflexivity|apply Nat.ltb_lt; reflexivity].
    + assert (p2 = []) as -> by (apply lenN_0; clear -Hl Hge; lia). rewrite app_nil_r in H. destruct Hh as (Hh1 & Hh2 & Hh3).
      assert ((Z.of_N (lenN p1) <? h_len h)%Z = false) as Hb by (apply Z.ltb_ge; exact Hge).
      assert (A = wires r) as HA by (rewrite H0; destruct (f_key f); reflexivity).
      unfold left_of. destruct (short_of (f_opcode f)) eqn:Es.
      * eapply go_plain with (A' := A); [|exact Hw| | | |].
        -- intros react. cbn [AsyncWebSocket.step step_payload]. rewrite Hb. cbn [negb andb]. reflexivity.
        -- rewrite <- Ek. apply at_on; auto; [split; [now split|now split]|]. rewrite H. now apply H3.
        -- reflexivity.
        -- reflexivity.
        -- apply stays; [reflexivity|]. destruct H2 as [[E|[E|[E|[E|[E|[E|[]]]]]]] _]; rewrite <- E in *; apply Nat.ltb_lt; reflexivity.
      * assert (next_of (f_opcode f) = HfFinish) as En by (destruct H2 as [[E|[E|[E|[E|[E|[E|[]]]]]]] _]; rewrite <- E in *; try discriminate Es; reflexivity).
        rewrite En. assert (h_opcode h <> 8) as H8 by (rewrite Hh2; intros E; rewrite E in Es; discriminate Es).
        cbn [map app]. destruct (f_fin f) eqn:Ef.
        -- eapply go_call with (ev := EvEnd (f_opcode f)) (A' := A) (T' := frames_shown r); [|exact Hw| | | |].
           ++ intros react. cbn [AsyncWebSocket.step step_payload]. rewrite Hb, Hh1. cbn [negb andb]. rewrite Hh2. reflexivity.
           ++ rewrite <- Ek. bnd.
           ++ reflexivity.
           ++ apply Nat.ltb_lt; reflexivity.
           ++ split; [constructor|discriminate].
        -- eapply go_plain with (A' := A); [|exact Hw| | | |].
           ++ intros react. cbn [AsyncWebSocket.step step_payload]. rewrite Hb, Hh1. cbn [negb andb]. reflexivity.
           ++ rewrite <- Ek. cbn [app]. bnd.
           ++ reflexivity.
           ++ reflexivity.
           ++ apply stays; [reflexivity|apply Nat.ltb_lt; reflexivity].
Qed.
Lemma at_step_read fut A w f r p1 p2 h sh k n : k = w_sock w -> okw fut A w -> f_payload f = p1 ++ p2 -> A = cooked (f_key f) (lenN p1) p2 ++ wires r -> full f h -> known f -> (short_of (f_opcode f) = true -> sh = p1) -> valid k r -> (0 < n <= s_buf k)%Z -> (n <= Z.of_N (lenN p2))%Z -> stepped fut (left_of f p2 ++ frames_shown r) h sh [CoPayload (Some l) (short_of (f_opcode f)) (s_buf k) (Z.of_N (lenN p1)) (RpReadData n); CoHandle (Some l) (next_of (f_opcode f)); CoListen] w.
Proof.
  intros Ek Hw H H0 H1 H2 H3 H4 H5 H6.
  pose proof Hw as (W1 & W2 & W3). assert (0 < Z.to_N n) as Hn by (clear -H5; lia).
    destruct (read_raw (Z.to_N n) (w_in w) (w_sock w)) as [[x s'] k'] eqn:E. destruct (read_clean _ _ _ _ _ _ Hn W2 E) as (R1 & -> & R3).
    assert (forall react K', AsyncWebSocket.step react (Conf h sh (CoPayload (Some l) (short_of (f_opcode f)) (s_buf k) (Z.of_N (lenN p1)) (RpReadData n) :: K') w) =
      match x with
      | RGot d => if (s_buf k <? Z.of_N (lenN d))%Z then (AUb UbOverflow, Conf h sh [] (set_sock (set_in w s') (w_sock w)))
                  else (ARun, Conf h sh (CoPayload (Some l) (short_of (f_opcode f)) (s_buf k) (Z.of_N (lenN p1)) (RpOnData d) :: K') (set_sock (set_in w s') (w_sock w)))
      | RErr IoRetry => (ARun, Conf h sh (CoPayload (Some l) (short_of (f_opcode f)) (s_buf k) (Z.of_N (lenN p1)) (RpReadData n) :: K') (set_sock (set_in w s') (w_sock w)))
      | RErr IoZero => (ARun, Conf h sh (CoPayload (Some l) (short_of (f_opcode f)) (s_buf k) (Z.of_N (lenN p1)) (RpOnData []) :: K') (set_sock (set_in w s') (w_sock w)))
      | RErr IoBroken => fail ExAsyncIO (Conf h sh K' (set_sock (set_in w s') (w_sock w)))
      | RPending => (AWait, Conf h sh (CoPayload (Some l) (short_of (f_opcode f)) (s_buf k) (Z.of_N (lenN p1)) (RpReadData n) :: K') (set_sock (set_in w s') (w_sock w)))
      end) as Est.
    { intros react K'. cbn [AsyncWebSocket.step step_payload]. unfold readSomeAsyncInline. replace (n <=? 0)%Z with false by (clear -H5; lia). rewrite E.
      destruct x as [d|[]|]; try reflexivity. rewrite lenN_nil. replace (s_buf k <? Z.of_N 0)%Z with false by (clear -H5; lia). reflexivity. }
    destruct x as [d|e|].
    + destruct R3 as (B1 & B2 & B3).
      assert (bytes_of s' ++ fut = dropN (lenN d) A) as Edr by (rewrite W1, B1, <- app_assoc, dropN_app_exact; reflexivity).
      assert (lenN d <= lenN p2) as Hd by (clear -B2 H6 H5; lia). set (d' := takeN (lenN d) p2). set (p2' := dropN (lenN d) p2).
      assert (p2 = d' ++ p2') as Ep by (unfold d', p2'; now rewrite take_drop). assert (lenN d' = lenN d) as Ld by (unfold d'; rewrite lenN_takeN; clear -Hd; lia).
      assert (d ++ (bytes_of s' ++ fut) = cooked (f_key f) (lenN p1) d' ++ cooked (f_key f) (lenN p1 + lenN d') p2' ++ wires r) as EA.
      { rewrite app_assoc, <- B1, <- W1, H0, Ep, cooked_app, <- app_assoc. reflexivity. }
      apply app_same_len in EA as [Ed EA]; [|now rewrite lenN_cooked]. 
      clearbody d' p2'. eapply go_plain with (A' := bytes_of s' ++ fut) (w' := set_sock (set_in w s') (w_sock w)); [| | | | |apply shorter; exact B3].
      * intros react. rewrite Est. replace (s_buf k <? Z.of_N (lenN d))%Z with false by (clear -B2 H5; lia). reflexivity.
      * split; [reflexivity|]. split; [exact R1|exact W3].
      * cbn [w_sock set_sock]. rewrite <- Ek, Ed, Ep. apply at_ondata; auto; [now rewrite <- Ep|]. intros E0. rewrite E0, lenN_nil in Ld. clear -Ld B2. lia.
      * reflexivity.
      * reflexivity.
    + destruct R3 as (-> & B1 & B2). eapply go_plain with (A' := A) (w' := set_sock (set_in w s') (w_sock w)); [intros react; rewrite Est; reflexivity| | |reflexivity|reflexivity|apply shorter; exact B2].
      * split; [cbn; now rewrite W1, B1|]. split; [exact R1|exact W3].
      * cbn [w_sock set_sock]. rewrite <- Ek. now apply at_read.
    + destruct R3 as (B1 & ->). eapply go_wait with (A' := A); [intros react; rewrite Est; reflexivity| | |reflexivity|reflexivity|exact B1|reflexivity| ].
      * split; [cbn; now rewrite W1, B1|]. split; [exact R1|exact W3].
      * cbn [w_sock set_sock]. rewrite <- Ek. now apply at_read.
      * intros E0. exfalso. rewrite E0 in H0. apply (f_equal lenN) in H0. rewrite lenN_app, lenN_cooked in H0. change (@lenN byte []) with 0 in H0. clear -H0 H5 H6. lia.
Qed.
Lemma at_step_ondata fut A w f r p1 d p2 h sh k : k = w_sock w -> okw fut A w -> f_payload f = p1 ++ d ++ p2 -> A = cooked (f_key f) (lenN p1 + lenN d) p2 ++ wires r -> full f h -> known f -> (short_of (f_opcode f) = true -> sh = p1) -> valid k r -> d <> [] -> stepped fut (left_of f (d ++ p2) ++ frames_shown r) h sh [CoPayload (Some l) (short_of (f_opcode f)) (s_buf k) (Z.of_N (lenN p1)) (RpOnData (cooked (f_key f) (lenN p1) d)); CoHandle (Some l) (next_of (f_opcode f)); CoListen] w.
Proof.
  intros Ek Hw H H0 H1 H2 H3 H4 H5.
  set (e := cooked (f_key f) (lenN p1) d). destruct H1 as ((Hh1 & Hh2 & Hh3) & Hlen & Hmask).
    assert (lenN e = lenN d) as Le by (unfold e; apply lenN_cooked).
    assert ((if h_hasMask h then xor_from (h_mask h) (Z.to_N (Z.of_N (lenN p1))) e else e) = d) as Ex.
    { rewrite N2Z.id, Hh3. unfold e, cooked. destruct (f_key f) as [m|]; cbn [has_key]; [|reflexivity]. rewrite (Hmask m eq_refl). apply xor_from_invol. }
    assert (forall react K', AsyncWebSocket.step react (Conf h sh (CoPayload (Some l) (short_of (f_opcode f)) (s_buf k) (Z.of_N (lenN p1)) (RpOnData e) :: K') w) =
      if short_of (f_opcode f) then (ARun, Conf h (sh ++ d) (CoPayload (Some l) (short_of (f_opcode f)) (s_buf k) (Z.of_N (lenN (p1 ++ d))) RpAct :: K') w)
      else let (co, w') := call_listener react l (EvMsg (f_opcode f) d) (h_hasMask h) w in
        (ARun, Conf h sh (co :: CoPayload (Some l) (short_of (f_opcode f)) (s_buf k) (Z.of_N (lenN (p1 ++ d))) RpAct :: K') w')) as Est.
    { intros react K'. cbn [AsyncWebSocket.step step_payload]. destruct e as [|b bs] eqn:Ee; [exfalso; apply H5; apply lenN_0; now rewrite <- Le|]. rewrite <- Ee in *. cbv zeta. rewrite Ex, Le, lenN_app, N2Z.inj_add, Hh2. reflexivity. }
    assert (at_ A (left_of f p2 ++ frames_shown r) h (sh ++ d) [CoPayload (Some l) (short_of (f_opcode f)) (s_buf k) (Z.of_N (lenN (p1 ++ d))) RpAct; CoHandle (Some l) (next_of (f_opcode f)); CoListen] k) as Hnext.
    { apply at_payload; auto; [now rewrite <- app_assoc|now rewrite lenN_app|split; [now split|now split]|]. intros E. now rewrite (H3 E). }
    destruct (short_of (f_opcode f)) eqn:Es.
    + eapply go_plain with (A' := A); [intros react; rewrite Est; reflexivity|exact Hw| |reflexivity|reflexivity|apply stays; [reflexivity|apply Nat.ltb_lt; reflexivity]].
      rewrite <- Ek. unfold left_of in Hnext |- *. rewrite Es in Hnext |- *. exact Hnext.
    + eapply go_call with (ev := EvMsg (f_opcode f) d) (A' := A) (T' := left_of f p2 ++ frames_shown r); [intros react; rewrite Est; reflexivity|exact Hw| | |apply Nat.ltb_lt; reflexivity|exact I].
      * rewrite <- Ek. rewrite <- Es. apply at_payload; auto; [now rewrite <- app_assoc|now rewrite lenN_app|split; [now split|now split]|]. rewrite Es. discriminate.
      * unfold left_of. rewrite Es. cbn [observe]. rewrite map_app, <- !app_assoc. reflexivity.
Qed.
Lemma at_step_on fut A w f r h sh k : k = w_sock w -> okw fut A w -> A = wires r -> full f h -> known f -> short_of (f_opcode f) = true -> sh = f_payload f -> valid k r -> stepped fut (frame_shown f ++ frames_shown r) h sh [CoHandle (Some l) (next_of (f_opcode f)); CoListen] w.
Proof.
  intros Ek Hw H H0 H1 H2 H3 H4.
  destruct H0 as ((Hh1 & Hh2 & Hh3) & Hlen & Hmask). destruct H1 as (Hop & Hp & H8).
    assert (at_ A (frames_shown r) h sh [CoHandle (Some l) HfFinish; CoListen] k) as Hnext by (apply at_boundary; auto; [constructor|intros E; rewrite Hh2; auto|discriminate]).
    assert (boundary [CoHandle (Some l) HfFinish; CoListen] /\ [CoHandle (Some l) HfFinish; CoListen] <> []) as Hb by (split; [constructor|discriminate]).
    unfold frame_shown. destruct Hop as [E|[E|[E|[E|[E|[E|[]]]]]]]; rewrite <- E in *; try discriminate H2; cbn [next_of shown].
    + eapply go_call with (ev := EvClose (close_code sh) (close_reason sh)) (A' := A) (T' := frames_shown r); [intros react; reflexivity|exact Hw| | |apply Nat.ltb_lt; reflexivity|exact Hb].
      * rewrite <- Ek. exact Hnext.
      * rewrite close_code_obs, <- H3. unfold close_obs. destruct sh as [|a [|b rr]]; reflexivity.
    + eapply go_call with (ev := EvPing sh) (A' := A) (T' := frames_shown r); [intros react; reflexivity|exact Hw| | |apply Nat.ltb_lt; reflexivity|exact Hb].
      * rewrite <- Ek. exact Hnext.
      * now rewrite <- H3.
    + eapply go_call with (ev := EvPong sh) (A' := A) (T' := frames_shown r); [intros react; reflexivity|exact Hw| | |apply Nat.ltb_lt; reflexivity|exact Hb].
      * rewrite <- Ek. exact Hnext.
      * now rewrite <- H3.
Qed.
Lemma at_step fut A T h sh K w : at_ A T h sh K (w_sock w) -> okw fut A w -> stepped fut T h sh K w.
Proof.
  intros H Hw. remember (w_sock w) as k eqn:Ek. destruct H.
  - eapply at_step_boundary; eassumption.
  - eapply at_step_act; eassumption.
  - eapply at_step_bb; eassumption.
  - eapply at_step_len; eassumption.
  - eapply at_step_onlen; eassumption.
  - eapply at_step_mask; eassumption.
  - eapply at_step_handle; eassumption.
  - eapply at_step_payload; eassumption.
  - eapply at_step_read; eassumption.
  - eapply at_step_ondata; eassumption.
  - eapply at_step_on; eassumption.
Qed.
End At.
