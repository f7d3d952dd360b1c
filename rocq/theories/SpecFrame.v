(** Specification vocabulary, independent of the model's functions:
    the RFC 6455 section 5.2 wire format written arithmetically, what an application observes
    ("transcript"), and the reading of a received byte stream as a sequence of frames. *)
From Verif Require Import Bytes Frame World.
Local Open Scope N_scope.

(** * RFC 6455 frames *)

Record frame := RFrame {
  f_fin : bool;
  f_rsv1 : bool;
  f_rsv2 : bool;
  f_rsv3 : bool;
  f_opcode : N;
  f_key : option mask4;      (* masking key, if the frame is masked *)
  f_payload : bytes          (* application data, unmasked *)
}.

(** The three encodings of the payload length. *)
Inductive lform := L7 | L16 | L64.

Definition bitv (b : bool) (v : N) : N := if b then v else 0.

(** The octets of a masking key. *)
Definition octets (k : mask4) : bytes := [mk0 k; mk1 k; mk2 k; mk3 k].
(** Section 5.3: octet i of the transformed data is the XOR of octet i of the original data with
    octet i MOD 4 of the masking key. *)
Definition rfc_masked (k : mask4) (p : bytes) : bytes :=
  map (fun ib => bxor (snd ib) (nth (fst ib mod 4)%nat (octets k) x00))
      (combine (seq 0 (length p)) p).

Definition masked_opt (k : option mask4) (p : bytes) : bytes :=
  match k with Some m => rfc_masked m p | None => p end.

Definition has_key (k : option mask4) : bool := match k with Some _ => true | None => false end.
Definition key_bytes (k : option mask4) : bytes := match k with Some m => octets m | None => [] end.

(** Section 5.2: header bytes for payload length [n]. *)
Definition rfc_header (lf : lform) (fin r1 r2 r3 : bool) (op : N) (k : option mask4) (n : N) : bytes :=
  n2b (bitv fin 128 + bitv r1 64 + bitv r2 32 + bitv r3 16 + op)
  :: n2b (bitv (has_key k) 128 + match lf with L7 => n | L16 => 126 | L64 => 127 end)
  :: match lf with L7 => [] | L16 => be_enc 2 n | L64 => be_enc 8 n end
  ++ key_bytes k.

Definition wire (lf : lform) (f : frame) : bytes :=
  rfc_header lf (f_fin f) (f_rsv1 f) (f_rsv2 f) (f_rsv3 f) (f_opcode f) (f_key f) (lenN (f_payload f))
  ++ masked_opt (f_key f) (f_payload f).

(** A length form can carry a length (L64: the most significant bit MUST be 0). *)
Definition lform_ok (lf : lform) (n : N) : bool :=
  match lf with L7 => n <? 126 | L16 => n <? 65536 | L64 => n <? 2 ^ 63 end.

(** "the minimal number of bytes MUST be used to encode the length" *)
Definition lform_min (n : N) : lform :=
  if n <? 126 then L7 else if n <? 65536 then L16 else L64.

(** * What the application observes *)

(** A transcript forgets how the bytes of a message are cut into readMessage calls. *)
Inductive obs :=
| OByte (opcode : N) (b : byte)
| OEnd (opcode : N)
| OPing (m : bytes)
| OPong (m : bytes)
| OClose (code : N) (m : bytes).

Definition observe (ev : event) : list obs :=
  match ev with
  | EvMsg op d => map (OByte op) d
  | EvEnd op => [OEnd op]
  | EvPing m => [OPing m]
  | EvPong m => [OPong m]
  | EvClose c m => [OClose c m]
  end.

Definition transcript (log : list (nat * event)) : list obs :=
  flat_map (fun le => observe (snd le)) log.

(** The complete listener-visible content of one data frame / one control frame. *)
Definition close_obs (p : bytes) : obs :=
  match p with
  | a :: b :: r => OClose (b2n a * 256 + b2n b) r
  | _ => OClose 0 []
  end.

(** * Reading a byte stream *)

Record finfo := FInfo { i_fin : bool; i_rsv : N; i_opcode : N; i_key : option mask4; i_len : N }.

(** Header of the first frame of a byte string and what follows it; None if incomplete. *)
Definition rd_header (bs : bytes) : option (finfo * bytes) :=
  match bs with
  | b0 :: b1 :: r =>
    let ext := if b2n b1 mod 128 =? 126 then 2 else if b2n b1 mod 128 =? 127 then 8 else 0 in
    let len := if ext =? 0 then b2n b1 mod 128 else be_dec (takeN ext r) in
    if lenN r <? ext then None else
    let r' := dropN ext r in
    let info k := FInfo (128 <=? b2n b0) (b2n b0 / 16 mod 8) (b2n b0 mod 16) k len in
    if b2n b1 <? 128 then Some (info None, r')
    else match r' with
         | k0 :: k1 :: k2 :: k3 :: r'' => Some (info (Some (Mask4 k0 k1 k2 k3)), r'')
         | _ => None
         end
  | _ => None
  end.

(** How the reading of a stream ends. *)
Inductive rend :=
| Blocked                   (* the stream ends inside a frame (or before one) *)
| Closed (rest : bytes)     (* a Close frame was handled; [rest] follows it *)
| Rejected (rest : bytes)   (* a frame was rejected; [rest] follows its header *)
| Stopped (rest : bytes).   (* the frame budget is used up; [rest] follows the last frame *)

(** ** As implemented by this library

    Departures from RFC 6455: a continuation frame is reported under opcode 0, the FIN of a
    continuation frame does not close the fragmented message ([opn], "a data frame without FIN has
    been received", is never reset), a 64-bit length with the top bit set counts as 0; RSV bits,
    FIN of control frames and the role's masking are not checked. *)
Definition eff_len (n : N) : N := if n <? 2 ^ 63 then n else 0.

Definition accepts (opn : bool) (i : finfo) : bool :=
  match i_opcode i with
  | 0 => opn
  | 1 | 2 => negb opn
  | 8 | 9 | 10 => eff_len (i_len i) <=? 125
  | _ => false
  end.

Definition next_open (opn : bool) (i : finfo) : bool :=
  match i_opcode i with
  | 1 | 2 => negb (i_fin i)
  | _ => opn
  end.

(** What is shown of an accepted frame of which the (unmasked) payload bytes [avail] have arrived. *)
Definition shown (op : N) (fin : bool) (avail : bytes) (complete : bool) : list obs :=
  match op with
  | 8 => if complete then [close_obs avail] else []
  | 9 => if complete then [OPing avail] else []
  | 10 => if complete then [OPong avail] else []
  | _ => map (OByte op) avail ++ (if complete && fin then [OEnd op] else [])
  end.

(** The reading of at most [k] frames of [bs]. *)
Fixpoint reading (k : nat) (opn : bool) (bs : bytes) : list obs * rend :=
  match k with
  | O => ([], Stopped bs)
  | S k' =>
    match rd_header bs with
    | None => ([], Blocked)
    | Some (i, rest) =>
      let n := eff_len (i_len i) in
      let avail := masked_opt (i_key i) (takeN n rest) in
      let complete := n <=? lenN rest in
      if negb (accepts opn i) then ([], Rejected rest) else
      let obs := shown (i_opcode i) (i_fin i) avail complete in
      if negb complete then (obs, Blocked)
      else if i_opcode i =? 8 then (obs, Closed (dropN n rest))
      else let (more, e) := reading k' (next_open opn i) (dropN n rest) in (obs ++ more, e)
    end
  end.

(** The whole stream: there are fewer frames than bytes. *)
Definition stream_reading (opn : bool) (bs : bytes) : list obs := fst (reading (S (length bs)) opn bs).
Definition stream_ending (opn : bool) (bs : bytes) : rend := snd (reading (S (length bs)) opn bs).

(** ** As prescribed by RFC 6455 (framing rules of sections 5.1-5.5; UTF-8 and close-code validity
    left out), for an endpoint that expects masked frames iff [msk]. [opn] is the opcode of the
    fragmented message in progress. *)
Definition rfc_accepts (msk : bool) (opn : option N) (i : finfo) : bool :=
  (i_rsv i =? 0) && Bool.eqb (has_key (i_key i)) msk && (i_len i <? 2 ^ 63) &&
  match i_opcode i with
  | 0 => match opn with Some _ => true | None => false end
  | 1 | 2 => match opn with Some _ => false | None => true end
  | 8 | 9 | 10 => i_fin i && (i_len i <=? 125)
  | _ => false
  end.

Definition rfc_next (opn : option N) (i : finfo) : option N :=
  match i_opcode i with
  | 0 => if i_fin i then None else opn
  | 1 | 2 => if i_fin i then None else Some (i_opcode i)
  | _ => opn
  end.

(** The opcode under which a frame is shown: that of the message it belongs to. *)
Definition rfc_op (opn : option N) (i : finfo) : N :=
  match i_opcode i, opn with 0, Some op => op | op, _ => op end.

Fixpoint rfc_reading (k : nat) (msk : bool) (opn : option N) (bs : bytes) : list obs * rend :=
  match k with
  | O => ([], Stopped bs)
  | S k' =>
    match rd_header bs with
    | None => ([], Blocked)
    | Some (i, rest) =>
      let n := i_len i in
      let avail := masked_opt (i_key i) (takeN n rest) in
      let complete := n <=? lenN rest in
      if negb (rfc_accepts msk opn i) then ([], Rejected rest) else
      let obs := shown (rfc_op opn i) (i_fin i) avail complete in
      if negb complete then (obs, Blocked)
      else if i_opcode i =? 8 then (obs, Closed (dropN n rest))
      else let (more, e) := rfc_reading k' msk (rfc_next opn i) (dropN n rest) in (obs ++ more, e)
    end
  end.

Definition rfc_stream_reading (msk : bool) (bs : bytes) : list obs * rend :=
  rfc_reading (S (length bs)) msk None bs.

(** * Connections *)

(** The bytes a connection script delivers. *)
Fixpoint bytes_of (s : list rev) : bytes :=
  match s with
  | [] => []
  | RData b bs :: s' => (b :: bs) ++ bytes_of s'
  | _ :: s' => bytes_of s'
  end.

(** Only data, in any segmentation, and transient retries. *)
Definition clean_ev (e : rev) : Prop :=
  match e with RData _ _ => True | RIo IoRetry => True | _ => False end.
Definition clean (s : list rev) : Prop := Forall clean_ev s.

(** As [clean], but other threads may call stopListening. *)
Definition steady_ev (e : rev) : Prop :=
  match e with RData _ _ => True | RIo IoRetry => True | RExt XStop => True | _ => False end.
Definition steady (s : list rev) : Prop := Forall steady_ev s.

(** Every data segment is fine; errors satisfy [pe], calls of other threads satisfy [px]. *)
Definition ev_ok (px : ext -> Prop) (pe : ioerr -> Prop) (e : rev) : Prop :=
  match e with RData _ _ => True | RIo i => pe i | RExt x => px x end.
Definition script_ok px pe (s : list rev) : Prop := Forall (ev_ok px pe) s.
Definition is_stop (x : ext) : Prop := x = XStop.
Definition any_err (e : ioerr) : Prop := True.

(** Any failures, but the only calls of other threads are stopListening. *)
Definition stop_only (s : list rev) : Prop := script_ok is_stop any_err s.

(** Writes make progress: partial acceptance and transient retries only. *)
Definition healthy_ev (e : wev) : Prop :=
  match e with WAccept _ => True | WIo IoRetry => True | _ => False end.
Definition healthy (q : list wev) : Prop := Forall healthy_ev q.

(** list prefix *)
Definition prefix {A} (l m : list A) : Prop := exists r, m = l ++ r.
