(** The sample frames of RFC 6455 section 5.7: what the specification calls the wire format of each, what the library's listening makes of it, what
    its sending calls write. Not claims of their own (they are runs), but tests of SpecFrame.v and of the model. *)
From Verif Require Import Bytes Frame World WebSocket AsyncWebSocket SpecFrame SpecListen SpecAsync.
Local Open Scope N_scope.

Definition hello : bytes := [x48; x65; x6c; x6c; x6f].
Definition sample_key : mask4 := Mask4 x37 xfa x21 x3d.
Definition single := RFrame true false false false 1 None hello.
Definition single_masked := RFrame true false false false 1 (Some sample_key) hello.
Definition part1 := RFrame false false false false 1 None [x48; x65; x6c].
Definition part2 := RFrame true false false false 0 None [x6c; x6f].
Definition ping := RFrame true false false false 9 None hello.
Definition pong_masked := RFrame true false false false 10 (Some sample_key) hello.
Definition many (n : nat) := RFrame true false false false 2 None (List.repeat x2a n).
Definition conn (mask : bool) (bs : bytes) : world :=
  World (match bs with [] => [] | b :: r => [RData b r] end) [] [] (fun n => nth n [x37; xfa; x21; x3d] x00) 0 [] (Sock mask 2048 (Some 0%nat) (-1) false).
Definition quiet : react_t := fun _ _ => [].
Definition heard (bs : bytes) := map snd (w_log (snd (listen quiet (conn false bs)))).
Definition heard_async (bs : bytes) := map snd (w_log (c_world (snd (run quiet (ticks 100) (ARun, start_listen (conn false bs)))))).
Definition written (mask : bool) (op : sendop) := w_out (snd (send op (conn mask []))).

Definition b_single := [x81; x05; x48; x65; x6c; x6c; x6f].
Definition b_single_masked := [x81; x85; x37; xfa; x21; x3d; x7f; x9f; x4d; x51; x58].
Definition b_parts := [x01; x03; x48; x65; x6c; x80; x02; x6c; x6f].
Definition b_ping := [x89; x05; x48; x65; x6c; x6c; x6f].
Definition b_pong_masked := [x8a; x85; x37; xfa; x21; x3d; x7f; x9f; x4d; x51; x58].
Definition b_256 := [x82; x7e; x01; x00] ++ List.repeat x2a 256.

Example rfc_5_7_wire :
  wire L7 single = b_single /\ wire L7 single_masked = b_single_masked /\ wire L7 part1 ++ wire L7 part2 = b_parts /\
  wire L7 ping = b_ping /\ wire L7 pong_masked = b_pong_masked /\ wire L16 (many 256) = b_256 /\
  rfc_header L64 true false false false 2 None 65536 = [x82; x7f; x00; x00; x00; x00; x00; x01; x00; x00].
Proof. vm_compute. repeat split; reflexivity. Qed.
Example rfc_5_7_listen :
  heard b_single = [EvMsg 1 hello; EvEnd 1] /\ heard b_single_masked = [EvMsg 1 hello; EvEnd 1] /\ heard b_ping = [EvPing hello] /\
  heard b_pong_masked = [EvPong hello] /\ heard b_256 = [EvMsg 2 (List.repeat x2a 256); EvEnd 2] /\
  heard b_parts = [EvMsg 1 [x48; x65; x6c]; EvMsg 0 [x6c; x6f]; EvEnd 0].
Proof. vm_compute. repeat split; reflexivity. Qed.
Example rfc_5_7_listen_async :
  heard_async b_single = heard b_single /\ heard_async b_single_masked = heard b_single_masked /\ heard_async b_ping = heard b_ping /\
  heard_async b_pong_masked = heard b_pong_masked /\ heard_async b_256 = heard b_256 /\ heard_async b_parts = heard b_parts.
Proof. vm_compute. repeat split; reflexivity. Qed.
Example rfc_5_7_send :
  written false (SoText (Some hello)) = b_single /\ written true (SoText (Some hello)) = b_single_masked /\ written false (SoPing (Some hello)) = b_ping /\
  written true (SoPong (Some hello)) = b_pong_masked /\ written false (SoBinary (Some (List.repeat x2a 256))) = b_256 /\
  written false (SoFrame false 1 (Some [x48; x65; x6c])) ++ written false (SoFrame true 0 (Some [x6c; x6f])) = b_parts.
Proof. vm_compute. repeat split; reflexivity. Qed.
