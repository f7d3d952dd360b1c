(** Model of what Connector.cpp does with the connection between the HTTP response and its return. *)
From Verif Require Import Bytes Frame World Sha1 Base64 Handshake.
Local Open Scope N_scope.
Local Open Scope m_scope.

(** oatpp core, contract: ResponseHeadersReader looks for the end of the header section, CR LF CR LF, in what each read returned. [seen]: the bytes of earlier
    reads, latest first. The result is the part of [d] up to the end of the section and what follows it. *)
Definition SECTION_END : bytes := [x0a; x0d; x0a; x0d].  (* latest byte first *)
Fixpoint find_end (seen d : bytes) : option (bytes * bytes) :=
  match d with
  | [] => None
  | b :: d' =>
    if bytes_eqb (firstn 4 (b :: seen)) SECTION_END then Some ([b], d')
    else match find_end (b :: seen) d' with None => None | Some (a, r) => Some (b :: a, r) end
  end.
(** oatpp core, contract: HttpRequestExecutor::execute (Connector.cpp:55; executeAsync, line 111) reads from the connection with a buffer of [n] bytes (IOBuffer::BUFFER_SIZE, 4096) until it
    has the whole header section. Bytes that the last read returned beyond the end of the section become the beginning of the response's body stream;
    they can not be read from the connection again. Simplification: no limit on the size of the section. *)
Fixpoint read_section (fuel : nat) (n : Z) (seen : bytes) : M (option (bytes * bytes)) :=
  match fuel with
  | O => out_of_fuel
  | S fuel =>
    r <- readSimple n;;
    match r with
    | inl d => match find_end seen d with
               | Some (a, rest) => ret (Some (List.rev seen ++ a, rest))
               | None => read_section fuel n (List.rev d ++ seen)
               end
    | inr IoRetry => read_section fuel n seen
    | inr _ => ret None
    end
  end.
Definition receive_response (n : Z) : M (option (bytes * bytes)) := fun w => read_section (S (script_size (w_in w))) n [] w.

(** Connector.cpp:39-60 (and 99-118) on the connection [w]: the peer as the request executor sees it; [parse] is what the core makes of a header
    section (status code and headers). The request is on its way; what the response's body stream holds is dropped with the response (line 55: a local
    variable; line 115: an argument). *)
Definition over (parse : bytes -> option (N * headers)) (n : Z) (w : world) : peer unit :=
  Peer (Got tt) (fun _ _ _ => match fst (receive_response n w) with Ret (Some (section, _)) => parse section | _ => None end).
(** Connector.cpp:59, 118: the connection that is returned, and on which the caller creates a WebSocket. *)
Definition handed_over (n : Z) (w : world) : world := snd (receive_response n w).
