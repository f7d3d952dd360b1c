# Formal model of oatpp-websocket in Rocq (Coq 8.16.1)

## Approach

* The code under `/repo/src/oatpp-websocket` is small; all of it is modelled except logging, thread affinity
  and the C++ object plumbing (`createShared`, `Countable`).
* Model = executable Gallina functions in a state/outcome monad. The world holds: the inbound script (a finite
  list of results the connection's `read` will give: data segments, retry, zero/error, calls made by other
  threads), the outbound script (partial acceptance, retry, failure, block), the bytes written so far, a random
  source, the log of listener calls and the socket's fields. Outcomes: `Ret | Throw | Wait (blocked) | UB | Fuel`.
  UB is a distinct outcome; fuel exhaustion is a distinct outcome proved unreachable.
* Listener code is an arbitrary function from the listener id and the call history to a list of API commands
  (send with or without catching, stop, setListener, setConfig, throw, use of the data pointer).
* The async socket is an explicit stack machine: one stack frame per coroutine instance, one step per coroutine
  method call / per `read`/`write` attempt; it is proved to refine the blocking functions.
* Dependencies (oatpp core, not in the repo): `readSimple`, `readExactSizeDataSimple`, `write...`, their async
  inline versions, `Headers`, `Base64::encode`, `HttpRequestExecutor`, coroutine scheduling are modelled by their
  contract; each such definition says "oatpp core, contract".
* Specifications are separate files: RFC 6455 5.2 wire format written arithmetically, transcripts of
  listener-observable bytes, FIPS 180-4 SHA-1, RFC 4648 Base64.
* Properties that the faithful model falsifies get a `..._refuted` theorem with a witness, plus the strongest
  fragment that is true (`..._partial`).

## Plan per property

| id | modelled | proof |
|----|----------|-------|
| C01 | pack/unpackHeaderBits bitwise on N/Z | bit lemmas + finite sweep over the 16-bit space lifted by forallb |
| C02 | write/readFrameHeader over scripts | composition with C01, big-endian lemmas, exact-read lemma by induction on scripts |
| C03 | sendOneFrame and wrappers | equality of written bytes with RFC wire encoder |
| C04,C05,C06,C08,C09,C12,C16,C17,C18 | listen/handleFrame/readPayload | one main simulation: model run = reading of the byte stream ("transcript"), by induction on fuel |
| C07,C25 | readPayload with explicit allocation size, UB outcome | invariant on the log |
| C10 | XOR loops | index lemma, involution |
| C11,C44 | sendClose + handleFrame | composition; C44 exactly: fold over the sends, through the reading of the stream |
| C13,C14 | m_listening flag, external calls in the inbound script | induction; C14 expected refuted |
| C15 | listen; with other threads: Process.v | fuel measure; with other threads: rely/guarantee (SpecEnds.v, PropEnds.v): others keep the listener set unless one calls setListener(nullptr), everybody keeps the buffer size unless one calls setConfig |
| C19,C20,C21,C22,C46 | as is | expected refuted, with universally quantified characterisations |
| C23 | writeExact with failure scripts | induction on scripts; "stops listening" expected only partially true |
| C24 | constructors, send, listenAsync, both connection handlers with their sockets (Server.v, ThreadServer.v) | relation over listen(); invariant over executor steps and over server histories (PropMasking.v) |
| C26 | int32 loop counter | UB outcome; expected refuted at 2^31 |
| C27 | listener = None, listen and listenAsync | simulation; listenAsync through C28 |
| C28,C29,C31,C45 | coroutine stack machine | forward simulation, compiler-correctness style; for C28 up to the first failing write, comparison of each socket's run with its own run on a connection whose peer stops taking data at that moment (ProofHeld.v, PropAsyncFailure.v) |
| C30 | interleavings of write chunks | merge lemma for atomic sends; refuted for unsynchronised sends |
| C32,C33 | SHA1.cpp on N mod 2^32, 80-line unrolled table | circular-buffer/rotation invariant against FIPS 180-4 |
| C34-C41 | Handshaker, Connector over header multimaps | decision tables, Base64 injectivity |
| C45,C48 | listen on an input and on an extension of it | relational (two-run) induction over the listening loop |
| C49-C51 | listener code that answers | log/output relation preserved by every step; composition of two sockets |
| C52-C56 | coroutine stack machine with every sending listener | bisimulation erasing looks at data; transfer of C04-C18, C49 along C52 |
| C57 | three coroutines and two byte queues, any interleaving | projection of the interleaving to one schedule per coroutine, C53/C56, counting under fairness |
| C58 | two listening coroutines whose listeners are functions of the history, two byte queues, any interleaving | every execution is below a common increasing chain (alternating one-endpoint semantics, C53/C56); fair executions climb it |
| C59 | the network of C57, the client's sends end with a Close | as C57, with the reading of streams that end in a Close frame |
| C60 | per endpoint two coroutines on one world (SpecDuplex); two byte queues | frame lemma: sending steps commute with the read side, listening steps with the write side; then two one-way channels as in C57 |
| C61 | sequences of sends that form whole messages and at most one fragmented one (SpecFragment) | the sent frames as a history accepted by the reader, then as C04; for the asynchronous sockets as C60 |
| C62 | the caller's code around sendFrameHeader: any header object, any pieces (SpecFragment) | induction over the pieces with the bytes-written relation of C03; round trip as C04 |
| C63 | an HTTP peer that runs serversideHandshake (PropSession), Connector over the request/response interface | composition of C24's lemmas: the accept value computed on both sides is the same function of the key |
| C64 | listener commands include setConfig; what the commands up to a throw must write, leave and allow (SpecConfig) | the relational rule of C49 extended with the size of each data callback |
| C65 | a caller's loop around iterateFrame (SpecConfig.pump) | two-run relation: no code but listen's loop looks at the flag, and the header object's old content is never used; the flag stays set |
| C66 | listener calls against bytes taken from the script, both sockets, also with other threads (Process.v) and coroutines (Coroutines.v), no condition at all on listeners or input | potential argument: a frame header earns two bytes of credit, each data chunk and each control payload its own length (a program logic `fee` for the monad; an invariant of the coroutine stack for the machine); with threads the same logic for programs of Process.v, with coroutines every other stack has no credit |
| C67 | server = handler + one AsyncWebSocket machine per connection (Server.v), events in any order | the state is a product: each event is a step of the parts it concerns (ProofServer.v) |
| C68 | as C67, plus the RFC reading of SpecFrame.v | phase invariant of one connection; its machine is a run of AsyncWebSocket on everything that arrived, then C53/C56 |
| C69 | WebSocket.cpp with every access to m_listening, m_listener, m_config explicit and calls of other threads before each (Threads.v) | lock-step simulation with an undisturbed socket whose listener takes notes; induction over frames |
| C70 | as C69 | invariant over the trace of accesses; for the refutation, a schedule computed from the undisturbed run |
| C12 | also Process.v, Coroutines.v, AsyncWebSocket.v | the stack of listenAsync() keeps one of six shapes; after a Close was told only shapes that tell nothing are left |
| C71, C12 | as C69; several threads in Process.v | trace invariant: a stop since listen() implies the flag is down; with C69. Several threads: the programs tell along a path that returns to its start only after m_listening was read as true; invariant over schedules |
| C72 | the WriteFrameCoroutine started on its own, by either call | simulation with the blocking writeFrameHeader, then its byte-level specification; completion by the halting lemma |
| C73 | the server as a whole: handler (Lifecycle), one blocking socket per connection (WebSocket), threads scheduled arbitrarily (ThreadServer.v) | projection of every step on one connection; equal projections of equal own events |
| C74 | as C73 | exact description of the projection by induction over the events (a blocked listen() is resumed as a longer run, by C48), then C06 for faithfulness, C03/C49 for completeness |
| C75 | as C73; std::terminate is an outcome of the model (exception out of a thread function or of the noexcept destructor of Task) | invariant of every connection, with C15 (listen() returns or blocks); refutation for an onBeforeDestroy that sends |
| C76 | Process.v: WebSocket.cpp as programs whose single steps are interleaved by a scheduler; shared are the sending side, the random source, m_config, m_listener and m_listening | each thread's run in the system equals a run of Threads.v with some calls of other threads and some write behaviour (invariant over steps of all threads), then C69, C70 |
| C77 | Process.v; bytes on the wire labelled with the thread that wrote them | same invariant; induction over the commands of a thread and over listening (Threads.v) with the frame writer's specification (C01, C02) |
| C78 | Process.v | termination by structural induction over programs under fairness; C76, C77 |
| C79 | Coroutines.v: any number of coroutine stacks of AsyncWebSocket.v sharing connection, random source and socket fields; one executor step runs one method of one coroutine | causes of undefined behaviour: invariant of all stacks (SpecEnds.v, PropEndsAsync.v); the rest: invariant: the listening coroutine is in step with one that only takes notes on an undisturbed socket (simulation, step for step or pausing), then C53, C54 |
| C80 | Coroutines.v; bytes on the wire labelled with the coroutine that wrote them | invariant over executor steps: what each coroutine has written plus what its current frame has left is the concatenation of its frames so far |
| C81 | Coroutines.v | lexicographic measure (distance of the undisturbed coroutine from its end, write events left, work left in application code) that every turn of a coroutine decreases and no other coroutine increases; C53, C79, C80 |
| C82 | the coroutine machine of AsyncWebSocket.v; SpecCost.v counts the received bytes its objects hold | invariant over machine steps (shape of the stack, header fields at most 8 bytes, control payload at most the announced length, which is at most 125) for every schedule (PropCost.v); with other coroutines (Coroutines.v) the same invariant for every stack (PropCost2.v) |
| C83 | the coroutine machine of AsyncWebSocket.v; SpecCost.v counts method calls (busy), input (amount) and the listener's requests (chores) | potential function: 16 per unit of input, rank of the receiving coroutine, weight of the application's coroutines; every step that does not wait decreases it (PropCost.v); the number of calls is bounded by C66; with other coroutines (Coroutines.v) the sum of the weights of all stacks (PropCost2.v) |
| C84 | the sending wrappers and listen/listenAsync | C44_exactly by induction over the calls through the reading of the stream |
| C85 | coroutine stacks of the executor model, the listener reference held by each coroutine object | invariant over all histories (PropLifetime.v) |
| C86 | Process.v with the field each step reads or assigns | invariant over all schedules: syntactic classes of programs preserved by steps (PropRace.v) |
| C87 | Composition of Server.v / ThreadServer.v with the model of the client's sends and listen; specification in SpecEndToEnd.v and SpecAccept.v | C74_completion, C68_completion and the reading of frames sent (PropEndToEnd.v) |
| C88 | PushServer.v: the server of C67/C68 with any number of coroutines per socket (Coroutines.v), started by the application at any moment | per connection a simulation by one socket with its coroutines alone (C88_service), then C79-C81; fairness: the infinite schedule of the whole server induces a fair one of the connection |
| C89 | PushThreads.v: the server of C74/C75 whose sockets are used by several threads (Process.v), with the socket's lifetime ending after onBeforeDestroy | per connection a simulation by one socket with its threads alone (C89_service), then C76-C78; safety by an invariant over all connections; fairness: the infinite schedule of the whole server induces a fair one of the connection |
| C90 | SpecParallel.v: what coroutines share, as parts of the state that can be exchanged (with_cell); leaving a part alone, preserving it, commuting | one step of a sending coroutine is independent of everything but the outgoing side, the random source and the configuration, one step of any coroutine not in the middle of a send of the outgoing side and the random source; invariant over all schedules |
| C91 | SpecMixed.v: two endpoints, each blocking or asynchronous, and a network that delivers what they write; applications as functions of what they were shown | each endpoint, of either kind, computes the same monotone function of streams (what is heard of the bytes that arrived, what is said in answer), cut off where the application throws (ProofQuit.v); both executions approximate the limit of the iteration of these two functions |
| C92 | Upgrade.v: the request executor's reading of the response header section from the connection (contract of the core), and the connection that is handed on; SpecUpgrade.v | induction over the reads; the client's listening by the exactness theorem of C06. Proved: what is lost is a beginning of the frames, shorter than the buffer, and nothing if the response's last byte ends a piece; refuted for every server that speaks at once |
| C93 | Ownership.v: listen with reference counts for listeners; SpecOwnership.v | simulation of listen with and without destruction, over all listener programs. Proved: the only way is a callback that replaces itself and then goes on while nobody else keeps it; refuted for every such listener |
| C94 | Handshake.v; SpecField.v (message heads of RFC 7230) | shape of SHA-1 digests for arbitrary states, alphabet of Base64, induction over the lines of a head |
| C95 | WebSocket.v; SpecResume.v (the application's loop) | induction over frames inside one call, relating what was read to the reading of the rest including the state of a fragmented message, then induction over the calls |
| C96 | Message.v (the coroutine of AsyncWebSocket.v and the application's string object); SpecMessage.v | invariant over the steps of the coroutine relating what was written to the contents the object has had; refutations by running to completion on a connection that accepts everything |
| C97 | no new model; SpecInterop.v (the strict peer on the level of calls; rfc_stream_reading of SpecFrame.v on the level of bytes) | the frames written are those asked for (C04-C06, C49, C56); induction over the calls with the peer's state; prefix lemma for the strict reading for moments in the middle of a frame |
| C98 | Object.v: readPayload, handleFrame, iterateFrame, listen with callbacks that are programs over an arbitrary memory; SpecObject.v | simulation: the commands executed in the n-th call of the run are a function of the number of calls so far; the hypotheses of earlier theorems about listeners follow from what the code may call |
| C99 | Object.v: the same, callbacks may contain calls of listen and iterateFrame; SpecObject.v | each nested call is preceded by a frame header, so unread input bounds the depth; callbacks at frame boundaries run after the frame, which is read as in C98; induction on depth and frames |
| C100 | AsyncObject.v (AsyncWebSocket.v with callbacks' coroutines that are programs over an arbitrary memory), Object.v; SpecObject.v | simulation, step by step, with the listener that is the history of calls; for failing writes a backwards construction of that listener from the run; then C28, C53, C54; what sends report (PropTold.v): the send on top of the callback's coroutine, step by step with the send alone (C29) |
| C101 | AsyncReentry.v (a stack of waiting callbacks, each with the header, message stream and coroutines of the listening that called it); SpecObject.v, SpecReentry.v | an invariant that says, for every state of the coroutines, which bytes are to come and what they will show; completion by induction on the unread input, the rank of the coroutine state, the code and the levels; which listening a Close ends by counting the levels against the pings and Closes reported |
| C102 | Process.v (threads), Coroutines.v, AsyncWebSocket.v; SpecProper.v | blocking: a property of every continuation of the program of listen() (induction on its loops), kept by every step of every thread; async: an invariant on the coroutine stack (the length of the collected short message against the bytes read), kept by every step of any coroutine |
| C42,C43 | task/coroutine life cycle automata | invariant by induction over operations |

Detailed status: MANIFEST.json. Naming: `Cnn_..._refuted` states, with universally quantified parameters where
possible, that the code does not have (that part of) the property; `Cnn_..._partial` is a true fragment, and the comment
above it says what is missing; `Cnn_nonvacuous` examples exhibit concrete cases meeting the hypotheses.

## Files

| files | content |
|-------|---------|
| Bytes, Frame, World, WebSocket | model: byte strings, Frame.cpp, connection/random/listener world, WebSocket.cpp |
| AsyncWebSocket | model: AsyncWebSocket.cpp as a coroutine stack machine |
| Sha1, Base64, Handshake, Upgrade, Lifecycle, Concurrent, Server, ThreadServer | model: SHA1.cpp, Base64 contract, Handshaker/Utils/Connector, the two connection handlers, several senders on one socket, an asynchronous server and a threaded server with many connections |
| Process, Coroutines, PushServer, PushThreads | model: several threads on one blocking socket, several coroutines on one asynchronous socket, an asynchronous server whose application sends from coroutines of its own, a threaded one whose application sends from threads of its own |
| Object | model: readPayload, handleFrame, iterateFrame, listen of WebSocket.cpp with listeners as programs over their own memory, which may listen themselves |
| AsyncObject | model: AsyncWebSocket.cpp's coroutines with the same listener programs |
| AsyncReentry | model: the same, with callbacks that call listenAsync |
| Threads | model: WebSocket.cpp again, every access to the fields other threads may write made explicit |
| Ownership | model: WebSocket.cpp's listen with the references that keep listeners alive |
| Message | model: the sending coroutine of AsyncWebSocket.cpp and the string object it was given, which the application may change |
| SpecFrame, SpecSend, SpecListen, SpecApi, SpecAsync, SpecSha1, SpecHandshake, SpecLifecycle, SpecConcurrent, SpecCausal, SpecReply, SpecNet, SpecTalk, SpecDuplex, SpecFragment, SpecConfig, SpecServer, SpecThreads, SpecThreadServer, SpecProcess, SpecCoroutines, SpecRace, SpecLifetime, SpecEndToEnd, SpecPushServer, SpecPushThreads, SpecParallel, SpecMixed, SpecUpgrade, SpecOwnership, SpecField, SpecResume, SpecMessage, SpecInterop, SpecObject, SpecReentry, SpecAccept, SpecBase64, SpecCost, SpecProcessStop, SpecProper | specification vocabulary; SpecFrame (RFC 6455 5.2), SpecSha1 (FIPS 180-4) and SpecHandshake (RFC 6455 4) do not mention the model's functions |
| Proof* | lemmas |
| SamplesRfc6455 | tests, not proofs: the sample frames of RFC 6455 5.7 sent and received by the model |
| Prop* | the theorems named in MANIFEST.json, with their non-vacuity examples |

## Trusted base

* Coq 8.16.1's kernel (including `vm_compute`, used for finite sweeps and examples; no `native_compute`), the OCaml
  runtime it runs on.
* `Print Assumptions` of every theorem named in MANIFEST.json prints "Closed under the global context": no axiom is used,
  neither own nor of the standard library. (The checker lists seven constants of `Coq.ssr.ssrunder.Under_rel`; these are
  parameters of a module type of the standard library that is loaded with ssreflect; no theorem here depends on them.)
* No module of a library other than Coq's standard library is imported.
* The correspondence between the C++ text and the Gallina definitions, by reading: every definition cites the lines it
  models and names its simplifications.
* The contracts assumed of oatpp core (not in /repo), listed below.

### Contracts assumed of the dependencies

* `IOStream::read/write`, `readSimple`, `readExactSizeDataSimple`, `writeExactSizeDataSimple` (World.v): a read returns a
  non-empty prefix of what is available, RETRY, 0, an error, or does not return; exact variants iterate, ignoring RETRY and
  stopping at any other failure; a read of 0 bytes returns 0; writes accept any non-empty prefix, RETRY, fail, or block.
  `writeExactSizeDataSimple` stops at 0.
* `read*AsyncInline`, `writeExactSizeDataAsyncInline` (AsyncWebSocket.v): one read/write per call, REPEAT/WAIT/next/error;
  an exact read fails on 0.
* Coroutine semantics: stack of coroutines, `yieldTo`, `.next`, `finish`, error propagation with `handleError`;
  `A.next(B)` constructs B before A runs.
* `oatpp::utils::Random::randomBytes`: consecutive bytes of one source; nothing is assumed of their distribution.
* `Headers`: a multimap, case-insensitive names, `put` adds; lookup among several values is any of them (`c_pick` is a
  parameter); `Parser::parseHeaderValueData` yields a token set (`c_tokens` is a parameter, with the RFC 7230 contract as
  hypothesis where it matters).
* `Base64::encode` is RFC 4648 base 64 (Base64.v, proved equal to SpecBase64.v, which is written from the RFC and is what the theorems mention).
* `HttpRequestExecutor::execute` sends the given headers and returns the peer's status and headers, or throws; it reads the response through a
  buffer, and what it read past the header section is in the response's body stream (Upgrade.v, only used in C92).
* `std::thread` moves its callable any number of times, runs it once and destroys every object; the executor may drop a
  coroutine at any point.

### Modelled

Every function of Frame.cpp, WebSocket.cpp, AsyncWebSocket.cpp, SHA1.cpp, Utils.cpp, Handshaker.cpp, Connector.cpp,
ConnectionHandler.cpp, AsyncConnectionHandler.cpp and the defaults of Config.hpp. Undefined behaviour that is modelled
as such: signed overflow of the masking loops, writes past the read buffer, negative read counts, use of the freed decoded
chunk, null handle in connectAsync, reading uninitialised SHA-1 block words, null socket in a moved-from task.

### Not modelled

* Logging, thread affinity, `Countable`, allocation failure (except a negative array size), wall-clock time.
* Data races: calls of other threads are atomic and take effect inside a read of the listening thread (World.v), before any
  access to a shared field (Threads.v), between two write calls (Concurrent.v), or are the single steps of other threads (Process.v:
  a step is one write() call, one access to a shared field, or anything private to the thread); the C++ memory model is not considered
  (`m_listening`, `m_listener` and `m_config` are plain fields, so such calls are data races there). C86 says which uses are free of such races.
* Several coroutines on one asynchronous socket (Coroutines.v) are run by the executor one method at a time. That worker threads of the executor may
  run methods of different coroutines of one socket at the same time is covered by C90 as far as the coroutines only send: such methods access
  no field in conflict and commute. Where C90's hypotheses fail (setListener or setConfig from a second coroutine) this is a data race.
* In a threaded server (ThreadServer.v) a thread that is blocked in listen() is represented by the world in which it called listen() together
  with everything that has arrived since; running it means running listen() on that world, which repeats what was done and goes on
  (C48_causality, used in C74_service to show that nothing already done changes). onAfterCreate and onBeforeDestroy are command lists
  (sends, setListener, setConfig, stopListening, throw); the failure of std::thread's constructor is an event; an exception that leaves
  the thread function or ~Task() is the outcome BTerminate. Other threads' calls on a socket arrive with the connection's input.
* In a threaded server with pushing threads (PushThreads.v) everything a connection will ever receive is in its world from the start (reads
  block, so the moment of arrival is only a matter of schedule), threads can be created, and onBeforeDestroy sends nothing but may wait for the threads.
* In a server (Server.v, PushServer.v), listener programs react to the calls of their own socket, and `onAfterCreate_NonBlocking` installs a
  listener, changes the configuration or throws. Coroutines the application starts on a socket, then or later, are in PushServer.v (C88).
* The HTTP core's reading of the 101 response is a contract (Upgrade.v, C92: bytes it read past the response are lost to the socket); elsewhere
  the socket's input is what is left on the connection.
* WebSocket.v has calls of other threads only inside reads; the moments this leaves out (between the last piece of a message and
  its end marker, between allocating the read buffer and the first read, between testing and calling the listener) are in
  Threads.v (C69-C71), which has no calls inside reads because those commute with the following access.
* Re-entrancy: listen()/iterateFrame() called from inside a callback: Object.v only (C99; blocking socket). listenAsync() called from a callback's coroutine: AsyncReentry.v only (C101).
* In all model files but Object.v, AsyncObject.v and AsyncReentry.v listener code is a function of the history of calls; it cannot branch on the result of a
  send made in the same call (it can catch its exception, or throw if sendOneFrame returns false). C98 (blocking socket) and C100 (asynchronous
  socket) prove that this is no restriction for callbacks that do not listen: every run of stateful listener objects is a run of such a
  function, and the theorems quantify over all such functions, under conditions on the commands alone.
* The listening coroutine of a client that also sends from another coroutine (C57, C59, C60) only takes notes: two unsynchronised
  senders are C30. (C57_any_time etc. have two copies of the client's socket; the *_shared_* theorems and C60 the shared object.)
* A null `oatpp::String` passed to `SHA1::update`; `m_connection`, `m_params` of Task beyond their use at construction.
* TLS, TCP, HTTP parsing: below the contracts above.

## Mutation testing

`tools/mutate.py` applies an edit to a scratch copy of the model, replaces every proof that no longer goes through by
`Admitted` in the scratch copy, and reports which manifest theorems depend on a failed proof. `seeded/LOG.jsonl` has one line
per attempt.

`tools/automutate.py` makes systematic small edits (comparison operators, constants, dropped or swapped branches, swapped arguments) in every
definition of the model files and asks only whether the development still builds. Of 588 well-typed edits 564 were noticed. One survivor was a
weakness of the theorems: a process in which drawing random octets did not move the generator on (Process.v `pstep`) passed C77, C78 and C89, which have been tightened
(the octets drawn by a call are those at the generator's position, and the position moves past them). The other 23 do not change the program's
behaviour: constants nothing refers to (`OPCODE_CONTINUATION`), default values of `nth` at positions that always exist (Sha1 `transform`, `buffer_to_block`),
initial field values that are overwritten before they are read (`header_init`, the socket before its configuration is set, the placeholders of `world_of`), measures that only have to be
large enough (`script_size`), the value of an expression at an argument the caller excludes (`to_i64` at exactly 2^64, the Base64 code of characters past
the alphabet), the placeholder of PushServer (`no_task`) and what a handler without instance listener would wait for in PushThreads (`careful`: no thread exists then).
