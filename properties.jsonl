{"id": "C01", "title": "Two-byte frame header round trip", "statement": "Packing a frame header into the two header bytes and unpacking them gives back exactly the FIN bit, the three RSV bits, the low four bits of the opcode, the MASK bit and the 7-bit length field that the payload length calls for (the length itself below 126, 126 below 65536, 127 otherwise); unpacking then packing any 16-bit value loses nothing.", "quantifier": "every header with a non-negative 63-bit payload length and 8-bit opcode; every 16-bit value", "why_tests_cant": "2^63 lengths times all flag/opcode combinations; boundaries 125/126/65535/65536 interact with the mask bit", "anchors": ["src/oatpp-websocket/Frame.cpp: Frame::packHeaderBits", "src/oatpp-websocket/Frame.cpp: Frame::unpackHeaderBits"]}
{"id": "C02", "title": "Frame header wire round trip", "statement": "The bytes produced by writeFrameHeader are exactly the RFC 6455 section 5.2 header (minimal length encoding), and a peer that reads them, followed by any other bytes and however the network splits them, obtains the same FIN/RSV/opcode/mask/length and leaves exactly the following bytes unread.", "quantifier": "every header with opcode < 16 and 0 <= length < 2^63, every following byte string, every segmentation of the byte stream and every placement of transient retry results", "why_tests_cant": "lengths span three encodings up to 2^63-1 and segmentations are unboundedly many", "anchors": ["src/oatpp-websocket/WebSocket.cpp: WebSocket::writeFrameHeader", "src/oatpp-websocket/WebSocket.cpp: WebSocket::readFrameHeader"]}
{"id": "C03", "title": "Sent frame is one well-formed RFC 6455 frame", "statement": "On a healthy connection each send call appends to the outgoing stream exactly one RFC 6455 frame: RSV bits zero, minimal length encoding, the requested FIN and opcode (FIN=1 and opcode TEXT/BINARY/PING/PONG/CLOSE for the convenience calls), MASK bit and masking key present iff maskOutgoingMessages is set, payload bytes XORed with the key at index i mod 4; the masking key is the next four bytes of the random source; a null message is sent exactly as an empty one.", "quantifier": "every message of every length (below 2^31 when masking), every masking key, every configuration, every acceptance pattern of the underlying writes", "why_tests_cant": "requires all payload contents and sizes, all keys and all partial-write patterns", "anchors": ["src/oatpp-websocket/WebSocket.cpp: WebSocket::sendOneFrame", "src/oatpp-websocket/WebSocket.cpp: WebSocket::sendFrameHeader", "src/oatpp-websocket/WebSocket.cpp: WebSocket::sendClose/sendPing/sendPong/sendOneFrameText/sendOneFrameBinary", "src/oatpp-websocket/Utils.cpp: Utils::generateMaskForFrame"]}
{"id": "C04", "title": "Message round trip between two endpoints", "statement": "Whatever sequence of text, binary, ping and pong messages one endpoint sends over a healthy connection, the listener of the peer running listen() observes exactly that sequence: for each data message its bytes in order under its opcode and then one end-of-message call, for each ping/pong one call with the whole payload; nothing is lost, duplicated, reordered or merged across messages.", "quantifier": "every finite sequence of sends (control payloads at most 125 bytes), both masking settings, all masking keys, every network segmentation, every positive read buffer size", "why_tests_cant": "unbounded sequences times segmentations times buffer sizes", "anchors": ["src/oatpp-websocket/WebSocket.cpp: WebSocket::listen", "src/oatpp-websocket/WebSocket.cpp: WebSocket::handleFrame", "src/oatpp-websocket/WebSocket.cpp: WebSocket::readPayload", "src/oatpp-websocket/WebSocket.cpp: WebSocket::sendOneFrame"]}
{"id": "C05", "title": "Network segmentation is invisible", "statement": "What the listener observes, up to how a message's bytes are cut into successive readMessage calls, depends only on the concatenation of the bytes received: not on the sizes of the network reads, not on transient retries, not on the configured read buffer size.", "quantifier": "every byte stream (well-formed or not), every pair of segmentations of it, every pair of positive read buffer sizes", "why_tests_cant": "segmentations are exponentially many in the stream length", "anchors": ["src/oatpp-websocket/WebSocket.cpp: WebSocket::readPayload", "src/oatpp-websocket/WebSocket.cpp: WebSocket::readFrameHeader", "src/oatpp-websocket/Config.hpp: Config::readBufferSize"]}
{"id": "C06", "title": "Listener never sees anything the peer did not send", "statement": "At any moment, under any connection failure and whatever the listener does (send, throw, stop), the calls the listener has received are, up to chunking, a prefix of the reading of the received byte stream as a sequence of frames.", "quantifier": "every byte stream, every failure/EOF/retry point, every listener behaviour that keeps itself installed", "why_tests_cant": "quantifies over crash points and arbitrary listener code", "anchors": ["src/oatpp-websocket/WebSocket.cpp: WebSocket::listen", "src/oatpp-websocket/WebSocket.cpp: WebSocket::readPayload"]}
{"id": "C07", "title": "readMessage chunk sizes", "statement": "Every readMessage call that carries data has 1 <= size <= readBufferSize, and size 0 is used only for the end-of-message call.", "quantifier": "every byte stream, segmentation, failure and listener behaviour that does not change the configuration", "why_tests_cant": "must hold for each call of every execution", "anchors": ["src/oatpp-websocket/WebSocket.cpp: WebSocket::readPayload", "src/oatpp-websocket/WebSocket.hpp: WebSocket::Listener::readMessage"]}
{"id": "C08", "title": "End-of-message marker", "statement": "The end-of-message call is made exactly once per data frame with FIN set, only after the complete payload of that frame was delivered, and never for a frame without FIN nor for a truncated frame.", "quantifier": "every frame, every truncation point of the stream, every segmentation", "why_tests_cant": "truncation point and segmentation are arbitrary", "anchors": ["src/oatpp-websocket/WebSocket.cpp: WebSocket::readPayload"]}
{"id": "C09", "title": "Frame boundaries are respected", "statement": "Handling one frame consumes from the connection exactly the bytes of that frame (header, extended length, mask and payload), so the next frame starts at the right byte, whether or not a listener is installed and for every opcode.", "quantifier": "every complete frame of every length form and opcode, every following bytes, every segmentation", "why_tests_cant": "off-by-one in any of the length forms only shows for particular sizes", "anchors": ["src/oatpp-websocket/WebSocket.cpp: WebSocket::iterateFrame", "src/oatpp-websocket/WebSocket.cpp: WebSocket::readFrameHeader", "src/oatpp-websocket/WebSocket.cpp: WebSocket::readPayload"]}
{"id": "C10", "title": "Unmasking is correct across chunks", "statement": "The payload delivered to the listener for a masked frame is the XOR of the received payload with the masking key at payload index mod 4, independent of how reads cut the payload; masking twice with one key is the identity.", "quantifier": "every payload, every key, every chunking", "why_tests_cant": "the bug class (key index restarted at a chunk boundary) only shows for chunk sizes not divisible by four", "anchors": ["src/oatpp-websocket/WebSocket.cpp: WebSocket::readPayload", "src/oatpp-websocket/WebSocket.cpp: WebSocket::sendOneFrame"]}
{"id": "C11", "title": "Close frame round trip", "statement": "sendClose(code, reason) with a reason of at most 123 bytes makes the peer's listener receive exactly one onClose(code, reason); sendClose() makes it receive onClose(0, \"\").", "quantifier": "every 16-bit code, every reason up to 123 bytes or null, both masking settings, every segmentation", "why_tests_cant": "65536 codes times all reasons times segmentation", "anchors": ["src/oatpp-websocket/WebSocket.cpp: WebSocket::sendClose", "src/oatpp-websocket/WebSocket.cpp: WebSocket::handleFrame"]}
{"id": "C12", "title": "listen() ends right after a Close frame", "statement": "Once a Close frame has been handled listen() returns normally, onClose was the last listener call, and no byte after the Close frame has been consumed.", "quantifier": "every stream containing a Close frame, every bytes after it, every segmentation", "why_tests_cant": "what follows the close frame is arbitrary", "anchors": ["src/oatpp-websocket/WebSocket.cpp: WebSocket::listen"]}
{"id": "C13", "title": "stopListening() from a callback ends the loop after the current frame", "statement": "If the listener calls stopListening() while a frame is handled and does not fail, listen() completes that frame, returns, and does not consume any byte of the next frame.", "quantifier": "every stream, every position of the stop call, every segmentation", "why_tests_cant": "position of the call in the history is arbitrary", "anchors": ["src/oatpp-websocket/WebSocket.cpp: WebSocket::stopListening", "src/oatpp-websocket/WebSocket.cpp: WebSocket::listen"]}
{"id": "C14", "title": "stopListening() from another thread unblocks listen()", "statement": "After another thread calls stopListening(), listen() returns without needing further input from the peer, and a stop requested before listen() is entered is honoured.", "quantifier": "every schedule of the stop call relative to the reads of the listening thread", "why_tests_cant": "schedule dependent", "anchors": ["src/oatpp-websocket/WebSocket.cpp: WebSocket::stopListening", "src/oatpp-websocket/WebSocket.hpp: WebSocket::listen"]}
{"id": "C15", "title": "listen() never throws and always terminates on a finite input history", "statement": "listen() lets no exception escape, whatever the peer sends and whatever the listener throws; and on every finite sequence of connection results it either returns or is blocked waiting for the connection - it never spins without consuming input.", "quantifier": "every byte stream, every failure pattern, every listener behaviour, every configuration; every code of other threads and every interleaving with them", "why_tests_cant": "non-termination cannot be observed by a test", "anchors": ["src/oatpp-websocket/WebSocket.cpp: WebSocket::listen", "src/oatpp-websocket/WebSocket.cpp: WebSocket::readPayload"]}
{"id": "C16", "title": "Oversized control frames are rejected", "statement": "A ping, pong or close frame whose declared payload length exceeds 125 ends listening without any listener call for it and without reading its payload.", "quantifier": "every declared length above 125 in every length encoding", "why_tests_cant": "2^64 declared lengths", "anchors": ["src/oatpp-websocket/WebSocket.cpp: WebSocket::readPayload"]}
{"id": "C17", "title": "Unknown opcodes are rejected", "statement": "A frame with a reserved opcode (3-7, 11-15) ends listening: no listener call is made for it or for anything after it.", "quantifier": "every reserved opcode, every flags/length/mask, every preceding history and following bytes", "why_tests_cant": "history is arbitrary", "anchors": ["src/oatpp-websocket/WebSocket.cpp: WebSocket::handleFrame"]}
{"id": "C18", "title": "Fragmentation protocol errors are rejected", "statement": "A continuation frame on a connection on which no fragmented message was ever started ends listening with no listener call for it, and a text or binary frame received while a fragmented message is open ends listening with no listener call for it; control frames in between fragments are delivered and do not disturb the message.", "quantifier": "every history of frames on the connection, every segmentation", "why_tests_cant": "depends on the whole frame history", "anchors": ["src/oatpp-websocket/WebSocket.cpp: WebSocket::checkForContinuation", "src/oatpp-websocket/WebSocket.cpp: WebSocket::handleFrame"]}
{"id": "C19", "title": "A connection survives a fragmented message", "statement": "After a complete fragmented message (data frame without FIN, continuation frames, the last with FIN) the next text or binary message is delivered normally.", "quantifier": "every fragmented message and every following message", "why_tests_cant": "needs all fragmentations; in-repo tests never fragment", "anchors": ["src/oatpp-websocket/WebSocket.cpp: WebSocket::checkForContinuation", "src/oatpp-websocket/WebSocket.cpp: WebSocket::handleFrame"]}
{"id": "C20", "title": "Fragments are reported under the message's opcode", "statement": "readMessage is always called with opcode TEXT or BINARY, as its documentation says, namely the opcode of the message the bytes belong to, also for continuation frames.", "quantifier": "every fragmented message", "why_tests_cant": "needs fragmented histories", "anchors": ["src/oatpp-websocket/WebSocket.hpp: WebSocket::Listener::readMessage", "src/oatpp-websocket/WebSocket.cpp: WebSocket::readPayload"]}
{"id": "C21", "title": "Payload lengths with the top bit set are rejected", "statement": "A frame whose 64-bit extended length has its most significant bit set (forbidden by RFC 6455) ends listening without a listener call.", "quantifier": "every 64-bit extended length >= 2^63", "why_tests_cant": "half of the 64-bit length space", "anchors": ["src/oatpp-websocket/WebSocket.cpp: WebSocket::readFrameHeader", "src/oatpp-websocket/WebSocket.cpp: WebSocket::readPayload"]}
{"id": "C22", "title": "RFC 6455 receive-side validation", "statement": "Frames with a non-zero RSV bit, control frames without FIN, and frames whose masking does not match the peer's role are rejected.", "quantifier": "every frame", "why_tests_cant": "all flag combinations in all states", "anchors": ["src/oatpp-websocket/WebSocket.cpp: WebSocket::handleFrame", "src/oatpp-websocket/Frame.hpp: Frame::Header"]}
{"id": "C23", "title": "Send failure is reported and leaves a prefix on the wire", "statement": "If the connection fails while sending, the call reports it (false or runtime_error), the bytes that reached the wire are a prefix of the frame that would have been sent, and the socket stops listening.", "quantifier": "every failure point in every frame, every partial-write pattern", "why_tests_cant": "crash point is arbitrary", "anchors": ["src/oatpp-websocket/WebSocket.cpp: WebSocket::sendOneFrame", "src/oatpp-websocket/WebSocket.cpp: WebSocket::sendPing", "src/oatpp-websocket/WebSocket.cpp: WebSocket::writeFrameHeader"]}
{"id": "C24", "title": "Role-correct masking of library-created sockets", "statement": "Sockets created by ConnectionHandler/AsyncConnectionHandler send only unmasked frames; a socket constructed with maskOutgoingMessages=true sends only masked frames, for as long as setConfig is not called.", "quantifier": "every sequence of sends and received frames", "why_tests_cant": "history dependent", "anchors": ["src/oatpp-websocket/ConnectionHandler.cpp: Task::Task", "src/oatpp-websocket/AsyncConnectionHandler.cpp: SocketCoroutine::act", "src/oatpp-websocket/WebSocket.cpp: WebSocket::sendFrameHeader"]}
{"id": "C25", "title": "Payload reading is memory safe", "statement": "Reading a payload never writes outside the read buffer, whatever the peer sends; this also holds if the listener changes the configuration.", "quantifier": "every byte stream, segmentation, buffer size and listener behaviour", "why_tests_cant": "memory errors depend on attacker-chosen lengths and callback timing", "anchors": ["src/oatpp-websocket/WebSocket.cpp: WebSocket::readPayload", "src/oatpp-websocket/WebSocket.cpp: WebSocket::setConfig", "src/oatpp-websocket/AsyncWebSocket.cpp: ReadPayloadCoroutine"]}
{"id": "C26", "title": "Sending is free of undefined behaviour for every message size", "statement": "sendOneFrame has no integer overflow or out-of-bounds access for any message size.", "quantifier": "every message length representable as size_t", "why_tests_cant": "multi-gigabyte messages are not testable in unit tests", "anchors": ["src/oatpp-websocket/WebSocket.cpp: WebSocket::sendOneFrame", "src/oatpp-websocket/AsyncWebSocket.cpp: SendFrameCoroutine::prepareWriteMessage"]}
{"id": "C27", "title": "A socket without a listener consumes frames silently", "statement": "With no listener installed the socket reads the same bytes, reacts to the same protocol errors and ends at the same point as with a passive listener, and makes no calls.", "quantifier": "every byte stream and failure pattern", "why_tests_cant": "stream is arbitrary", "anchors": ["src/oatpp-websocket/WebSocket.cpp: WebSocket::readPayload", "src/oatpp-websocket/WebSocket.cpp: WebSocket::handleFrame"]}
{"id": "C28", "title": "Async listening is equivalent to blocking listening", "statement": "listenAsync(), driven by any executor schedule, makes the same listener calls with the same arguments in the same order, sends the same bytes, consumes the same input and ends in the same way (finished on Close, error on protocol or connection error, suspended while waiting for input) as listen() on the same connection behaviour, for listeners that do not stop, re-install listeners or reconfigure.", "quantifier": "every byte stream, every segmentation/retry/failure pattern, every listener reaction (sends, throws), every number of suspensions", "why_tests_cant": "schedules and segmentations unbounded", "anchors": ["src/oatpp-websocket/AsyncWebSocket.cpp: AsyncWebSocket::listenAsync", "src/oatpp-websocket/AsyncWebSocket.cpp: ReadFrameCoroutine", "src/oatpp-websocket/AsyncWebSocket.cpp: ReadPayloadCoroutine", "src/oatpp-websocket/AsyncWebSocket.cpp: HandleFrameCoroutine"]}
{"id": "C29", "title": "Async sending is equivalent to blocking sending", "statement": "Each send...Async coroutine, run to completion, writes exactly the bytes the corresponding blocking call writes with the same masking key, and fails exactly when the connection fails.", "quantifier": "every message, key, configuration and partial-write/retry/failure pattern", "why_tests_cant": "partial-write patterns unbounded", "anchors": ["src/oatpp-websocket/AsyncWebSocket.cpp: SendFrameCoroutine", "src/oatpp-websocket/AsyncWebSocket.cpp: WriteFrameCoroutine"]}
{"id": "C30", "title": "Concurrent senders do not corrupt each other's frames", "statement": "When two threads (or coroutines) send on the same socket the peer receives the frames of both, each intact, in an order that is a merge of the two send orders.", "quantifier": "every interleaving of the writes of the two senders", "why_tests_cant": "scheduler dependent", "anchors": ["src/oatpp-websocket/WebSocket.cpp: WebSocket::sendOneFrame", "src/oatpp-websocket/AsyncWebSocket.cpp: SendFrameCoroutine"]}
{"id": "C31", "title": "Data pointer lifetime in async callbacks", "statement": "The data pointer passed to readMessage stays valid until the coroutine returned by the listener has finished.", "quantifier": "every frame and every listener coroutine", "why_tests_cant": "use-after-free depends on allocator behaviour and is not deterministic", "anchors": ["src/oatpp-websocket/AsyncWebSocket.cpp: ReadPayloadCoroutine::onDataRead"]}
{"id": "C32", "title": "SHA-1 computes FIPS 180-4 SHA-1", "statement": "After any sequence of update calls finalBinary returns the 20-byte FIPS 180-4 SHA-1 digest of the concatenation of the updates.", "quantifier": "every message shorter than 2^61 bytes and every way to split it into updates", "why_tests_cant": "all message lengths mod 64 and contents", "anchors": ["src/oatpp-websocket/SHA1.cpp: SHA1::update", "src/oatpp-websocket/SHA1.cpp: SHA1::finalBinary", "src/oatpp-websocket/SHA1.cpp: SHA1::transform"]}
{"id": "C33", "title": "SHA-1 object is reusable", "statement": "finalBinary resets the object: a digest computed afterwards is that of a fresh object, for any previous use.", "quantifier": "every history of updates and finals", "why_tests_cant": "history dependent", "anchors": ["src/oatpp-websocket/SHA1.cpp: SHA1::reset", "src/oatpp-websocket/SHA1.cpp: SHA1::finalBinary"]}
{"id": "C34", "title": "Server handshake decision", "statement": "serversideHandshake answers 101 iff the request has Upgrade equal to websocket ignoring case, a Connection header whose token list contains upgrade ignoring case, Sec-WebSocket-Version exactly 13 and a non-empty Sec-WebSocket-Key; otherwise it fails with HTTP 400. The 101 response carries Upgrade: websocket, Connection: Upgrade, Sec-WebSocket-Accept = Base64(SHA-1(key ++ GUID)) and the given upgrade handler.", "quantifier": "every set of request headers and every key", "why_tests_cant": "header sets and keys are unbounded", "anchors": ["src/oatpp-websocket/Handshaker.cpp: Handshaker::serversideHandshake"]}
{"id": "C35", "title": "Client handshake verification", "statement": "clientsideConfirmHandshake returns STATUS_SERVER_ERROR iff the status is not 101; otherwise OK iff there is no Sec-WebSocket-Version header, Upgrade is websocket and Connection is upgrade (ignoring case) and Sec-WebSocket-Accept equals Base64(SHA-1(sent key ++ GUID)); WRONG_KEY iff only the accept value differs; otherwise UNKNOWN_PROTOCOL.", "quantifier": "every request/response header set and status", "why_tests_cant": "decision table over unbounded header sets", "anchors": ["src/oatpp-websocket/Handshaker.cpp: Handshaker::clientsideConfirmHandshake"]}
{"id": "C36", "title": "Client and server of this library complete the handshake", "statement": "The request prepared by clientsideHandshake on headers that do not already contain handshake fields is accepted by serversideHandshake, and the client accepts the resulting response.", "quantifier": "every random nonce and every set of extra application headers", "why_tests_cant": "2^128 nonces", "anchors": ["src/oatpp-websocket/Handshaker.cpp: Handshaker::clientsideHandshake", "src/oatpp-websocket/Handshaker.cpp: Handshaker::serversideHandshake", "src/oatpp-websocket/Handshaker.cpp: Handshaker::clientsideConfirmHandshake"]}
{"id": "C37", "title": "Response is bound to the request", "statement": "If a client accepts a response whose accept value was computed for another key, then the two keys (with the GUID appended) are a SHA-1 collision.", "quantifier": "every pair of keys", "why_tests_cant": "cryptographic quantification", "anchors": ["src/oatpp-websocket/Handshaker.cpp: Handshaker::clientsideConfirmHandshake"]}
{"id": "C38", "title": "Generated keys are well-formed nonces", "statement": "generateKey returns 24 Base64 characters that decode to the 16 bytes taken from the random source; different random bytes give different keys.", "quantifier": "every output of the random source", "why_tests_cant": "2^128 outputs", "anchors": ["src/oatpp-websocket/Utils.cpp: Utils::generateKey"]}
{"id": "C39", "title": "Client accepts RFC-valid responses with a token list in Connection", "statement": "A 101 response whose Connection header contains the token Upgrade among others (valid per RFC 6455 section 4.1) is accepted by the client.", "quantifier": "every valid response", "why_tests_cant": "header values unbounded", "anchors": ["src/oatpp-websocket/Handshaker.cpp: Handshaker::clientsideConfirmHandshake"]}
{"id": "C40", "title": "Connector returns a connection only after a verified handshake", "statement": "connect() returns the provider's connection iff the provider gave one, the request was executed and the response passes the client verification; otherwise it throws. connectAsync() decides identically once a connection was obtained.", "quantifier": "every provider/peer behaviour and headers", "why_tests_cant": "peer behaviours unbounded", "anchors": ["src/oatpp-websocket/Connector.cpp: Connector::connect", "src/oatpp-websocket/Connector.cpp: ConnectCoroutine"]}
{"id": "C41", "title": "Handshake succeeds regardless of caller-supplied headers", "statement": "connect(path, headers) performs a valid handshake for every caller-supplied header set.", "quantifier": "every header set, including ones that contain handshake fields", "why_tests_cant": "header sets unbounded", "anchors": ["src/oatpp-websocket/Handshaker.cpp: Handshaker::clientsideHandshake", "src/oatpp-websocket/Connector.cpp: Connector::connect"]}
{"id": "C42", "title": "Socket instance callbacks are paired (blocking handler)", "statement": "For every handled connection with an instance listener: onAfterCreate is called exactly once, before listening starts, with the given parameters; onBeforeDestroy exactly once, after listening ended, however often the runtime moves the task object.", "quantifier": "every number and order of task moves/destructions performed by the thread library, every connection, every number of connections", "why_tests_cant": "internal moves of std::thread are implementation-defined", "anchors": ["src/oatpp-websocket/ConnectionHandler.cpp: Task"]}
{"id": "C43", "title": "Socket instance callbacks are paired (async handler)", "statement": "For every connection coroutine: onBeforeDestroy_NonBlocking is called at most once, exactly once if onAfterCreate_NonBlocking was called, and never without it, at whichever point the executor finishes or drops the coroutine.", "quantifier": "every executor schedule including stop at any point", "why_tests_cant": "schedule dependent", "anchors": ["src/oatpp-websocket/AsyncConnectionHandler.cpp: SocketCoroutine"]}
{"id": "C44", "title": "Frames sent by the library are accepted by the library", "statement": "Every frame a send call can produce is accepted by a peer running this library.", "quantifier": "every message incl. control messages of any length", "why_tests_cant": "lengths unbounded", "anchors": ["src/oatpp-websocket/WebSocket.cpp: WebSocket::sendPing", "src/oatpp-websocket/WebSocket.cpp: WebSocket::sendClose"]}
{"id": "C45", "title": "setListener takes effect", "statement": "A listener installed by setListener receives all subsequent calls: in blocking mode from the next call on; in async mode from the next frame on.", "quantifier": "every point in the history at which a listener is replaced", "why_tests_cant": "timing dependent", "anchors": ["src/oatpp-websocket/WebSocket.hpp: WebSocket::setListener", "src/oatpp-websocket/AsyncWebSocket.cpp: HandleFrameCoroutine"]}
{"id": "C46", "title": "Stray continuation frames are rejected", "statement": "A continuation frame received while no fragmented message is open - in particular after a fragmented message was completed by its FIN frame - ends listening without a listener call.", "quantifier": "every history of complete messages followed by a continuation frame", "why_tests_cant": "depends on the frame history; in-repo tests never fragment", "anchors": ["src/oatpp-websocket/WebSocket.cpp: WebSocket::handleFrame", "src/oatpp-websocket/WebSocket.cpp: WebSocket::checkForContinuation"]}
{"id": "C47", "title": "Conforming unfragmented streams are read exactly as RFC 6455 prescribes", "statement": "For every byte stream of unfragmented frames that conforms to the RFC 6455 framing rules, the listener of a socket running listen() observes exactly what an RFC 6455 endpoint would deliver and listening ends in the same way; for any stream of unfragmented frames everything up to its first RFC violation is delivered as the RFC prescribes.", "quantifier": "all byte streams, segmentations, buffer sizes and polite listeners", "why_tests_cant": "it compares the library with the RFC over all byte streams", "anchors": ["src/oatpp-websocket/WebSocket.cpp: readFrameHeader, readPayload, handleFrame, listen"]}
{"id": "C48", "title": "Causality: later input never changes earlier behaviour", "statement": "Whatever the peer sends later, the listener calls made and the bytes written on the input received so far are the same and come first. If listening has ended (or is blocked in a write), later input changes nothing at all and is not consumed.", "quantifier": "every listener (including ones that send, throw, stop, reconfigure), socket state, input, continuation of the input, read/write failures and calls of other threads", "why_tests_cant": "relates two executions, for all continuations of all inputs", "anchors": ["src/oatpp-websocket/WebSocket.cpp: WebSocket::listen", "src/oatpp-websocket/WebSocket.cpp: WebSocket::iterateFrame", "src/oatpp-websocket/WebSocket.cpp: WebSocket::readPayload"]}
{"id": "C49", "title": "The bytes on the wire are exactly the frames of the sends made by listener code", "statement": "While listening, a socket whose writes succeed writes exactly the frames of the send calls made by listener code, one frame per call, in call order, masked frames with consecutive fresh keys from the random source, unmasked ones with none, and nothing else: no automatic pong or close, no duplication.", "quantifier": "every listener, input stream, segmentation and length of conversation", "why_tests_cant": "output of whole conversations with arbitrary listeners; also a claim of absence", "anchors": ["src/oatpp-websocket/WebSocket.cpp: WebSocket::listen", "src/oatpp-websocket/WebSocket.cpp: WebSocket::handleFrame", "src/oatpp-websocket/WebSocket.cpp: WebSocket::sendOneFrame"]}
{"id": "C50", "title": "Echo conversation", "statement": "If a client sends any sequence of text/binary messages and pings to a server whose listener echoes messages and answers pings, then the client's listener receives exactly the same messages in the same order and one pong per ping with the ping's payload.", "quantifier": "all message sequences, masking keys, segmentations on both directions, read buffer sizes on both sides, listeners of the client", "why_tests_cant": "a composition of two peers over all message sequences; in-repo test uses a fixed one", "anchors": ["src/oatpp-websocket/WebSocket.cpp: WebSocket::listen", "src/oatpp-websocket/WebSocket.cpp: WebSocket::sendOneFrameText", "src/oatpp-websocket/WebSocket.cpp: WebSocket::sendPong"]}
{"id": "C51", "title": "Closing handshake", "statement": "If the client ends such a conversation with a close frame and the server's listener answers the close, then listen() returns on both sides without error, both sides have consumed exactly all bytes sent, and the last call on both sides is onClose with the client's code and reason, after all messages.", "quantifier": "all message sequences, close codes and reasons, masking keys, segmentations, buffer sizes", "why_tests_cant": "a composition of two peers over all conversations", "anchors": ["src/oatpp-websocket/WebSocket.cpp: WebSocket::listen", "src/oatpp-websocket/WebSocket.cpp: WebSocket::sendClose", "src/oatpp-websocket/WebSocket.cpp: WebSocket::handleFrame"]}
{"id": "C52", "title": "Asynchronous listening equals blocking listening for every sending, throwing or looking listener, under all failures", "statement": "For any executor schedule, input, segmentation and any pattern of failing, partial or retried writes, a coroutine in listenAsync makes the same listener calls and writes the same bytes as a blocking socket running the same listener code would (reading 'handle the error of a send coroutine' as 'ignore the result of sendOneFrame', 'let it propagate' as 'throw if sendOneFrame fails'); it ends exactly when and how that one ends, once enough steps are run. The only exception is listener code that looks at a data pointer which is already freed (C31).", "quantifier": "all listener code made of sends (handled or not), throws and uses of its data; all schedules; all connection failures", "why_tests_cant": "simulation of two implementations over unbounded inputs, schedules and failure patterns", "anchors": ["src/oatpp-websocket/AsyncWebSocket.cpp: AsyncWebSocket::listenAsync", "src/oatpp-websocket/AsyncWebSocket.cpp: ListenCoroutine", "src/oatpp-websocket/AsyncWebSocket.cpp: AsyncWebSocket::sendOneFrameAsync", "src/oatpp-websocket/AsyncWebSocket.cpp: AsyncWebSocket::handleFrame"]}
{"id": "C53", "title": "Delivery by the asynchronous socket", "statement": "At any moment of any schedule the listener of listenAsync has been shown a prefix of the reading of the bytes that arrived; if the connection does not fail, after finitely many steps it has been shown exactly that reading, and the coroutine is suspended if the bytes end before or inside a frame, finished after a close frame with the bytes behind it unread, failed after a rejected frame.", "quantifier": "all byte streams, segmentations, schedules, socket states and sending listeners", "why_tests_cant": "liveness and safety over unbounded streams and schedules", "anchors": ["src/oatpp-websocket/AsyncWebSocket.cpp: ListenCoroutine", "src/oatpp-websocket/AsyncWebSocket.cpp: AsyncWebSocket::IterateFrame", "src/oatpp-websocket/AsyncWebSocket.cpp: AsyncWebSocket::readPayload"]}
{"id": "C54", "title": "Per-callback guarantees of the asynchronous socket", "statement": "For every input and schedule: every readMessage call with data carries at least one and at most readBufferSize bytes; nothing is called after onClose; there is no undefined behaviour other than uses of a freed data pointer (C31) and masked sends of 2 GiB or more (C26). (A listener that raises the buffer size while a frame is read does overrun the buffer, as in C25.)", "quantifier": "all inputs, failures, schedules and listener code that sends, throws and looks", "why_tests_cant": "memory safety and ordering for all streams and schedules", "anchors": ["src/oatpp-websocket/AsyncWebSocket.cpp: AsyncWebSocket::readPayload", "src/oatpp-websocket/AsyncWebSocket.cpp: AsyncWebSocket::handleFrame"]}
{"id": "C55", "title": "Refused frames on the asynchronous socket", "statement": "Nothing of a frame with an unknown opcode, of a control frame announcing 126..2^63-1 bytes, of a continuation frame without a start or of a data frame inside a fragmented message, nor of anything after it, is ever shown to the listener of listenAsync; if nothing else fails, the coroutine ends with an error after everything before it was shown, without reading on.", "quantifier": "all accepted histories before the frame, header encodings, schedules, sending listeners", "why_tests_cant": "all histories and schedules", "anchors": ["src/oatpp-websocket/AsyncWebSocket.cpp: AsyncWebSocket::handleFrame", "src/oatpp-websocket/AsyncWebSocket.cpp: AsyncWebSocket::readPayload"]}
{"id": "C56", "title": "Replies of the asynchronous socket on the wire", "statement": "While listenAsync runs on a connection whose writes do not fail, the bytes written are at any moment a prefix of the frames of the sends made by listener code, in call order and with consecutive fresh masking keys, and exactly these frames once enough executor steps have run.", "quantifier": "all listeners, inputs, segmentations, schedules", "why_tests_cant": "all conversations and schedules; also a claim of absence", "anchors": ["src/oatpp-websocket/AsyncWebSocket.cpp: AsyncWebSocket::sendOneFrameAsync", "src/oatpp-websocket/AsyncWebSocket.cpp: AsyncWebSocket::handleFrame"]}
{"id": "C57", "title": "Echo conversation of asynchronous endpoints over any network", "statement": "A client coroutine awaits any sequence of sends of whole messages, pings and pongs, a server in listenAsync echoes, the client listens. In every interleaving of the three coroutines with a network that delivers bytes in order in pieces of any size: no endpoint fails, the server has at any time been shown a prefix of what was sent and the client a prefix of the answers. If every coroutine and both directions keep going (fairness), then from some time on both have been shown everything and the sends are complete.", "quantifier": "all message sequences, interleavings, packet sizes, masking keys, buffer sizes, all fair infinite schedules", "why_tests_cant": "safety and liveness of a distributed composition over infinitely many schedules", "anchors": ["src/oatpp-websocket/AsyncWebSocket.cpp: AsyncWebSocket::listenAsync", "src/oatpp-websocket/AsyncWebSocket.cpp: AsyncWebSocket::sendOneFrameAsync", "src/oatpp-websocket/AsyncWebSocket.cpp: ListenCoroutine"]}
{"id": "C58", "title": "Two applications talking over a network: the conversation does not depend on timing", "statement": "Two endpoints in listenAsync are joined by a network that delivers bytes in order in pieces of any size. Each has a listener that sends messages, pings, pongs or closes depending on everything it has been shown so far (not on how the data was chunked). Any two executions, whatever the interleaving of the coroutines and the delivery, agree: what an application has been shown, and what it has put on the wire, in one execution is a prefix of that in the other or the other way round. And every fair execution eventually contains everything any finite execution contains.", "quantifier": "all pairs of applications (functions of the history), all initial output, keys, buffer sizes, write patterns and pairs of schedules, all fair infinite schedules", "why_tests_cant": "compares all pairs of interleavings of two stateful endpoints, conversations may be infinite", "anchors": ["src/oatpp-websocket/AsyncWebSocket.cpp: AsyncWebSocket::listenAsync", "src/oatpp-websocket/AsyncWebSocket.cpp: ListenCoroutine", "src/oatpp-websocket/AsyncWebSocket.cpp: AsyncWebSocket::sendOneFrameAsync"]}
{"id": "C59", "title": "Closing handshake of asynchronous endpoints over any network", "statement": "A client coroutine awaits any sequence of sends of whole messages, pings and pongs and then sendCloseAsync; the server in listenAsync echoes messages and answers the Close from its onClose; the client listens. In every interleaving of the three coroutines with a network that delivers bytes in order in pieces of any size no coroutine fails, and both listeners have at any time been shown a beginning of the messages (the answers) followed by onClose. If everything keeps going, then after finitely many steps all three coroutines have finished, and each listener has been shown all messages and then onClose with the client's code and reason.", "quantifier": "all message sequences, close codes and reasons, interleavings, packet sizes, masking keys, buffer sizes, write patterns, all fair infinite schedules", "why_tests_cant": "safety and termination of a distributed composition over infinitely many schedules", "anchors": ["src/oatpp-websocket/AsyncWebSocket.cpp: AsyncWebSocket::listenAsync", "src/oatpp-websocket/AsyncWebSocket.cpp: AsyncWebSocket::sendCloseAsync", "src/oatpp-websocket/AsyncWebSocket.cpp: ListenCoroutine"]}
{"id": "C60", "title": "Full duplex on one asynchronous socket per endpoint", "statement": "At each of two connected endpoints one coroutine awaits a sequence of sends while another coroutine listens on the same AsyncWebSocket. In every interleaving of the four coroutines with a network that delivers bytes in order in pieces of any size: no coroutine fails, and each listener has been shown a beginning of what the other endpoint was asked to send - sending and listening on one socket do not disturb each other. If everything keeps going, from some time on all sends are complete and both listeners have been shown everything.", "quantifier": "all pairs of message sequences, interleavings, packet sizes, masking keys, buffer sizes, write patterns, all fair infinite schedules", "why_tests_cant": "the two coroutines share the socket's fields, the connection and the random source; all interleavings count", "anchors": ["src/oatpp-websocket/AsyncWebSocket.cpp: AsyncWebSocket::listenAsync", "src/oatpp-websocket/AsyncWebSocket.cpp: AsyncWebSocket::sendOneFrameAsync", "src/oatpp-websocket/AsyncWebSocket.hpp: AsyncWebSocket"]}
{"id": "C61", "title": "Messages sent in fragments arrive", "statement": "A sender that calls sendOneFrame with fin = false and opcode text or binary, then any number of times with opcode continuation, the last time with fin = true, with pings and pongs between the fragments and whole messages before the first one, is understood by a listening peer: the listener sees each fragment's bytes when it arrives, pings and pongs in between, and the end of the message exactly at the last fragment; all bytes together are the concatenation of the fragments. If the last fragment is never sent the end is never reported. The same for two asynchronous endpoints that send and listen at the same time, in every interleaving, and under every fair schedule everything arrives.", "quantifier": "all message sequences, all ways to cut the last message into fragments, all interleaved control frames, all segmentations, masking keys, buffer sizes and write patterns, all interleavings", "why_tests_cant": "the fragmentation, the segmentation and the position of control frames are independent and unbounded", "anchors": ["src/oatpp-websocket/WebSocket.cpp: WebSocket::sendOneFrame", "src/oatpp-websocket/WebSocket.cpp: WebSocket::handleFrame", "src/oatpp-websocket/WebSocket.cpp: WebSocket::checkForContinuation", "src/oatpp-websocket/AsyncWebSocket.cpp: AsyncWebSocket::sendOneFrameAsync"]}
{"id": "C62", "title": "A frame can be streamed with sendFrameHeader", "statement": "A caller that calls sendFrameHeader with a fin flag, an opcode and a size and then writes a payload of that size to the connection itself, in pieces of any sizes, XORing it with the mask in the header it was handed back iff that header says so, has put on the wire exactly the frame sendOneFrame would have written for the whole payload; if a write fails, a beginning of it. A listening peer is shown the message.", "quantifier": "all header objects passed in, flags, opcodes, payloads below 2^63 bytes, cuts into pieces, connection behaviours, random sources", "why_tests_cant": "all cuts, all payload sizes and all failure points count; the header object is reused by callers with arbitrary content", "anchors": ["src/oatpp-websocket/WebSocket.cpp: WebSocket::sendFrameHeader", "src/oatpp-websocket/WebSocket.cpp: WebSocket::writeFrameHeader", "src/oatpp-websocket/WebSocket.hpp: WebSocket::getConnection"]}
{"id": "C63", "title": "The library's client connects to the library's server", "statement": "If the peer answers requests with Handshaker::serversideHandshake, then Connector::connect and Connector::connectAsync, for every random key, succeed and hand back the connection they were given; the server's answer has status 101 and asks the HTTP core to upgrade to the connection handler passed in.", "quantifier": "all random sources, request paths, handlers, connections the provider may return", "why_tests_cant": "the key is random: acceptance must hold for every one of the 2^128 keys, on both sides", "anchors": ["src/oatpp-websocket/Connector.cpp: Connector::connect", "src/oatpp-websocket/Connector.cpp: Connector::connectAsync", "src/oatpp-websocket/Handshaker.cpp: Handshaker::serversideHandshake", "src/oatpp-websocket/Handshaker.cpp: Handshaker::clientsideConfirmation"]}
{"id": "C64", "title": "A new configuration is in force from the next frame and the next read", "statement": "A listener may call setConfig from its callbacks at any time. While listening, with listen() or the coroutine of listenAsync(), whatever the input and however it ends: every frame sent by a callback is masked iff the configuration in force at that moment says so, with a fresh key; every readMessage call with data carries between one byte and as many as the configuration in force when it is made says; and the configuration afterwards is the last one set.", "quantifier": "all inputs, segmentations, transient errors and connection losses, all listeners (with any sequence of setConfig, sends, stopListening, setListener and throws in any callback), all initial configurations, all executor schedules", "why_tests_cant": "the points at which the configuration changes relative to frames and reads are unbounded", "anchors": ["src/oatpp-websocket/WebSocket.cpp: WebSocket::setConfig", "src/oatpp-websocket/WebSocket.cpp: WebSocket::sendFrameHeader", "src/oatpp-websocket/WebSocket.cpp: WebSocket::readPayload", "src/oatpp-websocket/AsyncWebSocket.cpp: setConfig, ReadPayloadCoroutine::act, sendFrameHeaderAsync"]}
{"id": "C65", "title": "Driving the socket with iterateFrame is listening", "statement": "A caller that calls iterateFrame in its own loop until a Close frame has been handled or it throws gets exactly what listen gives - the same callbacks, the same bytes sent and consumed, the same configuration and the same ending, except that an exception reaches the caller where listen swallows it - whatever was in the header object it passes and whether or not listen was ever called, provided nobody calls stopListening and no send fails.", "quantifier": "all inputs, segmentations, transient errors and connection losses, all listeners that do not stop, all header objects, all initial states", "why_tests_cant": "an equivalence of two loops on every input and every listener", "anchors": ["src/oatpp-websocket/WebSocket.cpp: WebSocket::iterateFrame", "src/oatpp-websocket/WebSocket.cpp: WebSocket::listen", "src/oatpp-websocket/WebSocket.cpp: WebSocket::readFrameHeader"]}
{"id": "C66", "title": "What a peer can make listeners do is bounded by what it sends", "statement": "However an application uses a socket and whatever its listeners do inside their callbacks, the listener calls made and the data handed to listeners are paid for by bytes taken from the connection: the number of calls never exceeds the number of bytes consumed, nor does the number of bytes handed out, and each ping, pong, close or end-of-message call accounts for two further bytes of its own. No call is made before the bytes paying for it have been read. The same holds while other threads or coroutines send, reconfigure the socket, replace the listener or stop it.", "quantifier": "all inputs, segmentations, failures, calls of other threads (reconfiguration included), all listener code, all sequences of API calls on a blocking socket, all executor schedules and arrivals for an asynchronous one, at every moment; all code of any number of other threads or coroutines on the socket, all interleavings", "why_tests_cant": "a resource bound over every malicious input and every history, including ones that end in errors or undefined behaviour", "anchors": ["src/oatpp-websocket/WebSocket.cpp: WebSocket::readPayload", "src/oatpp-websocket/WebSocket.cpp: WebSocket::handleFrame", "src/oatpp-websocket/AsyncWebSocket.cpp: ReadPayloadCoroutine", "src/oatpp-websocket/AsyncWebSocket.cpp: HandleFrameCoroutine"]}
{"id": "C67", "title": "Connections of one asynchronous server do not influence each other", "statement": "An AsyncConnectionHandler serves any number of connections on one executor, its socket instance listener being replaced at any time. What the application is told about a connection (instance listener calls, listener calls with their data, in their order), the bytes its peer is sent and the state of its socket are determined by the events that concern that connection: what arrives on it, when it is handed over and dropped, how often its coroutine is iterated, and the setSocketInstanceListener calls. Other connections - malformed input, failures, throwing setups, drops, any interleaving - change none of it; and the handler itself has no undefined behaviour in any history.", "quantifier": "all histories of any number of connections (accept, data, failure, executor iteration, drop, listener replacement, in any interleaving), all per-connection listener programs and instance-listener setups, all pairs of histories that agree on one connection", "why_tests_cant": "Ranges over all pairs of interleaved histories of unboundedly many connections; a test shows one interleaving.", "anchors": ["src/oatpp-websocket/AsyncConnectionHandler.cpp: handleConnection, SocketCoroutine", "src/oatpp-websocket/AsyncWebSocket.cpp: listenAsync"]}
{"id": "C68", "title": "An asynchronous server serves every connection from handover to close", "statement": "For a connection handed to an AsyncConnectionHandler, whatever happens on other connections: the application sees onAfterCreate_NonBlocking of the instance listener that was installed at handover (with the handover's parameters), then calls of the listener that setup installed, which are a prefix of what the bytes received on that connection say (RFC 6455 reading), then onBeforeDestroy_NonBlocking of the same instance listener, once, exactly if the socket has finished or the coroutine was dropped; if setup throws, just the first and last. On a healthy connection, after enough iterations of its coroutine, all received frames have been delivered in order, all replies have been written as RFC frames with nothing else, and onBeforeDestroy has been called exactly if a Close frame or a violation was received.", "quantifier": "all histories of the server, all connections and parameters, all setups, all listener programs that send, throw or use their data, all received bytes in any segmentation with retries and failures at any point", "why_tests_cant": "Quantifies over all interleavings of all connections' events, all inputs and all drop points.", "anchors": ["src/oatpp-websocket/AsyncConnectionHandler.cpp: SocketCoroutine::act, ~SocketCoroutine", "src/oatpp-websocket/AsyncWebSocket.cpp: ListenCoroutine"]}
{"id": "C69", "title": "Calls from other threads neither lose, repeat, reorder nor cut a notification", "statement": "While listen() runs, other threads may call stopListening and setListener at any moments: the notifications made are those a listener that only takes notes would get from the same bytes on an undisturbed socket, in the same order, up to where listening ended. If the listener code does not fail and no listener is taken away, listening ends only between two frames (after a Close frame or a stopListening), or where the undisturbed socket fails or waits too; and if nobody calls stopListening nothing at all is different.", "quantifier": "every byte stream, segmentation and connection failure, every listener code (that does not change the configuration), every placement of calls of other threads between any two accesses to the socket's fields", "why_tests_cant": "interleavings are unbounded and cannot be scheduled by a test", "anchors": ["src/oatpp-websocket/WebSocket.cpp: WebSocket::listen", "src/oatpp-websocket/WebSocket.cpp: WebSocket::readPayload", "src/oatpp-websocket/WebSocket.cpp: WebSocket::handleFrame", "src/oatpp-websocket/WebSocket.hpp: WebSocket::setListener"]}
{"id": "C70", "title": "The listener may be replaced or removed by another thread at any moment", "statement": "Every notification is made to the listener installed at that moment, whoever installed it; after setListener(nullptr) by another thread notifications are left out; in no interleaving does listen() throw or run into undefined behaviour.", "quantifier": "every byte stream, listener code and placement of setListener, setConfig and stopListening calls of other threads", "why_tests_cant": "a window of two loads cannot be hit deliberately by a test", "anchors": ["src/oatpp-websocket/WebSocket.cpp: WebSocket::readPayload", "src/oatpp-websocket/WebSocket.cpp: WebSocket::handleFrame", "src/oatpp-websocket/WebSocket.hpp: WebSocket::setListener"]}
{"id": "C71", "title": "stopListening from any thread takes effect at the next frame boundary", "statement": "Once stopListening has been called after listen() began, by the listener or by another thread, no further frame is begun; the frame being read is still delivered completely, and listen() returns after it.", "quantifier": "every byte stream, listener code and moment of the call", "why_tests_cant": "the call may fall between any two accesses", "anchors": ["src/oatpp-websocket/WebSocket.cpp: WebSocket::listen", "src/oatpp-websocket/WebSocket.cpp: WebSocket::stopListening"]}
{"id": "C72", "title": "Asynchronous frame headers on the wire", "statement": "writeFrameHeaderAsync writes exactly the RFC 6455 header its Header object describes, and sendFrameHeaderAsync exactly the header of the frame announced by its arguments (masked with the next four bytes of the random source iff the configuration asks for masking), under any schedule, with partial and deferred writes: at any moment what is on the wire is a beginning of it, all of it when the coroutine has finished, not all of it when it has failed; no listener is called; and if the connection takes the bytes it finishes.", "quantifier": "every header or argument list, socket state, connection behaviour (partial writes, retries, failures) and executor schedule", "why_tests_cant": "every way of splitting the header into partial writes, between any two coroutine steps", "anchors": ["src/oatpp-websocket/AsyncWebSocket.cpp: AsyncWebSocket::writeFrameHeaderAsync", "src/oatpp-websocket/AsyncWebSocket.cpp: AsyncWebSocket::sendFrameHeaderAsync"]}
{"id": "C73", "title": "Connections of a threaded server do not influence each other", "statement": "For a ConnectionHandler (one thread per connection): what the application sees of a connection (the instance listener's calls, the notifications of its socket) and what its peer is sent depend only on what happens on this connection, the moments its thread runs, and which instance listener was installed when; not on the number, traffic, failures or scheduling of other connections.", "quantifier": "every history of handovers, arrivals, connection failures, thread creation failures and thread schedules on any number of connections", "why_tests_cant": "any interleaving of any number of connections", "anchors": ["src/oatpp-websocket/ConnectionHandler.cpp: ConnectionHandler::handleConnection", "src/oatpp-websocket/ConnectionHandler.hpp: ConnectionHandler::setSocketInstanceListener", "src/oatpp-websocket/WebSocket.cpp: WebSocket::listen"]}
{"id": "C74", "title": "A threaded server serves every connection from handover to close", "statement": "For a connection handed to a ConnectionHandler, whatever happens on other connections: the application sees onAfterCreate of the instance listener installed at handover (with the handover's parameters), then the notifications of a listen() on everything that has arrived, then onBeforeDestroy of the same instance listener exactly if listen() has returned (or no thread could be created); if onAfterCreate throws, nothing more. The notifications are a prefix of what the bytes received on that connection say (RFC 6455 reading). On a healthy connection whose thread has run since the last arrival all received frames have been delivered in order to the listener installed in onAfterCreate, exactly the frames of all sends have been written, and onBeforeDestroy has been called exactly if a Close frame or a protocol error has arrived.", "quantifier": "every history of handovers, arrivals, connection failures, calls of other threads, thread creation failures and thread schedules on any number of connections; every listener and instance listener code (for completion: code that sends, installs a listener in onAfterCreate and does not stop)", "why_tests_cant": "any interleaving and segmentation, at any moment", "anchors": ["src/oatpp-websocket/ConnectionHandler.cpp: ConnectionHandler::handleConnection", "src/oatpp-websocket/ConnectionHandler.hpp: ConnectionHandler::setSocketInstanceListener", "src/oatpp-websocket/WebSocket.cpp: WebSocket::listen"]}
{"id": "C75", "title": "No connection brings a threaded server down", "statement": "Whatever peers send, however connections fail, whatever listeners do and throw: the process that runs a ConnectionHandler neither terminates through an exception that leaves a thread or a destructor nor runs into undefined behaviour.", "quantifier": "every history of handovers, arrivals, connection failures, thread creation failures and thread schedules on any number of connections; every listener and instance listener code (sends below 2^31 bytes, read buffer size unchanged)", "why_tests_cant": "any interleaving of any number of connections; failures at any byte", "anchors": ["src/oatpp-websocket/ConnectionHandler.cpp: ConnectionHandler::handleConnection", "src/oatpp-websocket/ConnectionHandler.hpp: ConnectionHandler::setSocketInstanceListener", "src/oatpp-websocket/WebSocket.cpp: WebSocket::listen"]}
{"id": "C76", "title": "Threads sending on a socket do not disturb what it receives", "statement": "One thread is in listen() while any number of others send messages, call stopListening and replace the listener on the same socket, in any interleaving of single writes and field accesses. What the listeners are told is at every moment a beginning of what an undisturbed socket is told from the same bytes. If application code does not fail and writes make progress, every notification of every frame begun is made and listening ends between two frames or where the undisturbed socket fails or waits; if nobody calls stopListening, listen() ends exactly as undisturbed with exactly the same notifications. No thread runs into undefined behaviour, and no exception leaves listen().", "quantifier": "every interleaving of any number of threads at the granularity of single write calls and shared field accesses, every byte stream received, every behaviour of the connection's writes, every application code that neither calls setConfig nor takes the listener away", "why_tests_cant": "schedules and byte streams are unbounded; a test runs a handful of schedules it does not control", "anchors": ["src/oatpp-websocket/WebSocket.cpp: WebSocket::listen", "src/oatpp-websocket/WebSocket.cpp: WebSocket::readPayload", "src/oatpp-websocket/WebSocket.cpp: WebSocket::handleFrame", "src/oatpp-websocket/WebSocket.cpp: WebSocket::sendOneFrame", "src/oatpp-websocket/WebSocket.cpp: WebSocket::sendFrameHeader", "src/oatpp-websocket/WebSocket.cpp: WebSocket::writeFrameHeader"]}
{"id": "C77", "title": "Every byte on the wire is one some thread meant to send, in its order", "statement": "With any number of threads sending on a socket while one listens and replies: of the bytes written to the connection, those written by one thread are, in order, the RFC 6455 frames of its messages (masked iff configured, each with fresh bytes of the random source as its key, which no other frame of any thread uses), each whole if writes make progress, otherwise a beginning of each; when the thread has finished normally, all its messages; for the listening thread, the replies of its callbacks in the order of the notifications. Nothing else is written.", "quantifier": "every interleaving of any number of threads at the granularity of single write calls and shared field accesses, every behaviour of the connection's writes, every message below 2^31 bytes, every byte stream received", "why_tests_cant": "schedules, write segmentations and failures are unbounded", "anchors": ["src/oatpp-websocket/WebSocket.cpp: WebSocket::listen", "src/oatpp-websocket/WebSocket.cpp: WebSocket::readPayload", "src/oatpp-websocket/WebSocket.cpp: WebSocket::handleFrame", "src/oatpp-websocket/WebSocket.cpp: WebSocket::sendOneFrame", "src/oatpp-websocket/WebSocket.cpp: WebSocket::sendFrameHeader", "src/oatpp-websocket/WebSocket.cpp: WebSocket::writeFrameHeader"]}
{"id": "C78", "title": "Full duplex: one thread sends while another receives", "statement": "If one thread listens and only one thread sends (it may be the listening one, in its callbacks), the connection carries exactly the frames of its messages one after the other, whatever is received meanwhile. No thread ever waits for another: as long as writes do not block for ever and every thread gets to run, all of them finish (listen() possibly waiting for more input); then, if application code does not fail and nobody stops listening, listen() ends as it would undisturbed, with the same notifications, and all messages of all threads have been written.", "quantifier": "every fair schedule of any number of threads at the granularity of single write calls and shared field accesses, every byte stream received, every behaviour of the connection's writes that makes progress", "why_tests_cant": "fairness quantifies over infinite schedules; deadlocks and lost bytes show in single interleavings only", "anchors": ["src/oatpp-websocket/WebSocket.cpp: WebSocket::listen", "src/oatpp-websocket/WebSocket.cpp: WebSocket::readPayload", "src/oatpp-websocket/WebSocket.cpp: WebSocket::handleFrame", "src/oatpp-websocket/WebSocket.cpp: WebSocket::sendOneFrame", "src/oatpp-websocket/WebSocket.cpp: WebSocket::sendFrameHeader", "src/oatpp-websocket/WebSocket.cpp: WebSocket::writeFrameHeader"]}
{"id": "C79", "title": "Coroutines sending on an asynchronous socket do not disturb what it receives", "statement": "One coroutine runs listenAsync() while any number of others send messages and replace the listener on the same socket, in any order of executor steps and arrivals. At every moment the calls the listeners have got are a beginning of the RFC 6455 reading of the bytes that have arrived. Nothing undefined happens, except that a callback coroutine which uses the data pointer of a masked frame after suspension uses freed memory (C31); the other coroutines are never affected by that. Without the restrictions on application code: a write past the read buffer takes a call of setConfig, an overflow of the masking loop a message of 2^31 bytes, a use of freed data a callback that looks at its data; setListener(nullptr) is harmless.", "quantifier": "every sequence in which the executor runs methods of any number of coroutines and data arrives, every byte stream received, every behaviour of the connection's writes, every application code that neither calls setConfig nor takes the listener away", "why_tests_cant": "executor schedules and byte streams are unbounded; a test does not control the executor's order", "anchors": ["src/oatpp-websocket/AsyncWebSocket.cpp: AsyncWebSocket::listenAsync", "src/oatpp-websocket/AsyncWebSocket.cpp: AsyncWebSocket::readFrameHeaderAsync", "src/oatpp-websocket/AsyncWebSocket.cpp: AsyncWebSocket::readPayloadAsync", "src/oatpp-websocket/AsyncWebSocket.cpp: AsyncWebSocket::handleFrameAsync", "src/oatpp-websocket/AsyncWebSocket.cpp: AsyncWebSocket::sendOneFrameAsync", "src/oatpp-websocket/AsyncWebSocket.cpp: AsyncWebSocket::sendFrameHeaderAsync", "src/oatpp-websocket/AsyncWebSocket.cpp: AsyncWebSocket::writeFrameHeaderAsync"]}
{"id": "C80", "title": "Every byte a coroutine writes belongs to a frame it meant to send", "statement": "With any number of coroutines sending on an asynchronous socket while one listens and replies: of the bytes written to the connection, those of one coroutine are, in order, beginnings of the RFC 6455 frames of the messages it is to send, masked iff configured, each frame with its own fresh bytes of the random source as masking key. A coroutine that has finished has begun all of them; if writes make progress every frame but the current one is whole, and once the coroutine has ended, or waits for input, all its messages are on the wire, whole. For the listening coroutine the messages are the replies of its callbacks in the order of the notifications.", "quantifier": "every sequence in which the executor runs methods of any number of coroutines and data arrives, every byte stream received, every behaviour of the connection's writes, every message below 2^31 bytes", "why_tests_cant": "schedules, write segmentations and failures are unbounded", "anchors": ["src/oatpp-websocket/AsyncWebSocket.cpp: AsyncWebSocket::listenAsync", "src/oatpp-websocket/AsyncWebSocket.cpp: AsyncWebSocket::readFrameHeaderAsync", "src/oatpp-websocket/AsyncWebSocket.cpp: AsyncWebSocket::readPayloadAsync", "src/oatpp-websocket/AsyncWebSocket.cpp: AsyncWebSocket::handleFrameAsync", "src/oatpp-websocket/AsyncWebSocket.cpp: AsyncWebSocket::sendOneFrameAsync", "src/oatpp-websocket/AsyncWebSocket.cpp: AsyncWebSocket::sendFrameHeaderAsync", "src/oatpp-websocket/AsyncWebSocket.cpp: AsyncWebSocket::writeFrameHeaderAsync"]}
{"id": "C81", "title": "Asynchronous full duplex", "statement": "If only one coroutine sends (it may be the listening one, in its callbacks), an asynchronous connection carries exactly the frames of its messages one after the other, whatever is received meanwhile. No coroutine waits for another: after any history, as long as writes do not block for ever and the executor runs every coroutine again and again, every other coroutine ends and the listening one ends or has read everything and waits for more input. If nothing fails, then eventually exactly the reading of all arrived bytes has been delivered, listening has ended or waits as RFC 6455 demands, every other coroutine has finished, and every message of every coroutine has been written whole.", "quantifier": "every history of executor steps and arrivals followed by every fair schedule, every number of coroutines, every byte stream received, every behaviour of the connection's writes that makes progress", "why_tests_cant": "fairness quantifies over infinite schedules; deadlocks and lost bytes show in single interleavings only", "anchors": ["src/oatpp-websocket/AsyncWebSocket.cpp: AsyncWebSocket::listenAsync", "src/oatpp-websocket/AsyncWebSocket.cpp: AsyncWebSocket::readFrameHeaderAsync", "src/oatpp-websocket/AsyncWebSocket.cpp: AsyncWebSocket::readPayloadAsync", "src/oatpp-websocket/AsyncWebSocket.cpp: AsyncWebSocket::handleFrameAsync", "src/oatpp-websocket/AsyncWebSocket.cpp: AsyncWebSocket::sendOneFrameAsync", "src/oatpp-websocket/AsyncWebSocket.cpp: AsyncWebSocket::sendFrameHeaderAsync", "src/oatpp-websocket/AsyncWebSocket.cpp: AsyncWebSocket::writeFrameHeaderAsync"]}
{"id": "C82", "title": "Listening needs bounded memory whatever arrives", "statement": "While listenAsync runs on a connection, it never holds more than 125 bytes of a control frame's payload, and altogether (unfinished header fields, read buffer, decoded copy of a chunk, control payload) never more than 125 + max(8, 2 x B) received bytes, where B is the largest readBufferSize in use, and never more than seven coroutines: however large the messages are, however many frames arrive, however they are split, and whatever the listener does. This is so too while other coroutines use the same socket, and those keep no received byte.", "quantifier": "all peers and byte streams (valid or not), all splittings of it, connection failures, calls of other threads, listener programs, executor schedules and points in time, other coroutines on the socket with any code", "why_tests_cant": "A test sends messages of some sizes; the bound must hold for every stream, including hostile headers announcing up to 2^63-1 bytes and arbitrarily many interleaved control frames, at every intermediate step.", "anchors": ["src/oatpp-websocket/AsyncWebSocket.cpp: ReadPayloadCoroutine, HandleFrameCoroutine, ReadFrameCoroutine, ListenCoroutine", "src/oatpp-websocket/AsyncWebSocket.hpp"]}
{"id": "C83", "title": "Listening does work linear in what arrives, then gives way", "statement": "The method calls an executor makes for listenAsync, not counting those that wait for the connection, are at most 16 for every byte, read failure or call of another thread consumed, plus one for every answer of write(), plus at most 30 for every command of the listener's own coroutines, plus 4. If no callback consists of more than k commands, then after more than (17+30k) x (amount of input) + (answers of write()) + 4 method calls in a row without new input listenAsync has ended or waits for the connection: it never spins and never monopolises the executor. With other coroutines on the same socket all their method calls together obey the same bound, plus one for each coroutine and 30 for every command of its code.", "quantifier": "all peers and byte streams, splittings, connection failures, calls of other threads, listener programs, write() answers and executor schedules, other coroutines on the socket with any code", "why_tests_cant": "A test cannot see that no byte stream makes the coroutine loop without consuming input (e.g. zero-length frames, empty read buffers, retried reads).", "anchors": ["src/oatpp-websocket/AsyncWebSocket.cpp: ListenCoroutine::act, ReadFrameCoroutine, HandleFrameCoroutine, ReadPayloadCoroutine, SendFrameCoroutine, WriteFrameCoroutine"]}
{"id": "C84", "title": "What a peer running this library makes of any sequence of sending calls", "statement": "Whatever sequence of sending calls (messages, fragments, raw frames, pings, pongs, closes; any opcode, any payload) is made on a healthy connection, a listening peer running this library is told exactly what the following rules say, in order, and nothing else: data of frames with opcodes 1 and 2 as long as no fragmented message was begun, data of continuation frames once one was begun, end-of-message for frames with FIN, pings, pongs and one close of at most 125 bytes; the first frame outside these rules (longer control frame, other opcode, misplaced data or continuation frame) ends listening at that frame, a close frame ends listening right after it, and if there is neither the peer has read everything and waits. What follows the ending frame is left unread.", "quantifier": "all sequences of sending calls, payloads and masking keys, all splittings of the bytes by the network, masking and unmasking senders, blocking and asynchronous receivers, all executor schedules", "why_tests_cant": "The space of call sequences is infinite; a test samples a few of them.", "anchors": ["src/oatpp-websocket/WebSocket.cpp: sendOneFrame*, sendPing, sendPong, sendClose, listen, handleFrame, readPayload, checkForContinuation", "src/oatpp-websocket/AsyncWebSocket.cpp: listenAsync, handleFrameAsync, readPayloadAsync"]}
{"id": "C85", "title": "A listener object outlives its callbacks on the asynchronous socket", "statement": "On AsyncWebSocket, from the moment a callback coroutine of a listener is started until it ends, some library object waiting for it owns a reference to that same listener: replacing or removing the listener meanwhile (from the callback itself, from another coroutine or from another thread) never destroys the listener under its running callback.", "quantifier": "all histories of a socket shared by any number of coroutines, listener programs, byte streams, connection failures, calls of other threads and schedules", "why_tests_cant": "Use-after-free shows only when the replacement falls into the callback, and then only with luck.", "anchors": ["src/oatpp-websocket/AsyncWebSocket.cpp: ReadPayloadCoroutine::m_listener, HandleFrameCoroutine::m_listener, handleFrameAsync, readPayloadAsync", "src/oatpp-websocket/AsyncWebSocket.hpp: setListener"]}
{"id": "C86", "title": "Threads may send on a socket while another listens, without data races on it", "statement": "On a blocking WebSocket, while one thread is in listen() (its callbacks sending, replacing the listener or stopping as they like, but not changing the configuration) and any number of other threads only send, no two threads are ever about to access the same field of the socket with one of them assigning it, as long as no write has failed; after a failed write the only field this can happen to is the listening flag. stopListening from another thread, and setConfig while a further thread sends, are such races.", "quantifier": "all schedules at the granularity of single field accesses and write() calls, any number of threads, listener programs, sending programs, byte streams and connection behaviour", "why_tests_cant": "A data race may go unnoticed in every run of a test; its absence is a statement about all interleavings.", "anchors": ["src/oatpp-websocket/WebSocket.cpp: listen, stopListening, sendOneFrame, sendFrameHeader, sendText, sendPing, setConfig", "src/oatpp-websocket/WebSocket.hpp: m_config, m_listener, m_listening, m_lastOpcode, setListener"]}
{"id": "C87", "title": "A client and a server of this library understand each other, whatever they say", "statement": "Let the application at one end of a working connection make any sequence of sending calls (masking or not, payloads within the documented sizes), and let a ConnectionHandler or AsyncConnectionHandler serve the other end among any number of other connections. However the bytes are cut up and interleaved, the listener installed by the instance listener is told exactly the meaning of those calls in order, the socket is destroyed exactly if they end the connection (a close or an unacceptable frame), and a client that listens to the bytes coming back is told exactly the meaning of the greeting, of the listener's answers and of the farewell, in that order.", "quantifier": "all call sequences of the client, listener programs of both sides, instance listeners, cuttings of both byte streams, retries, masking keys, and interleavings with other connections", "why_tests_cant": "It relates two programs of unbounded length through two byte streams cut arbitrarily, under every interleaving with other connections.", "anchors": ["src/oatpp-websocket/WebSocket.cpp: sendOneFrame, listen, handleFrame", "src/oatpp-websocket/AsyncWebSocket.cpp: listenAsync, handleFrame, sendOneFrameAsync", "src/oatpp-websocket/ConnectionHandler.cpp: handleConnection", "src/oatpp-websocket/AsyncConnectionHandler.cpp: handleConnection"]}
{"id": "C88", "title": "An asynchronous server may push messages from coroutines of its own", "statement": "The application of an AsyncConnectionHandler may, from onAfterCreate_NonBlocking on and at any time, start coroutines that send on a connection's socket, as many as it likes (a chat server pushing to its clients). For every connection, whatever happens on the others: the application sees onAfterCreate_NonBlocking, then calls whose data is a beginning of the RFC 6455 reading of the bytes received there, then onBeforeDestroy_NonBlocking, exactly if the listening has ended or the handler's coroutine is gone; if onAfterCreate_NonBlocking throws, just the two calls. Every byte sent to its peer belongs to a frame of a reply or of a message one of the started coroutines was to send, in that coroutine's order. If nothing fails and all coroutines get to run, everything received is delivered and answered, and every started coroutine finishes with all its messages on the wire, also when the peer has closed meanwhile and onBeforeDestroy_NonBlocking has been called.", "quantifier": "all histories of any number of connections (handover, data, failures, executor steps of every coroutine in any order, drops, instance-listener replacement, application coroutines started at any moment on any connection), all setups including throwing ones, all listener programs and pushed messages below 2^31 bytes, all fair continuations", "why_tests_cant": "the claim ranges over all interleavings of any number of connections and coroutines and over all received byte streams", "anchors": ["src/oatpp-websocket/AsyncConnectionHandler.cpp: handleConnection, SocketCoroutine::act, ~SocketCoroutine", "src/oatpp-websocket/AsyncWebSocket.cpp: listenAsync, sendOneFrame*Async"]}
{"id": "C89", "title": "A threaded server may push from threads of its own exactly if onBeforeDestroy waits for them", "statement": "The application of a (blocking) ConnectionHandler gets each socket in onAfterCreate as a reference and may start threads that send on it, at any time and as many as it likes. If the instance listener's onBeforeDestroy waits for these threads (and no more are started), then no execution uses a socket that is gone and none ends the process, and when a socket is gone all its threads have finished. If it does not wait, every execution in which listen() has returned while a started thread is still at work can be continued such that this thread uses freed memory. For every connection, whatever happens on the others: the application sees onAfterCreate, then calls whose data is a beginning of the RFC 6455 reading of the bytes received there, then at most onBeforeDestroy; every byte sent to its peer belongs to a reply or to a message one of the started threads was to send, in that thread's order. If nothing fails and all threads get to run, everything received is delivered and answered, every thread that was started finishes with all its messages on the wire, and onBeforeDestroy is called and the socket destroyed exactly if the peer has ended the connection.", "quantifier": "all histories of any number of connections (handover, instance-listener replacement, threads started at any moment on any connection, steps of all threads in any order), all setups, listener programs and messages below 2^31 bytes, all received byte streams, all fair continuations", "why_tests_cant": "the claim ranges over all interleavings of any number of threads and connections and over all received byte streams; a use after free in the window between listen() and onBeforeDestroy shows in no ordinary run", "anchors": ["src/oatpp-websocket/ConnectionHandler.cpp: ConnectionHandler::Task::Task, ~Task, run, handleConnection", "src/oatpp-websocket/ConnectionHandler.hpp: SocketInstanceListener::onAfterCreate, onBeforeDestroy", "src/oatpp-websocket/WebSocket.cpp: listen, sendFrameHeader, sendOneFrame"]}
{"id": "C90", "title": "Coroutines of one socket may be run by several threads of the executor at once", "statement": "On an AsyncWebSocket with one listening coroutine (whose callbacks may send and replace the listener, but do not call setConfig) and any number of coroutines that only send: at no time are two coroutines about to access the socket's configuration, listener or message state, or the incoming side of the connection, such that one of them changes it. Any two coroutine methods that are about to run have the same effect in either order, unless both belong to coroutines in the middle of a send; so an executor may run them at the same time on different threads. setListener from a second coroutine, and setConfig in one coroutine while another is about to send, are such conflicting accesses.", "quantifier": "all schedules and all reachable states, any number of sending coroutines, all listener programs (without setConfig), messages, received byte streams and connection behaviour", "why_tests_cant": "the absence of conflicting accesses and the commutation of methods are statements about every reachable state of every schedule; a race may go unnoticed in every run of a test", "anchors": ["src/oatpp-websocket/AsyncWebSocket.cpp: listenAsync, handleFrameAsync, readPayloadAsync, sendOneFrameAsync, sendFrameHeaderAsync, setConfig", "src/oatpp-websocket/AsyncWebSocket.hpp: m_config, m_listener, m_lastOpcode, setListener"]}
{"id": "C91", "title": "A conversation does not depend on timing, nor on which kind of socket either side uses", "statement": "Two applications talk over a network; each uses either a blocking WebSocket in listen() or an AsyncWebSocket in listenAsync. What an application sends, and whether it then throws out of the callback, depends on everything it has been shown so far (it acts at ends of messages, pings, pongs and closes). Then for any two executions, with any choice of socket kinds and any schedule of threads, executors and network deliveries in each, what A is shown in one is a beginning of what A is shown in the other or the other way round, and likewise for B and for the bytes either side writes (given the same random masks). Whatever happens in one execution also happens, after finitely many steps, in every execution in which both sides and both directions of the network keep going, whichever socket kinds are used there.", "quantifier": "all pairs of applications (messages below 2^31 bytes), giving up at any point; all four combinations of socket kinds; all interleavings of threads, executor steps and deliveries of any number of bytes; all read buffer sizes, masks and partial or retried writes that do not fail", "why_tests_cant": "the set of schedules, fragmentations and conversations is infinite, and the claim compares every execution with every other one", "anchors": ["src/oatpp-websocket/WebSocket.cpp: listen, handleFrame, readPayload, sendOneFrame", "src/oatpp-websocket/AsyncWebSocket.cpp: listenAsync, handleFrameAsync, readPayloadAsync, sendOneFrameAsync"]}
{"id": "C92", "title": "Nothing the server says after the handshake is lost", "statement": "After Connector::connect or connectAsync has succeeded, a WebSocket created on the connection it returned hears everything the server sends after its 101 response, however response and frames are cut into pieces on the way. (False of the code: bytes that arrive in the same read as the end of the response stay in the response object, which connect discards; a server that sends from onAfterCreate may not be heard, or be misread.)", "quantifier": "all responses, all sequences of sends of the server, all cuttings of the byte stream of response and frames, all buffer sizes of the HTTP core", "why_tests_cant": "whether response and first frames arrive in one read is decided by the network; a test on a local connection sees one of the two cases", "anchors": ["src/oatpp-websocket/Connector.cpp: connect, connectAsync (onServerResponse)"]}
{"id": "C93", "title": "A listener of the blocking socket may replace itself", "statement": "On the blocking WebSocket a callback may replace or remove the listener of the socket and then go on: the running listener is not destroyed under it. (False of the code: the socket calls the listener through the only reference it has, so a listener that only the socket holds is destroyed by setListener while its callback runs.)", "quantifier": "all byte streams and connection behaviours, all listener programs, all choices of which listeners the application keeps references to itself", "why_tests_cant": "A use after free shows only with luck, and only in programs that replace listeners from callbacks; that nothing else can destroy a running listener is a statement about every run.", "anchors": ["src/oatpp-websocket/WebSocket.hpp: setListener, m_listener", "src/oatpp-websocket/WebSocket.cpp: readPayload, handleFrame"]}
{"id": "C94", "title": "The handshake can not be used for header injection", "statement": "Whatever header values a request contains, the 101 response has exactly the three fields Upgrade, Connection and Sec-WebSocket-Accept with fixed names; the only value that depends on the request is 28 characters of the Base64 alphabet, so that no request can add a line to the response or end its head early. Likewise a client adds to the application's headers four fields with fixed names and values, except for a key of 24 Base64 characters.", "quantifier": "all requests (any number of fields, any bytes in names and values, of any length), all states of the random source, all application headers", "why_tests_cant": "a test sends a few hostile values; the claim is about every byte string as key", "anchors": ["src/oatpp-websocket/Handshaker.cpp: serversideHandshake, clientsideHandshake", "src/oatpp-websocket/Utils.cpp: generateKey"]}
{"id": "C95", "title": "Listening can be stopped and resumed without loss", "statement": "An application may call listen() again after it has returned because of stopListening(): whatever number of calls, and however often listening was stopped, by the listener in any callback or by other threads at any moment, in the middle of a frame or between the fragments of a message, what its listener has seen in all calls together, followed by what is still to be read, is what one uninterrupted listen() would show. When it is blocked for input, or the peer has closed, it has seen everything the peer sent, each message once and in order.", "quantifier": "all byte streams without a frame the library refuses, all segmentations and transient retries, all listeners that send, stop and use their data, all placements of stopListening in callbacks and by other threads, any number of calls of listen()", "why_tests_cant": "where the stops fall relative to the bytes of a frame is decided by the scheduler and the network", "anchors": ["src/oatpp-websocket/WebSocket.cpp: listen, stopListening, checkForContinuation"]}
{"id": "C96", "title": "A message object may be changed after it was given to a sending call", "statement": "An application may change, reuse or reassign the string object it passed to an asynchronous sending call right after the call: the frame that is sent carries the content the message had when the call was made. False of the code: the sending coroutine keeps a reference to the object. Overwriting bytes of the string mixes contents within one well-formed frame; changing its size after the coroutine has started makes it write something that is not a frame although the call completes; and, without masking, reallocating the string while its bytes are being written is a use of freed memory. Changes are harmless for sendCloseAsync(code, message), and for every call once it has completed.", "quantifier": "all sending calls and messages, all changes of the object at all moments between the steps of the coroutine, all behaviours of the connection (partial writes, retries, waiting, errors), with and without masking", "why_tests_cant": "the content that is sent depends on where the changes fall between the coroutine's steps, which the executor and the connection decide", "anchors": ["src/oatpp-websocket/AsyncWebSocket.cpp: sendOneFrameAsync, sendCloseAsync"]}
{"id": "C97", "title": "What a strict RFC 6455 peer makes of what the library sends", "statement": "An endpoint that was not written with this library and enforces the framing rules of RFC 6455 (reserved bits, minimal state for fragmented messages, control frames with FIN and at most 125 bytes, masking as the role demands, lengths below 2^63) hears of any sequence of sending calls exactly what the RFC says of the frames asked for: every message, whole or sent in parts with pings and pongs in between, with its bytes, its type and one end; it is never made to refuse anything by calls that send complete messages, whatever the listener was answering to and wherever the sending has got to; a Close is the last thing it hears. A call that asks for a frame the RFC forbids at that point is carried out without complaint and is exactly where the peer refuses, and a socket configured with the other role's masking is refused at its first frame.", "quantifier": "all sequences of sending calls, all conversations of whole and fragmented messages with interleaved control frames, all listeners, all received bytes, read failures and calls of other threads, all schedules and write segmentations, both masking configurations", "why_tests_cant": "the conforming state machine of the peer has to be run against every sequence of calls and every point the sending may have reached; a test shows one conversation with one peer", "anchors": ["src/oatpp-websocket/WebSocket.cpp: sendFrameHeader, sendOneFrame, sendClose, sendPing, sendPong, listen", "src/oatpp-websocket/AsyncWebSocket.cpp: sendFrameHeaderAsync, sendOneFrameAsync, listenAsync"]}
{"id": "C98", "title": "Listeners with fields and control flow", "statement": "Listener objects may keep fields, share memory with the rest of the application, branch on what their calls did (whether sendOneFrame returned true, whether a send threw), and catch or throw exceptions. As long as their callbacks do not call listen() or iterateFrame() themselves, every run of listen() or iterateFrame() with such objects is also the run with listeners whose calls are a function of the calls they received so far and which make no other calls; so everything that holds for all of the latter holds for the objects (among it: round trip, onClose is the last call, a strict peer never refuses what they send). A listener class that collects a message in a buffer field and answers when it ends is the echo server. Conversely each such function is the behaviour of an object.", "quantifier": "all types of memory and initial memories, all listener objects (programs with loads, stores, calls, exceptions), all received bytes and failures, all write schedules, all sockets", "why_tests_cant": "a test has one listener class; the claim is about all code an application may put in callbacks", "anchors": ["src/oatpp-websocket/WebSocket.hpp: WebSocket::Listener, onPing, onPong, onClose, readMessage", "src/oatpp-websocket/WebSocket.cpp: readPayload, handleFrame, iterateFrame, listen"]}
{"id": "C99", "title": "Callbacks that call listen() or iterateFrame()", "statement": "Callbacks may call listen() and iterateFrame() on the socket that is calling them. Calls never nest without end: listen() returns or waits, and throws nothing, whatever the callbacks do. If callbacks listen only when a frame is complete (when a message ends, and in onPing, onPong and onClose), then however deep they nest each frame of a valid stream is reported exactly once, in order, to whoever reads it, what is left unread begins with a frame, and if nobody stops and no Close arrives nothing is left out. Not guaranteed: an iterateFrame() made by a callback takes the Close frame from the listen() that called it, which goes on and reports what follows the Close; a listen() made by a callback swallows the failure of a refused frame, and the outer one reads that frame's payload as frames; an iterateFrame() made in the middle of a frame reads the rest of its payload as frames.", "quantifier": "all types of memory, all listener objects (programs with loads, stores, calls, exceptions, nested listening), all received bytes, segmentations, retries and concurrent stops, all sockets", "why_tests_cant": "nesting depth, input and the code of the callbacks are unbounded", "anchors": ["src/oatpp-websocket/WebSocket.hpp: WebSocket::Listener, listen, iterateFrame", "src/oatpp-websocket/WebSocket.cpp: readPayload, handleFrame, iterateFrame, listen, readFrameHeader"]}
{"id": "C100", "title": "The same listener on both sockets", "statement": "A listener that keeps fields and decides by what its sends did behaves on AsyncWebSocket as on WebSocket. While writes make progress, its callbacks, the bytes it sends and the contents of its fields are the same for every schedule of the coroutines as for listen(): at any time the callbacks and the bytes sent are a beginning of listen()'s, and after enough steps all of them, with the same fields; what a callback does in its n-th call follows from the calls before. If writes fail, and whatever the callbacks decide when told so, the callbacks still show a beginning of the reading of the arrived bytes, to the installed listener, none after onClose; and everything proved for listeners whose commands depend on the history of calls holds for them. Whatever the writes do, a callback is told that its send succeeded exactly if the whole frame is on the wire by then.", "quantifier": "all types of memory, all listener objects (programs with loads, stores, calls, branches on results, exceptions), all received bytes and segmentations, all schedules and arrivals, all sockets; healthy writes for the comparison, any writes for the rest", "why_tests_cant": "the code of the listeners, the input and the interleavings are unbounded", "anchors": ["src/oatpp-websocket/AsyncWebSocket.hpp: AsyncWebSocket::Listener, listenAsync", "src/oatpp-websocket/AsyncWebSocket.cpp: listenAsync, readPayloadAsync, handleFrameAsync, sendOneFrameAsync", "src/oatpp-websocket/WebSocket.hpp: WebSocket::Listener, listen", "src/oatpp-websocket/WebSocket.cpp: listen, readPayload, handleFrame"]}
{"id": "C101", "title": "Callbacks that call listenAsync on their own socket", "statement": "A callback's coroutine may itself call listenAsync on the socket that is calling it, and so may the callbacks of that one, to any depth. If they do so only between frames (pings, pongs, Close, end of a message), then for every schedule, segmentation and fate of their sends: at any moment what has been reported is what the received frames show, from the first on, each frame once, in order; no behaviour is undefined; an outermost listenAsync that has ended has done so between two frames. While writes make progress the callbacks never nest without end: after enough steps the listening waits or has ended, and if it waits every frame that has arrived has been reported; if no callback throws and no Close arrives it does not end. Otherwise not: a Close ends the innermost listenAsync only, and the outer ones go on and report what follows it (if listeners listen on every ping, the outermost one ends exactly at the first Close before which every ping has had a Close of its own); a rejected frame fails the innermost one only, and its payload is then read as frames.", "quantifier": "all types of memory, all listener objects that listen only between frames, all depths, all sequences of accepted frames in all length encodings, all segmentations with transient retries, all schedules and arrivals; any writes for the order of reports, healthy writes for completion", "why_tests_cant": "the depth of the nesting, the code of the listeners, the input and the interleavings are unbounded", "anchors": ["src/oatpp-websocket/AsyncWebSocket.hpp: AsyncWebSocket::Listener, listenAsync", "src/oatpp-websocket/AsyncWebSocket.cpp: listenAsync, ListenCoroutine, handleFrameAsync, readPayloadAsync, readFrameHeaderAsync"]}
{"id": "C102", "title": "What a listener can be handed at all", "statement": "Whatever bytes arrive (frames or not), however reads and writes fail, and whatever callbacks, other threads and coroutines do in the meantime (send, call setConfig, setListener, stopListening, throw): every call a listener gets is well-formed. readMessage carries an opcode from 0 to 2 and, unless it is the end of the message, at least one byte; the payload of a ping or pong has at most 125 bytes; a close code is a 16-bit number and a close reason has at most 123 bytes. The same holds for listenAsync and every order of coroutine steps.", "quantifier": "all input bytes, all behaviours of reads and writes, all listener code, all code of any number of threads or coroutines on the same socket, all configurations (of any buffer size), all schedules", "why_tests_cant": "no finite set of inputs, callbacks and interleavings covers them all; the property must hold where nothing is assumed about the peer", "anchors": ["src/oatpp-websocket/WebSocket.cpp: WebSocket::handleFrame, readPayload, checkForContinuation", "src/oatpp-websocket/AsyncWebSocket.cpp: HandleFrameCoroutine, ReadPayloadCoroutine, readPayloadAsync", "src/oatpp-websocket/WebSocket.hpp: WebSocket::Listener"]}
