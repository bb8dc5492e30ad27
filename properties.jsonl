{"id": "C01", "title": "Parsing untrusted bytes never panics", "statement": "Message.ReadBytes returns normally (with or without an error) for every byte sequence a peer can send: no index or slice expression in the parser is ever out of range, whatever the buffer size and whatever an earlier message left in the buffer.", "quantifier": "every received byte string, every buffer size, every prior content of the reused buffer", "why_tests_cant": "there are infinitely many frames and every length/flag combination must be safe; tests try a handful of corrupt frames", "anchors": ["message/read.go:ReadBytes", "message/parse.go:parse", "message/parse*.go"]}
{"id": "C02", "title": "No bytes outside the received frame are exposed", "statement": "After ReadBytes(b), the identifier, name, payload, error code, error message and sub-protocol name visible through the message are pieces of b itself; the result does not depend on what an earlier message left in the pooled buffer beyond len(b).", "quantifier": "every frame, every earlier buffer content", "why_tests_cant": "a stale-bytes leak only shows for particular lengths and particular earlier contents (slicing up to cap does not panic in Go)", "anchors": ["message/buffer.go:Data", "message/read.go:ReadBytes", "message/parse*.go"]}
{"id": "C03", "title": "A frame is accepted exactly when it matches the wire format, and its fields are the documented ones", "statement": "ReadBytes(b) reports success if and only if b is one of the documented frame layouts (type byte, 8-byte identifier, length flag, name, optional padding, payload ...), and then type, identifier, name, payload and payload encoding are the corresponding pieces of b.", "quantifier": "every byte string, all 21 message types", "why_tests_cant": "acceptance boundaries (minimum lengths, UTF-16 parity, padding, length flag against actual length) interact; examples cannot cover all", "anchors": ["message/message.go:MinLen*", "message/parse.go:parse", "message/parse*.go"]}
{"id": "C04", "title": "Signal round trip", "statement": "For every name of at most 255 bytes, every encoding and payload accepted by WriteMsgSignal, reading the written bytes yields a signal of that encoding with the same name and payload, provided the frame is one the format allows (payload or name present; UTF-16 signals need a payload).", "quantifier": "every name, payload, encoding, safe mode", "why_tests_cant": "round trip must hold for all contents and lengths", "anchors": ["message/writeMsgSignal.go:WriteMsgSignal", "message/parseSignal.go", "message/parseSignalUtf16.go"]}
{"id": "C05", "title": "Every signal that Connection.Signal accepts can be read by the peer", "statement": "Whenever Connection.Signal(name, payload) reports success the peer's ReadBytes accepts the frame and recovers name and payload.", "quantifier": "every name, payload and encoding accepted by Connection.Signal", "why_tests_cant": "needs the writer's acceptance condition to imply the parser's for all lengths", "anchors": ["connection.go:Signal", "message/writeMsgSignal.go", "message/parseSignalUtf16.go"]}
{"id": "C06", "title": "Request round trip", "statement": "For every 8-byte identifier, name (<=255 bytes), encoding and payload accepted by WriteMsgRequest, reading the written bytes yields a request with the same identifier, name, payload and encoding.", "quantifier": "every identifier, name, payload, encoding", "why_tests_cant": "odd/even name lengths, padding, empty payload and all contents interact", "anchors": ["message/writeMsgRequest.go:WriteMsgRequest", "message/parseRequest.go", "message/parseRequestUtf16.go"]}
{"id": "C07", "title": "Reply round trip", "statement": "For every identifier, encoding and payload accepted by WriteMsgReply, reading the written bytes yields a reply with the same identifier, payload and encoding, including the empty payload.", "quantifier": "every identifier, payload, encoding", "why_tests_cant": "must hold for all payloads", "anchors": ["message/writeMsgReply.go:WriteMsgReply", "message/parseReply.go", "message/parseReplyUtf16.go"]}
{"id": "C08", "title": "Error reply round trip", "statement": "For every identifier, error code (1..255 printable ASCII) and message, reading what WriteMsgReplyError wrote yields an error reply with the same identifier, the code as name and the message as payload, declared as UTF-8.", "quantifier": "every identifier, code, message", "why_tests_cant": "must hold for all contents and lengths", "anchors": ["message/writeMsgErrorReply.go:WriteMsgReplyError", "message/parseErrorReply.go", "message/parse.go:100"]}
{"id": "C09", "title": "Round trip of special replies, session requests, notifications and heartbeats", "statement": "Frames written by WriteMsgSpecialRequestReply, WriteMsgNamelessRequest, WriteMsgNotifySessionCreated, WriteMsgNotifySessionClosed and WriteMsgHeartbeat are read back as the same kind with the same identifier and payload.", "quantifier": "every identifier, every payload, every kind", "why_tests_cant": "must hold for all contents", "anchors": ["message/writeMsgSpecialRequestReply.go", "message/writeMsgNamelessRequest.go", "message/writeMsgSessionCreated.go", "message/writeMsgSessionClosed.go", "message/writeMsgHeartbeat.go"]}
{"id": "C10", "title": "Server configuration message round trip", "statement": "NewAcceptConfMessage fails exactly when the read timeout in whole milliseconds is negative or exceeds 2^32-1; otherwise reading its bytes yields the same versions, buffer size and sub-protocol name, and the read timeout rounded to whole milliseconds.", "quantifier": "every configuration (all int64 durations, all uint32 sizes, all names)", "why_tests_cant": "boundary at 2^32 ms, rounding of negative durations, byte order for all values", "anchors": ["message/newAcceptConfMessage.go:NewAcceptConfMessage", "message/parseAcceptConf.go"]}
{"id": "C11", "title": "Message writers close the writer exactly once on every path", "statement": "Every WriteMsg* function calls Close on the given writer exactly once and calls nothing on it afterwards, whether validation fails, any Write fails, Close fails, or all succeeds; a validation failure writes nothing at all.", "quantifier": "every input and every pattern of Write/Close errors of the writer", "why_tests_cant": "the number of error patterns is unbounded; a leaked writer blocks the socket for ever", "anchors": ["message/writeMsg*.go"]}
{"id": "C12", "title": "Predicted message length equals written length", "statement": "CalcMsgLenSignal and CalcMsgLenRequest equal the number of bytes WriteMsgSignal / WriteMsgRequest write for the same arguments whenever these succeed.", "quantifier": "every name, encoding, payload", "why_tests_cant": "must hold for all lengths and parities", "anchors": ["message/calcMsgLen.go", "message/writeMsgSignal.go", "message/writeMsgRequest.go"]}
{"id": "C13", "title": "Writers accept exactly the valid arguments", "statement": "In safe mode WriteMsgRequest, WriteMsgSignal, WriteMsgReply and WriteMsgReplyError succeed on a working writer exactly for: name/code length within bounds, printable ASCII only, UTF-16 payload of even length (and, for requests, name or payload present); they never panic in safe mode.", "quantifier": "every argument combination", "why_tests_cant": "boundary values of every character and length", "anchors": ["message/writeMsg*.go"]}
{"id": "C14", "title": "Decoding does not depend on message history", "statement": "Reading a frame into a message object that was used before gives the same observable result as reading it into a fresh one.", "quantifier": "every earlier history of the message object, every frame", "why_tests_cant": "state left by earlier frames depends on unboundedly many histories", "anchors": ["message/message.go:Close", "message/read.go:ReadBytes", "message/parseReply.go:22"]}
{"id": "C15", "title": "Stream reading is chunking independent", "statement": "Message.Read(reader) gives exactly the outcome of ReadBytes on the concatenation of everything the reader delivers, however the bytes are split, and a buffer overflow error if they do not fit.", "quantifier": "every byte stream, every way of splitting it into reads, every legal placement of EOF", "why_tests_cant": "the number of chunkings is exponential; io.Reader allows several EOF conventions", "anchors": ["message/buffer.go:Read", "message/read.go:Read"]}
{"id": "C16", "title": "Pooled messages are never shared and always come back blank", "statement": "A message obtained from the pool is blank and is not simultaneously held by anyone else, as long as each holder closes it at most once; after Close every accessor panics instead of returning another request's data.", "quantifier": "every history of Get, Read and Close by any number of holders", "why_tests_cant": "aliasing bugs need specific interleavings of acquire/close", "anchors": ["message/syncPool.go", "message/message.go:Close", "message/message.go:Name"]}
{"id": "C17", "title": "UTF-16 payload conversion", "statement": "Payload.Utf8 of a UTF-16 payload is the UTF-8 encoding of the same text; it fails exactly for odd lengths; binary and UTF-8 payloads pass through unchanged; the output is always well-formed UTF-8.", "quantifier": "every payload, every code point", "why_tests_cant": "the whole Unicode range in every combination", "anchors": ["payload/payload.go:Utf8"]}
{"id": "C18", "title": "Request identifiers are unique", "statement": "Two requests created by one request manager never share an identifier within 2^64 creations, whatever the interleaving of Create calls.", "quantifier": "every number and interleaving of concurrent Create calls below 2^64", "why_tests_cant": "uniqueness is over all pairs and interleavings", "anchors": ["requestManager/requestManager.go:Create"]}
{"id": "C19", "title": "A reply reaches the request it answers, and only that one", "statement": "AwaitReply of a request returns only a reply whose identifier is the request's identifier (or an error Fail was given for that identifier), or a context error; it never returns another request's reply.", "quantifier": "every interleaving of Create, Fulfill, Fail, AwaitReply", "why_tests_cant": "cross-talk depends on schedules", "anchors": ["requestManager/requestManager.go", "requestManager/request.go:AwaitReply"]}
{"id": "C20", "title": "At most one Fulfill/Fail succeeds per request", "statement": "For each request at most one call of Fulfill or Fail returns true, and none of them blocks.", "quantifier": "every interleaving of Fulfill, Fail, AwaitReply", "why_tests_cant": "depends on schedules between lookup and removal", "anchors": ["requestManager/requestManager.go:Fulfill", "requestManager/requestManager.go:Fail"]}
{"id": "C21", "title": "Pending set is exact", "statement": "IsPending(id) is true exactly for requests created and not yet fulfilled, failed or abandoned by AwaitReply; PendingRequests is their number; nothing stays pending after AwaitReply returned.", "quantifier": "every history of calls", "why_tests_cant": "unbounded histories", "anchors": ["requestManager/requestManager.go", "requestManager/request.go"]}
{"id": "C22", "title": "Weighted semaphore never over-admits and never loses a wake-up", "statement": "The combined weight of holders never exceeds the size; waiters are admitted in arrival order; a waiter that fits is never left waiting.", "quantifier": "every history of Acquire, TryAcquire, Release and cancellation with any weights", "why_tests_cant": "unbounded histories and orders", "anchors": ["vendor/golang.org/x/sync/semaphore/semaphore.go"]}
{"id": "C23", "title": "Handlers of one connection never exceed its concurrency limit", "statement": "At any moment the number of OnSignal/OnRequest invocations in progress for a connection with ConcurrencyLimit n >= 0 is at most max(1,n).", "quantifier": "every schedule of every number of connections and messages", "why_tests_cant": "all interleavings", "anchors": ["handleMessage.go", "registerHandler.go", "deregisterHandler.go", "connectionOptions.go"]}
{"id": "C24", "title": "Unlimited-by-default order: with limit 0 or 1 messages are handled one at a time in arrival order", "statement": "On a connection with ConcurrencyLimit 0 or 1 the handler invocations happen in the order the messages arrived and never overlap.", "quantifier": "every sequence of messages, every schedule", "why_tests_cant": "all interleavings", "anchors": ["handleMessage.go:27", "handleConnection.go:62"]}
{"id": "C25", "title": "Graceful shutdown waits for running handlers", "statement": "Server.Shutdown returns only after every signal or request handler that was in progress has returned.", "quantifier": "every schedule of handlers, incoming messages and Shutdown calls", "why_tests_cant": "all interleavings, including messages arriving during the shutdown", "anchors": ["server.go:Shutdown", "registerHandler.go", "deregisterHandler.go"]}
{"id": "C26", "title": "During shutdown requests are refused and signals are ignored", "statement": "Once Shutdown was called no request handler starts; each later request gets the shutdown reply with its own identifier; signals that arrive are dropped without invoking a handler.", "quantifier": "every schedule after Shutdown was called", "why_tests_cant": "all interleavings", "anchors": ["registerHandler.go", "failMsg.go:failMsgShutdown", "interfaces.go:16"]}
{"id": "C27", "title": "The operation counter is exact", "statement": "As long as no shutdown was requested the number the server waits for equals the number of handlers registered and not yet finished; it never under-runs.", "quantifier": "every schedule", "why_tests_cant": "all interleavings; 32-bit wrap-around", "anchors": ["registerHandler.go", "deregisterHandler.go"]}
{"id": "C28", "title": "Connection.Close waits for work in progress and happens once", "statement": "A connection is closed and removed from the session registry only when no registered task is running on it; Close has no effect the second time.", "quantifier": "every schedule of handlers and Close calls", "why_tests_cant": "all interleavings", "anchors": ["connection.go:Close", "connection.go:deregisterTask", "connection.go:unlink"]}
{"id": "C29", "title": "Connect and disconnect hooks are paired", "statement": "For every accepted connection OnClientConnected is invoked exactly once before any message handler, and OnClientDisconnected exactly once after the last message was read, and a malformed frame never reaches a handler and ends the connection.", "quantifier": "every sequence of frames and read errors", "why_tests_cant": "unbounded message histories", "anchors": ["handleConnection.go:handleConnection"]}
{"id": "C30", "title": "The number of connections of a session never exceeds the configured maximum", "statement": "SessionConnectionsNum(key) <= MaxSessionConnections for every key at every time (when the maximum is non-zero).", "quantifier": "every history and interleaving of session creation, restoration, closure and disconnection", "why_tests_cant": "all interleavings of registry operations", "anchors": ["sessionRegistry.go:register", "handleSessionRestore.go:31"]}
{"id": "C31", "title": "The registry counts exactly the connected sessions", "statement": "ActiveSessionsNum is the number of keys having at least one connection; SessionConnectionsNum(key) is the number of connections holding that session, -1 if none; SessionConnections lists exactly those.", "quantifier": "every history of session operations", "why_tests_cant": "unbounded histories", "anchors": ["sessionRegistry.go", "server.go:ActiveSessionsNum"]}
{"id": "C32", "title": "Registry and connections agree", "statement": "A connection is listed under a session key if and only if that connection's current session has that key.", "quantifier": "every history of CreateSession, CloseSession, restoration, disconnection", "why_tests_cant": "unbounded histories", "anchors": ["connection.go:CreateSession", "handleSessionRestore.go:86", "sessionRegistry.go"]}
{"id": "C33", "title": "A session is destroyed exactly when its last connection closes it", "statement": "OnSessionClosed(key) is invoked exactly when CloseSession (by server or client) removes the last connection of the session; it is never invoked by a mere disconnect, and never while another connection still has the session.", "quantifier": "every history", "why_tests_cant": "unbounded histories", "anchors": ["sessionRegistry.go:deregister", "connection.go:unlink", "handleSessionClosure.go"]}
{"id": "C34", "title": "Server.CloseSession closes the session on all of its connections", "statement": "Server.CloseSession(key) returns every connection that had the session, one error slot per connection, a general error iff some slot is an error; afterwards no connection has that session, other sessions are untouched, and the session was destroyed exactly once.", "quantifier": "every registry state, every pattern of notification errors", "why_tests_cant": "unbounded number of connections and error patterns", "anchors": ["server.go:CloseSession", "connection.go:CloseSession"]}
{"id": "C35", "title": "CreateSession never overrides a session and leaves no trace on failure", "statement": "CreateSession fails without any effect when sessions are disabled, the socket is disconnected, the connection already has a session, or the client could not be notified; otherwise the connection has exactly the new session and is registered under it.", "quantifier": "every connection state and every failure point", "why_tests_cant": "all failure combinations", "anchors": ["connection.go:CreateSession"]}
{"id": "C36", "title": "Session restoration decision", "statement": "A restore request is answered with: sessions-disabled, max-connections-reached, internal error (lookup failed), not-found, or a success reply holding the session; only in the last case does the connection get a session.", "quantifier": "every server state, key and session manager answer", "why_tests_cant": "all combinations", "anchors": ["handleSessionRestore.go"]}
{"id": "C37", "title": "Concurrent restoration cannot crash the server", "statement": "However restoration requests of several connections interleave, the server does not panic.", "quantifier": "every interleaving of restoration requests", "why_tests_cant": "needs a particular interleaving between limit check and registration", "anchors": ["handleSessionRestore.go:31", "handleSessionRestore.go:92"]}
{"id": "C38", "title": "Exactly one reply per request, with the request's identifier", "statement": "Every request frame processed on a live connection produces exactly one reply frame and it carries the request's identifier; signals and heartbeats produce none.", "quantifier": "every request frame, every handler result", "why_tests_cant": "all payloads, all handler results", "anchors": ["handleRequest.go", "fulfillMsg.go", "failMsg.go"]}
{"id": "C39", "title": "Handler errors do not leak", "statement": "If a request handler fails with an error that is not ErrRequest, the bytes sent to the client do not depend on the error; ErrRequest is reported with exactly its code and message.", "quantifier": "every error value", "why_tests_cant": "non-interference quantifies over pairs of errors", "anchors": ["handleRequest.go:20", "failMsg.go"]}
{"id": "C40", "title": "Outbound buffer delivers exactly the written bytes or nothing", "statement": "What a memchan writer flushes on Close is exactly the concatenation of the successful writes since it was obtained; a write that does not fit fails and nothing of the message is ever delivered; afterwards the buffer is reusable.", "quantifier": "every sequence of writes and closes", "why_tests_cant": "unbounded sequences and lengths", "anchors": ["transport/memchan/buffer.go"]}
{"id": "C41", "title": "A failed write never wedges the connection", "statement": "After any writer obtained from a connected memchan socket was closed - also after a validation error or overflow - the next writer can be obtained.", "quantifier": "every sequence of WriteMsg* calls with valid or invalid arguments", "why_tests_cant": "depends on the lock state left by each error path", "anchors": ["transport/memchan/buffer.go:Close", "transport/memchan/socket.go:GetWriter"]}
{"id": "C42", "title": "memchan transfers messages in order, exactly once and unmodified", "statement": "The sequence of messages read on one end of a memchan socket pair is a prefix of the sequence flushed on the other end; writers exclude one another.", "quantifier": "every schedule of writers and readers", "why_tests_cant": "all interleavings", "anchors": ["transport/memchan/socket.go"]}
{"id": "C43", "title": "Closing a memchan socket is safe at any time", "statement": "Close can run concurrently with Read and Write without panics, and unblocks every reader and writer.", "quantifier": "every schedule of close with reads and writes", "why_tests_cant": "all interleavings", "anchors": ["transport/memchan/socket.go:Close"]}
{"id": "C44", "title": "A failed Dial leaves the socket disconnected", "statement": "If Dial returns an error then the socket was not connected by that call.", "quantifier": "every server state", "why_tests_cant": "depends on server state at several points", "anchors": ["transport/memchan/socket.go:Dial", "transport/memchan/transport.go:onConnect"]}
{"id": "C45", "title": "Transport shutdown closes every connection", "statement": "After Transport.Shutdown all sockets connected before are disconnected and later dials are refused; a second Shutdown is a no-op.", "quantifier": "every set of connections", "why_tests_cant": "unbounded number of connections", "anchors": ["transport/memchan/transport.go:Shutdown"]}
{"id": "C46", "title": "Session files stay in the session directory and keys do not collide", "statement": "The default session manager maps every session key to a file inside its directory, and different keys to different files.", "quantifier": "every key (including keys sent by clients)", "why_tests_cant": "all strings", "anchors": ["defaultSessionManager.go:filePath", "handleSessionRestore.go:29"]}
{"id": "C47", "title": "The file session manager behaves like a map", "statement": "After OnSessionCreated the session is found by OnSessionLookup with the same creation time and info, and with the previous lookup time, until OnSessionClosed; lookups of other keys are unaffected.", "quantifier": "every history of create, lookup and close", "why_tests_cant": "unbounded histories", "anchors": ["defaultSessionManager.go"]}
{"id": "C48", "title": "A crash does not lose stored sessions", "statement": "A process crash at any point of OnSessionCreated, OnSessionLookup or OnSessionClosed leaves every other session retrievable, and an already stored session retrievable after a crash during its lookup.", "quantifier": "every crash point of every operation in every history", "why_tests_cant": "all crash points", "anchors": ["defaultSessionManager.go:Save", "defaultSessionManager.go:OnSessionLookup"]}
{"id": "C49", "title": "Generated session keys are 64 URL-safe characters and as unique as the random bytes", "statement": "The default key generator returns a 64 character string over A-Z a-z 0-9 - _ and is injective in its 48 random bytes.", "quantifier": "every 48-byte random string", "why_tests_cant": "2^384 inputs", "anchors": ["session.go:generateSessionKey"]}
{"id": "C50", "title": "Session info copies are isolated", "statement": "Copy/Value of the generic session info return a value equal to the original that shares no mutable slice or map with it.", "quantifier": "every (acyclic) value built from maps, slices and scalars", "why_tests_cant": "unbounded nesting and aliasing", "anchors": ["genericSessionInfo.go:deepCopy"]}
{"id": "C51", "title": "Prepared options are in range", "statement": "ServerOptions.Prepare either fails (buffer size 1..31) or yields a buffer of at least 32 bytes, a read timeout of at least one second, sessions enabled or disabled as asked, and running it again changes nothing.", "quantifier": "every option value", "why_tests_cant": "all integers", "anchors": ["serverOptions.go:Prepare"]}
{"id": "C52", "title": "Every client can read the handshake message", "statement": "If NewServer succeeds, the configuration message fits the configured message buffer, so that connections can be established.", "quantifier": "every option value", "why_tests_cant": "all sizes of sub-protocol name and buffer", "anchors": ["newServer.go", "serverOptions.go:86", "handleConnection.go:8"]}
{"id": "C53", "title": "A panicking OnSessionClosed hook does not take the server down", "statement": "If the session manager's OnSessionClosed panics while a session is being destroyed, the panic is recovered and the server continues.", "quantifier": "every connection closing its session as the last one", "why_tests_cant": "the recovering code itself must be exercised in every state", "anchors": ["sessionRegistry.go:85"]}
{"id": "C54", "title": "Session calls on one connection may overlap", "statement": "CreateSession, CloseSession, session requests, Server.CloseSession and disconnection may overlap on one connection without making the server panic.", "quantifier": "every interleaving", "why_tests_cant": "needs particular interleavings", "anchors": ["connection.go:CreateSession", "connection.go:CloseSession", "handleSessionRestore.go:86"]}
{"id": "C55", "title": "Session calls never deadlock", "statement": "In every reachable state each unfinished session call can take a step, or another call concerning the same connection can.", "quantifier": "every interleaving of session calls", "why_tests_cant": "all interleavings", "anchors": ["connection.go", "sessionRegistry.go", "server.go:CloseSession"]}
{"id": "C56", "title": "Overlapping calls of the session manager do not disturb each other", "statement": "Calls of the default session manager's hooks that overlap in time return what they would return one after the other, and leave the same sessions.", "quantifier": "every set of overlapping calls, every interleaving of their system calls", "why_tests_cant": "interleavings of file operations are not controlled by tests", "anchors": ["defaultSessionManager.go:100-169"]}
{"id": "C57", "title": "A closed session stays closed", "statement": "After OnSessionClosed of the default session manager returned without error, lookups of that key find nothing unless the session is created anew.", "quantifier": "every interleaving with other calls", "why_tests_cant": "needs a lookup to overlap with the removal of the file", "anchors": ["defaultSessionManager.go:113-169"]}
{"id": "C58", "title": "The session directory is usable", "statement": "When NewDefaultSessionManager returns, sessions can be stored in its directory, whether it had to be created or not.", "quantifier": "every state of the directory tree, privileged and unprivileged processes", "why_tests_cant": "tests run in one environment, often as root", "anchors": ["defaultSessionManager.go:49-91"]}
{"id": "C59", "title": "Handlers use their own message", "statement": "While a handler runs, its message shows exactly the frame it was called for; its result is sent once, to the connection and with the identifier of that frame; every message read is released exactly once and not used afterwards; no message is in two hands at a time. (Handlers that close the message themselves: C60.)", "quantifier": "every number of connections, every interleaving, every choice of the message pool", "why_tests_cant": "recycled messages are confused only under particular interleavings of several connections", "anchors": ["handleConnection.go:62-85", "handleMessage.go", "handleRequest.go", "handleSignal.go", "handleSessionRestore.go", "message/syncPool.go", "message/message.go:299-314"]}
{"id": "C60", "title": "A handler may close its message", "statement": "The Message interface offers Close() to OnRequest and OnSignal hooks; using it has no effect on the replies to this or other requests.", "quantifier": "every interleaving, every handler result", "why_tests_cant": "needs a recycled message in a second connection", "anchors": ["interfaces.go:300", "message/message.go:299-314", "handleRequest.go"]}
{"id": "C61", "title": "A payload slice is valid until the hook returns", "statement": "The byte slice returned by Message.Payload() has the content of the received frame until the OnSignal or OnRequest hook it was given to returns, whatever else the server does meanwhile.", "quantifier": "every interleaving with other connections and handlers", "why_tests_cant": "the content changes only when the buffer is used again too early", "anchors": ["interfaces.go:64-101", "message/message.go:259-296", "message/syncPool.go", "handleRequest.go", "handleSignal.go"]}
{"id": "C62", "title": "A read fails with a timeout only when its deadline has passed", "statement": "Socket.Read with a deadline returns the message that is waiting or arrives before the deadline; it reports a timeout only at or after its own deadline and only if no message came in time; it returns at the deadline at the latest; without deadline it never times out. A failed Read closes the socket.", "quantifier": "every timing of arriving messages, expiring timers, closing and dialing again, with the timers of Go before and since 1.23", "why_tests_cant": "needs a message to arrive in the instant the timer expires", "anchors": ["transport/memchan/socket.go:163-251", "transport/memchan/newSocket.go:10", "handleConnection.go:67"]}
{"id": "C63", "title": "Session getters agree and can be used by session hooks", "statement": "HasSession, Session, SessionKey, SessionCreation and SessionInfo of a connection tell the same about its session: either there is none (false, nil, \"\", zero time, nil), or there is one whose key is not empty. SessionKey is the key under which the server lists the connection. A getter waits only while CreateSession or CloseSession is changing the session, so OnSessionCreated and OnSessionClosed can use the getters of the connection concerned.", "quantifier": "every interleaving of session calls and session requests", "why_tests_cant": "a deadlock needs the hook of the last connection's CloseSession to use the connection", "anchors": ["connection.go:187-350", "session.go:59-76", "interfaces.go:151-233", "sessionRegistry.go:69-112"]}
{"id": "C64", "title": "Requests and replies find each other", "statement": "A client using the request manager and the server over ordered connections: handlers see what the client's request says, requests arrive in the order sent and are handled at most once; a call of AwaitReply returns the answer the server gave to that very request and no other, positive answers as replies and error answers as errors; no answer sent is lost or doubled, no Fulfill or Fail call gets stuck, and once the client has read everything, every answered request was resolved by its answer unless AwaitReply had given up.", "quantifier": "every number of clients and requests (fewer than 2^64 per client), every interleaving of clients, connections and handlers", "why_tests_cant": "answers are confused only under particular interleavings; identifiers repeat between clients", "anchors": ["requestManager/requestManager.go", "requestManager/request.go", "handleRequest.go", "handleMessage.go", "handleConnection.go:62-85", "message/writeMsgRequest.go", "message/read.go"]}
{"id": "C65", "title": "The server's own work comes to an end", "statement": "Once no new connection, frame, Close or Shutdown call comes in, the server stops working after a bounded number of steps, whatever the schedule and whatever hooks and sockets answer. Then every goroutine has returned or waits for the next frame; every handler called has returned, every message read was handled, refused or ignored and every request answered accordingly, the connect and disconnect hooks were invoked, closed connections were unlinked and Shutdown calls have returned; the server has not panicked.", "quantifier": "every server state, every number of connections, messages and calls, every interleaving", "why_tests_cant": "goroutines that wait for ever show only as a slow leak or a hanging shutdown in rare interleavings", "anchors": ["handleConnection.go:35-85", "handleMessage.go", "registerHandler.go", "deregisterHandler.go", "connection.go:88-140", "connection.go:351-368", "server.go:57-77", "failMsg.go:104-122"]}
{"id": "C66", "title": "Run blocks until the server was shut down", "statement": "Server.Run returns only after Shutdown was called; then every handler has returned and every request given to one was answered, and connections are closed. After Shutdown has returned, every Run call that had begun waiting can return nil, and later ones return an error. A Run begun before Shutdown never returns an error.", "quantifier": "every number of clients, connections and calls of Run and Shutdown, every interleaving of server and in-memory transport", "why_tests_cant": "needs Run to return between two steps of Shutdown", "anchors": ["interfaces.go:43-47", "server.go:44-71", "transport/memchan/transport.go:58-88"]}
{"id": "C67", "title": "Dialed clients and accepted connections correspond", "statement": "The server is handed the server socket of a pair exactly once for every successful Dial; every connection lies over such a socket and its client has read the complete configuration message. Once Shutdown was called new dials fail, and no client is connected any more after Shutdown has returned.", "quantifier": "every number of clients, every interleaving of dials, closing and shutdown", "why_tests_cant": "a dial must overlap with Shutdown", "anchors": ["transport/memchan/transport.go:97-126", "handleConnection.go:8-57", "transport/memchan/socket.go:87-118", "interfaces.go:12-19"]}
{"id": "C68", "title": "A message is handled on the connection it was sent over", "statement": "What the read loop of a connection gets is what the client has sent over that very connection, in order, complete and without gaps; handlers are invoked for such messages only.", "quantifier": "every number of clients, every interleaving of server and in-memory transport", "why_tests_cant": "needs a client to dial again while a handler of its last connection runs", "anchors": ["handleConnection.go:62-85", "transport/memchan/socket.go:163-251", "transport/memchan/buffer.go"]}
{"id": "C69", "title": "A reply reaches the client that sent the request, complete, or not at all", "statement": "The reply to a request is written to the connection the request came from: the transport delivers all of it at most once; if it reports success the client has read it. Over the connection, the client reads what the handler returned for that request, with the identifier it had sent.", "quantifier": "every number of clients and requests, every interleaving of handlers, clients, closing and shutdown", "why_tests_cant": "writers, readers and handlers interleave in many ways", "anchors": ["fulfillMsg.go", "failMsg.go", "failMsgShutdown.go", "handleRequest.go", "transport/memchan/socket.go:66-85", "transport/memchan/buffer.go"]}
{"id": "C70", "title": "Sessions survive disconnects and restarts until they are closed", "statement": "With the default session manager, a session reported as created by CreateSession can be restored by any client knowing its key, after any number of disconnects and restarts of the server, until it is closed; the client is told the key, creation time, time of the last lookup and info of that session. Requests for other keys, and for sessions that were closed, are refused as not found; a full session is refused as such.", "quantifier": "every number of connections, clients, sessions, processes one after the other, every interleaving of session calls, requests and system calls", "why_tests_cant": "needs restarts, and calls of hooks that overlap", "anchors": ["connection.go:CreateSession", "connection.go:CloseSession", "handleSessionRestore.go", "sessionRegistry.go", "defaultSessionManager.go"]}
{"id": "C71", "title": "Session calls come to an end", "statement": "Every call of CreateSession, CloseSession, session restoration, registry lookup or disconnect makes at most seven steps of its own, and Server.CloseSession a number bounded by the connections of its session, whatever the schedule and the answers of hooks and sockets. Calls never wait for each other in a circle: unless the server panics, some call can go on whenever one has not returned, and when none can, all have returned and no connection's session is locked.", "quantifier": "every number of connections and calls, every interleaving, every answer of hooks, sockets and the application", "why_tests_cant": "a deadlock needs one of very many interleavings; absence of endless runs is no test's observation", "anchors": ["connection.go:CreateSession", "connection.go:CloseSession", "connection.go:setSession", "handleSessionRestore.go", "sessionRegistry.go", "server.go:CloseSession"]}
{"id": "C72", "title": "Calls on the in-memory transport wait only for their peers", "statement": "When no call on a connected or disconnected pair of in-memory sockets can go on, every unfinished call waits for something only the application can provide: a writer for a Read at the other end while none is in progress, a Read without deadline for a message while none is being sent, a GetWriter for an earlier writer, a Read for an earlier Read. A writer and a reader of the same direction never wait for each other; Close, Dial and Shutdown never wait. Calls make a bounded number of steps apart from writes.", "quantifier": "every number of pairs and calls, every interleaving", "why_tests_cant": "a missed rendezvous needs one of very many interleavings of four goroutines", "anchors": ["transport/memchan/socket.go", "transport/memchan/buffer.go", "transport/memchan/transport.go:Shutdown"]}
{"id": "C73", "title": "In-memory sockets are made in pairs and can be told apart", "statement": "Every socket NewSocket or NewEntangledSockets returns is one end of a pair: each end's remote address is the other, both are connected or neither is, and only Dial and Close at one of the two ends and the transport's Shutdown change that. A socket made without a server answers every call for ever as disconnected. The server is handed exactly one socket per successful Dial, the remote end of the one that dialed, with the options OnBeforeCreation returned in that call; Connection.RemoteAddr, Info and Creation tell exactly these. No call panics unless the transport was given no buffer size. RemoteAddr is nil while a socket is not connected.", "quantifier": "for every sequence of calls on any number of transports and sockets, every buffer size, every hook result and every order in which Shutdown walks its map", "why_tests_cant": "Tests dial a pair or two and close them; that no sequence of calls mixes up the ends of different pairs, or makes a panic possible, is a statement about all sequences and any number of sockets.", "anchors": ["transport/memchan/newSocket.go", "transport/memchan/entangleSockets.go", "transport/memchan/newEntangledSockets.go", "transport/memchan/clientTransport.go", "transport/memchan/remoteAddress.go", "transport/memchan/socket.go", "transport/memchan/transport.go", "connection.go"]}
{"id": "C74", "title": "A server over the in-memory transport waits only for its clients", "statement": "A goroutine of the server can always go on unless it has returned, its call of the transport has not returned, its connection has no free slot, or it is Shutdown waiting for handlers. Without new calls, server and transport together come to rest after a bounded number of steps, however goroutines are scheduled. Then every goroutine of the server has returned, or it waits - directly, for a slot or for a handler - for a client that does not read what it was sent; if there is none, Shutdown and Run have returned. Requests for sessions are answered over the socket of their connection.", "quantifier": "for every interleaving of any number of clients, connections, handlers, calls of Run, Shutdown and Close, every buffer size and configuration message, and every state they can reach", "why_tests_cant": "A test that hangs tells nothing about why, and one that does not hang is one schedule; that nothing but a client can keep the server waiting, and that activity dies down in bounded many steps, is about all interleavings of goroutines of server and transport.", "anchors": ["server.go", "handleConnection.go", "handleMessage.go", "registerHandler.go", "deregisterHandler.go", "connection.go", "transport/memchan/socket.go", "transport/memchan/transport.go", "transport/memchan/buffer.go"]}
{"id": "C75", "title": "Shared state is accessed without data races", "statement": "No two goroutines of a program using the library access one of its shared fields - the server's, its connections', sessions', the session registry's, the semaphore's, the request manager's, the in-memory transport's - at the same time unless both only read it or both use sync/atomic; each lock is unlocked only by a goroutine that holds it.", "quantifier": "for every number of goroutines calling the API and goroutines of the server, every connection, socket and request manager, every interleaving, including calls made by hooks", "why_tests_cant": "The race detector sees only the interleavings that happen in the run it watches; that none of the accesses can ever meet is about all pairs of calls and all schedules.", "anchors": ["connection.go", "sessionRegistry.go", "server.go", "semaphore.go", "registerHandler.go", "deregisterHandler.go", "handleSessionRestore.go", "handleSessionClosure.go", "handleConnection.go", "requestManager/requestManager.go", "transport/memchan/socket.go", "transport/memchan/buffer.go", "transport/memchan/transport.go"]}
{"id": "C76", "title": "Locks are taken in one order and given back", "statement": "Goroutines never wait for each other's locks in a circle: from every state all calls can run to their end as far as locks are concerned, even if readers never overtake waiting writers; when all have returned no lock is taken. Hooks may call the library.", "quantifier": "for every number of goroutines and objects, every interleaving, every call a hook makes", "why_tests_cant": "A deadlock needs several goroutines to stop at just the wrong points, and a lock that is not given back shows only when somebody wants it later.", "anchors": ["connection.go", "sessionRegistry.go", "server.go", "semaphore.go", "registerHandler.go", "deregisterHandler.go", "handleConnection.go", "requestManager/requestManager.go", "transport/memchan/socket.go", "transport/memchan/buffer.go", "transport/memchan/transport.go"]}
{"id": "C77", "title": "Error values tell what happened", "statement": "The error returned when a request's context is done is a timeout by IsErrTimeout exactly if the context's deadline passed, and a cancellation by IsErrCanceled exactly if the context was canceled; nothing else is taken for either. Every error the library makes can be printed, the text of an error ends with the text of its cause, and Error() panics only for errors that have no cause to speak for. A handler's error tells the client its code and message if it is an ErrRequest or points to one, and nothing otherwise.", "quantifier": "for every error value, wrapped to any depth, behind pointers or nil, and for foreign error types", "why_tests_cant": "Errors can be nested without end, and the interesting values (nil causes, nil pointers, look-alikes of context errors) are the ones tests do not build.", "anchors": ["errors.go", "translateContextError.go", "transport/memchan/sockReadErr.go", "requestManager/request.go", "failMsg.go", "handleRequest.go"]}
{"id": "C78", "title": "In-memory calls fail for the reason they report", "statement": "Read reports a closed socket only if somebody else closed it, a timeout only if it was given a deadline, a bad message only if the bytes it read were rejected; GetWriter and Close of a writer report a closed socket only if it is closed and a missing message only if nothing was written; Dial reports what it met: refusal by the hook, a connected socket, a server shutting down or shut down. Conversely calls that look at a closed socket fail with the errors for closed sockets.", "quantifier": "for every number of sockets and calls, every interleaving", "why_tests_cant": "The wrong reason is reported only when a call overlaps with Close and Dial at particular points.", "anchors": ["transport/memchan/socket.go", "transport/memchan/buffer.go", "transport/memchan/transport.go"]}
{"id": "C79", "title": "A reply shows its message until it is closed", "statement": "The reply returned by AwaitReply shows payload, encoding and text of the frame that was received for its request, and goes on showing them whatever other requests, replies and received frames do, until it is closed; no two replies share a message, and Close gives the message back to the pool emptied, once. Methods of a reply returned without an error do not panic, and a closed reply shows nothing of other messages.", "quantifier": "for every number of requests, replies and received frames, every interleaving of the reader, the manager's calls and the callers, every choice of messages by the pool", "why_tests_cant": "Mixing up two pooled messages needs a message to be reused while somebody still looks at it, which depends on what the pool hands out and on the order of calls of different goroutines.", "anchors": ["requestManager/reply.go", "requestManager/request.go", "requestManager/requestManager.go", "message/syncPool.go", "message/message.go", "payload/payload.go"]}
{"id": "C80", "title": "Session files are JSON texts the sessions can be read back from", "statement": "The default session manager writes each session as a JSON text with the fields c, l and i, entries of maps in the order of their names, strings escaped; it fails to write exactly if a time has no text or the info holds something JSON cannot express. Reading accepts exactly the JSON texts whose members fit the fields, in any order, and a file that was cut short is never taken for a session. A session that was written is read with its times and with an info of the same entries and values.", "quantifier": "for every info built of nil, booleans, integers, floats, strings, slices and maps to any depth, every file content", "why_tests_cant": "Infos are trees of any shape with any bytes in their strings; what escaping, invalid UTF-8, equal names and nested values come to after writing and reading is about all of them.", "anchors": ["defaultSessionManager.go"]}
{"id": "C81", "title": "Clients are told their session", "statement": "The session object sent to a client after CreateSession and after a restoration is a JSON text in UTF-8 from which the client reads the key, the times and the info of the session; the info is left out if it is empty.", "quantifier": "for every session key, every pair of times, every info", "why_tests_cant": "Keys come from user-defined generators and infos from user code; that no key and no info breaks the text or comes out differently is about all byte strings.", "anchors": ["session.go", "connection.go", "handleSessionRestore.go"]}
{"id": "C82", "title": "Errors say what is wrong", "statement": "Each writer of messages rejects bad arguments with an error whose text names the first thing that is wrong with them (and the text of the error of Close, if that fails too), having written nothing; otherwise it returns the error of the first call of the io.WriteCloser that failed, unchanged unless Close fails behind it. A frame that is read gives an error if and only if it is malformed, and the text says how; Socket.Read passes it on as an error that is not a close error.", "quantifier": "for all arguments of the writers, all errors an io.WriteCloser may return at any call, all frames and all buffer sizes", "why_tests_cant": "The texts depend on the order of the checks, on lengths and on bytes of the arguments, and on which of the calls fail; tests look at a few lengths and seldom at the text.", "anchors": ["message/writeMsgSignal.go", "message/writeMsgRequest.go", "message/writeMsgReply.go", "message/writeMsgErrorReply.go", "message/writeMsgSpecialRequestReply.go", "message/parse.go", "message/read.go", "transport/memchan/socket.go", "connection.go"]}
{"id": "C83", "title": "The logs tell what failed", "statement": "Whenever a reply, an error reply or a configuration message cannot be sent, a hook returns an error that is not meant for the client, or a socket fails other than by being closed, the server logs one entry with the text of that error, ending in a newline; otherwise it logs nothing.", "quantifier": "for all messages, replies and errors, and all errors the transport may return at any call", "why_tests_cant": "Which entries appear depends on which of the calls of the transport fails and on error values of user code; errors of the transport are hardly ever provoked in tests, and logs are not looked at.", "anchors": ["failMsg.go", "fulfillMsg.go", "handleRequest.go", "handleConnection.go", "handleSessionRestore.go", "handleSessionClosure.go", "sessionRegistry.go", "newServer.go", "connection.go"]}
{"id": "C84", "title": "Session functions say why they failed", "statement": "CreateSession, CloseSession, the hooks of the default session manager and NewDefaultSessionManager return (or panic with) the error of the first thing that failed, with a text that says what was attempted, and do nothing after it: a session that could not be announced is not set, its hook is not called, a session file that could not be read is not written. A failing file system shows in the server's log with the text of its error.", "quantifier": "for all errors the file system, encoding/json and the connection may return, at any call", "why_tests_cant": "Failing disks, encoders and connections are not provoked in tests, and each combination leads to another error and another state.", "anchors": ["connection.go", "defaultSessionManager.go", "handleSessionRestore.go"]}
{"id": "C85", "title": "Starting and stopping say why they failed", "statement": "NewServer returns no server exactly when the implementation or the transport is missing, the message buffer is smaller than 32 bytes, the read timeout does not fit 32 bits of milliseconds, or the transport cannot be initialized, and its error names the first of these, with the numbers, the duration and the transport's own error written out; otherwise it returns the server the options describe. Shutdown passes the transport's error on with its text. Server.CloseSession asks every connection of the session in turn, keeps each connection's error at the place of the connection, and counts the failures in the general error, which is nil exactly if there are none.", "quantifier": "for all options, all errors of the transport, all durations of a second or more, any number of connections failing in any pattern", "why_tests_cant": "Tests start servers with a few good options; limits of 32-bit milliseconds (49 days), odd durations and partly failing closures do not occur.", "anchors": ["newServer.go", "serverOptions.go", "message/newAcceptConfMessage.go", "server.go"]}
{"id": "C86", "title": "What a message function returns over an in-memory socket, and what it leaves behind", "statement": "Over a socket of the in-memory transport, each function writing a message hands the peer exactly its frame, once, if the arguments are valid and the frame fits the outbound buffer, returns what the peer's reader reports, and leaves the socket ready for the next; if the socket was closed in between it sends nothing, returns \"can't write to a closed socket\", and leaves it ready. If the frame is larger than the buffer it sends nothing and returns \"message buffer overflow: no data written\"; if the arguments are invalid it sends nothing and returns their error followed by \": no data written\"; in both cases buffer and writer stay locked, and every later GetWriter blocks. Connection.Signal finds a signal too long before it takes the writer, and then the writer is untouched; CreateSession does not, and a session larger than the buffer locks the socket.", "quantifier": "for all buffer sizes, messages sent before, names, payloads, encodings, identifiers and session infos, connected or not, any answer of the peer's reader", "why_tests_cant": "A test that sends one message too large sees the error it expects; that no later message gets through shows only as a hang elsewhere.", "anchors": ["transport/memchan/buffer.go", "transport/memchan/socket.go", "message/writeMsgSignal.go", "connection.go"]}
{"id": "C87", "title": "Answers an in-memory connection cannot carry are logged, and are its last", "statement": "Over the in-memory transport the server's answer to a request, a session restoration or a session closure reaches the peer as exactly one frame if it fits the outbound buffer and the socket is not closed meanwhile, and nothing is logged unless the peer's reader reports an error, which is. An answer larger than the buffer, a reply whose UTF-16 payload has an odd number of bytes, and an error reply whose code is missing, too long or not printable send nothing, are logged with that reason followed by \"no data written\", and leave the connection unable to send: every later answer blocks when it asks for the writer. The internal-error, session and shutdown replies are frames of one byte and the identifier.", "quantifier": "for all buffer sizes, requests, payloads, errors of handlers, session objects, connected or not, any answer of the peer's reader", "why_tests_cant": "Tests use handlers that return small valid answers; an error without a code or an answer above the buffer size makes the next request time out, far from the cause.", "anchors": ["handleRequest.go", "handleSessionRestore.go", "handleSessionClosure.go", "failMsg.go", "fulfillMsg.go", "transport/memchan/buffer.go"]}
{"id": "C88", "title": "A series of messages over an in-memory connection ends at the first that is faulty or too large", "statement": "Whatever messages are sent one after the other over a connected in-memory socket, the frames of all those before the first message that is malformed or larger than the outbound buffer reach the peer, in order and unaltered, and each of these calls returns what the peer's reader reports. That first bad message sends nothing and returns its reason followed by \"no data written\", and every call after it blocks for ever. Only an unchecked error code of more than 255 bytes panics instead, once the bytes before it were written. If there is no such message the socket is as ready at the end as at the start. Over a closed socket every call returns a disconnected error and nothing changes; a valid message whose socket is closed between getting the writer and closing it is not sent, returns that the socket is closed, and does not stop later ones.", "quantifier": "for all series of messages of any length and kind, all buffer sizes, all earlier traffic, any answers of the peer's reader", "why_tests_cant": "Tests send a handful of valid messages; the state left behind by a failed message shows only in the calls after it, which hang rather than fail.", "anchors": ["transport/memchan/socket.go", "transport/memchan/buffer.go", "message/writeMsgSignal.go", "message/writeMsgRequest.go"]}
{"id": "C89", "title": "The configuration message and the end of a session over an in-memory connection", "statement": "Over the in-memory transport a connection is served if and only if its configuration message went out as one frame and the peer's reader reported no error; otherwise the reason is logged, the socket is closed, and an error of that closing is logged too. CloseSession leaves the connection without a session whatever becomes of the notification, sends the one-byte session-closed frame if the socket is still connected and returns what the peer's reader reports or that the socket is closed; an error of the OnSessionClosed hook is logged without its text.", "quantifier": "for all buffer sizes, configuration messages, session keys, hook results, connected or not, any answer of the peer's reader", "why_tests_cant": "A socket that closes between accepting a connection and writing its first message needs exact timing; what is logged is not looked at by tests.", "anchors": ["handleConnection.go", "connection.go", "newServer.go", "transport/memchan/buffer.go"]}
{"id": "C90", "title": "Messages sent over an in-memory connection are read as they were meant", "statement": "If a series of messages is sent one after the other over a connected in-memory socket and each is valid and fits the outbound buffer, the peer receives exactly one frame for each, in that order, and reading them yields the type, identifier, name, payload and encoding that were given (error replies are read as binary). If the socket is closed for some of the calls, the peer receives and reads exactly the others. Of all messages the message functions send, the peer accepts exactly those: a signal with neither name nor payload, a UTF-16 signal without a payload, an error reply written without checks and without a code, an empty session object, an empty session key and a session closure with a payload are sent without an error, but refused by the reader.", "quantifier": "for all series of messages of any length and kind, all buffer sizes at least as large as each frame, any answers of the peer's reader, any message object read into", "why_tests_cant": "Round-trip tests use few messages of each type, and none checks which of the sent messages cannot be read.", "anchors": ["transport/memchan/socket.go", "transport/memchan/buffer.go", "message/read.go", "message/parse.go", "message/writeMsgSignal.go"]}
{"id": "C91", "title": "One bad answer over an in-memory connection leaves all later requests unanswered", "statement": "Requests handled one after the other over a connected in-memory socket are each answered with exactly one frame, in order: a reply with the handler's payload, an error reply with its code and message, or an internal-error reply for any other error. The first request whose answer is malformed (odd UTF-16 payload, missing, too long or unprintable error code) or larger than the outbound buffer gets no answer, though its handler ends; the handlers of all requests after it wait for the writer for ever, so they are never deregistered.", "quantifier": "for all series of requests of any length, all payloads and errors returned by the handler, all buffer sizes, all earlier traffic, any answers of the peer's reader", "why_tests_cant": "Tests use handlers with valid small answers; the effect shows only in requests after the failing one, and as a hang.", "anchors": ["handleRequest.go", "fulfillMsg.go", "failMsg.go", "transport/memchan/socket.go", "transport/memchan/buffer.go"]}
