# webwire-go: formal model and proofs (Rocq / Coq 8.16.1)

Layout (flat, everything in `rocq/theories`):

| prefix   | contents |
|----------|----------|
| `Base*`  | bytes, little-endian numbers, Go slices, small list lemmas |
| `Model*` | executable model of the Go code, each definition cites file and lines of /repo |
| `Spec*`  | small, independent statements of what is promised (wire grammar, UTF-16/UTF-8 tables, maps, sets, counters) |
| `Proof*` | lemmas and proofs |
| `Props*` | the property theorems only (`exact lemma`), each followed by `Print Assumptions` and a concrete `Example` |

Conventions

* A Go panic is an explicit outcome (`None` / `Panic`), never an absent case.
* `[]byte` values that alias a buffer are modelled as views (offset, length) into the
  buffer where aliasing matters; Go's `s[a:b]` is checked against the *capacity*.
* Goroutines are state machines; concurrency is an arbitrary list of steps (every
  interleaving), one step per atomic action of the Go code (lock-protected section,
  atomic operation, channel operation).
* Errors are values; only what a caller can observe (nil or not, and the class of the
  error where the code branches on it) is kept; the texts of errors are in ModelErrors (C77) and ModelReport (C82).
* A property that the unchanged code violates is stated in full, refuted by a concrete
  witness (`*_refuted`), and the strongest true part is proved (`*_partial` if it is
  weaker than the English statement).

Plan per property

| id | modelled | proof |
|----|----------|-------|
| C01-C03 | ReadBytes, parse and all parse* functions over a reused buffer with capacity slicing | equality with an independent wire grammar for all byte strings and all old buffer contents; no `None` outcome |
| C04-C09 | all WriteMsg* functions over an abstract writer | bytes written = layout given by the grammar; round trip through ReadBytes |
| C10 | NewAcceptConfMessage (int64 durations) / parseAcceptConf | arithmetic, LE round trip |
| C11 | WriteMsg* over a writer with arbitrary failure oracle, logging calls | induction over the chunk list |
| C12, C13 | CalcMsgLen*, validation | functional equivalence |
| C14 | Message record with all fields, Close, pooled reuse | equality for fresh/closed messages, refutation for un-closed reuse |
| C15 | Buffer.Read over scripted readers | induction over the script |
| C16 | SyncPool with explicit messages and holders | invariant over histories |
| C17 | Payload.Utf8, utf16.Decode on one unit, utf8.EncodeRune | against an independent UTF-8 decoder (RFC 3629 table) and UTF-16 decoder |
| C18-C21 | requestManager as interleaved threads | invariants, refinement to a map |
| C22 | vendored semaphore | invariant over histories |
| C23-C29 | registerHandler/deregisterHandler/handleMessage/handleConnection/Shutdown/Close as interleaved machine | invariants over all schedules; witnesses for refutations |
| C30-C37 | session registry, Connection session API, restore handling | refinement to a map, invariants, interleaving witness |
| C38, C39 | handleMessage bytes-in bytes-out composed from the codec model | functional theorem, non-interference |
| C40-C45 | memchan Buffer, Socket, Transport | refinement, invariants over schedules |
| C46-C48 | defaultSessionManager over a model file system, filepath.Join/Clean | functional theorems, crash-point quantification |
| C49 | base64 URL encoding of 48 bytes | injectivity by an independent decoder |
| C50 | deepCopy over a heap with aliasing | structural induction |
| C51, C52 | ServerOptions.Prepare, NewServer | case analysis |

| C53-C55 | ModelSession (above): panicking hook, overlapping calls, progress | witnesses; a measure of the lock holders for progress |
| C56-C58 | hooks of the file session manager as interleaved system calls; os.MkdirAll with permissions | commutation of calls with different keys, witnesses |
| C59-C61 | pool, read loops and handlers of all connections in one machine (ModelServe) | ownership invariant over all schedules, event log |
| C62 | memchan Socket.Read with clock and timer (ModelTimer), both timer semantics | invariant over timed runs, bounded termination, refuting run |
| C63 | session getters (ModelGetter) over the states of ModelSession | lock and key invariants; hooks as states of the calling thread; blocked continuation |
| C64 | request managers of all clients, ordered connections and the server in one machine (ModelLink over ModelRequests and ModelServe) | product invariant: frames read by the server are a prefix of those sent, frames read by the client are the answers in the log, one Fulfill or Fail per answer |
| C65 | the dispatch machine (ModelDispatch) without new inputs | rank function: every own step lowers the sum of ranks; at rest, the counting invariants of C23-C29 and C38 have no work term left; exact case analysis of panicking steps |
| C66-C69 | server (ModelDispatch) over the in-memory transport (ModelMemchan) in one machine, and Server.Run (ModelStack) | product invariant: which call of the transport a server thread is in, what its writer is to write, from which channel a loop reads; projections to the runs of both machines; refuting runs |
| C70 | sessions (ModelSession), session getters (ModelGetter) and the hooks of the default session manager (ModelFiles) in one machine, with restarts of the process (ModelKeep) | files against returned calls of hooks (C56 per call), calls against the server's log, answers against calls; refuting runs |
| C71 | sessions (ModelSession) | measure that every step decreases; some lock holder can always step; per-call count of steps |
| C72 | in-memory transport (ModelMemchan) | lock holders and stages of a direction at rest; per-call count of steps; refuting runs for impolite Close |
| C73 | sockets as pointers on a heap: making, pairing, dialing and closing them one call at a time (ModelSocket) | refinement to links with two ends; per-call case analysis; induction over histories |
| C74 | server over the in-memory transport: what goroutines wait for, rest, bound on steps (ModelStack) | liveness by case analysis over ownership of calls; weighted sum over threads of both machines as termination measure |
| C75 | every function as a sequence of lock operations and accesses to shared fields (ModelAccess) | weakest-precondition analysis over multisets of held locks with a frame rule; invariant tying what goroutines hold to the state of the locks; the bytes of transport buffers: invariant of messages in flight (ModelMemchan) |
| C76 | the same model: order of locks, locks given back | the same analysis with exact holds and ranks of locks; chain of waiting goroutines has growing ranks; measure on what is left to do |
| C77 | error values: texts, kinds, translation of context errors (ModelErrors) | case analysis; induction on the depth of causes |
| C78 | in-memory transport: the state in which a call fails (ModelMemchan) | invariant: a call that found its pair closed is in progress, so nobody dials the pair meanwhile |
| C79 | replies over pooled messages: manager, pool and reader together (ModelReply) | invariant: messages held, on their way and in open replies form a list without duplicates, related by permutation from move to move |
| C80 | encoding/json as the default session manager uses it (ModelJson) | grammar of JSON texts as inductive relations, parser sound and complete for it; printing, quoting and reading characterised by relations; the `faithful` codec that C47 to C57 assume is proved for it |
| C81 | the session object told to clients (ModelJson) | the same; the key by UTF-8 coercion |
| C82 | error values of the writers, of Connection.Signal, of the parsers and of Socket.Read (ModelReport) | against a writer that returns any error at any call; the texts given by inductive relations over arguments and frames; agreement with ModelWrite for any writer |
| C83 | entries of the server's logs (ModelLog) | against a writer that returns any error at any call, over C82; agreement with the replies of ModelHandle; refuted for OnSessionClosed, whose error text is not logged and whose panic is not either |
| C84 | error values of CreateSession, CloseSession and the default session manager (ModelFault) | against a file system, a codec and a connection that return any error; calls and errors given by inductive relations; agreement with the hooks of ModelFiles over any file system, and with a thread of ModelSession that runs alone (SpecAgree) |
| C85 | error values of NewServer, NewAcceptConfMessage, Shutdown and Server.CloseSession; time.Duration.String from a second up (ModelStart) | exact cases with texts; the text of a duration is unique; servers returned agree with ModelOptions; closing over any state and any outcome per connection |
| C86 | the writers of ModelReport over the buffer and socket of the in-memory transport (ModelSend) | for any buffer size and any answer of the remote reader: frame sent, error and locks left; Connection.Signal and CreateSession over it; agreement with the writers of ModelMemchan, step by step and in any run (SpecSend2) |
| C87 | the handlers of ModelLog over the socket of ModelSend | C83's cases with the frame sent, the entries and the locks left |
| C88 | `send_all` (SpecSeries): GetWriter of ModelSend and the functions of ModelReport, one message after the other | relation `series` between messages, frames and results; an unchecked error code above 255 bytes panics (C22) and is left out by `sensible` |
| C89 | `start` of ModelLog and `CloseSession` of ModelFault over the socket of ModelSend | the frame sent, the entries, whether the connection is served, the locks left; a configuration message that does not fit cannot happen with the server's own message and smallest buffer (C85) but is covered; a panicking OnSessionClosed hook is left out (C83, C84) |
| C90 | `send_all` of C88 and `ReadBytes` of ModelMessage | relation `meant` between messages and their contents; reading is by C03, identifiers have eight bytes |
| C91 | `answer_all` (SpecInTurn): GetWriter of ModelSend and `handleRequest` of ModelLog, one request after the other on a connected socket | relation `answers` between requests, frames and handlers that end or wait; entries are in C87; a nil *ErrRequest panics (C83) and is left out by `proper`; concurrent handlers are in C86_any_run |

## Trusted base

* The kernel of Coq 8.16.1 (`coqc`; `coqchk` re-checks the compiled files).
* No axioms: `Print Assumptions` stands after each theorem of the `Props*` files and answers
  "Closed under the global context" for every one of them (all theorems listed in
  MANIFEST.json). `coqchk -o` additionally lists seven constants of the standard library's
  `Coq.ssr.ssrunder.Under_rel`; these are the opaque module of ssreflect's `under`, loaded with
  the standard library files, and no theorem depends on them.
* No `Admitted`, no `Parameter`/`Axiom`, no section-less `Variable`/`Hypothesis`, no functors, no
  kernel checks switched off, no extraction, no plugins.
* The definitions in `Model*` say what the Go code does, and those in `Spec*` what is promised.
  Nothing connects the model to the Go source but reading: every definition cites file and
  lines, and the simplifications are listed at the head of each file and below.

## What is modelled

| Go code | model | left out or simplified |
|---------|-------|------------------------|
| message/buffer.go, message.go, newMessage.go, read.go, parse*.go | ModelMessage, ModelStream | error texts (they are in ModelReport) |
| message/writeMsg*.go, calcMsgLen.go, newAcceptConfMessage.go, messageParts.go | ModelWrite | writers are abstract (any sequence of failures) |
| message/syncPool.go, pool.go | ModelPool | sync.Pool may return any free message or a new one |
| payload/payload.go, encoding.go | ModelPayload, ModelMessage | utf16.Decode and utf8.EncodeRune only on single units (as called) |
| requestManager/*.go, translateContextError.go | ModelRequests | messages are opaque to the manager |
| requestManager/reply.go | ModelReply | over the manager of ModelRequests and the pool of ModelPool; the goroutine that reads frames and gives them to Fulfill is the user's (no client in this repository), it is bound only by the rules in SpecReply |
| vendor/.../semaphore.go | ModelSemaphore | int64 as Z (no overflow for weights >= 0) |
| handleMessage.go, handleRequest.go, handleSignal.go, failMsg.go, fulfillMsg.go, errors.go | ModelHandle | log output (it is in ModelLog); error types as a sum type |
| handleConnection.go, registerHandler.go, deregisterHandler.go, server.go (Shutdown), connection.go (IsActive, Close, unlink, tasks), isShuttingDown.go | ModelDispatch | semaphore by its specification (C22); session parts one step |
| the same functions, following the message instead of the counters | ModelServe | when messages are refused is left open (any time) |
| sessionRegistry.go, connection.go (sessions), handleSessionRestore.go, handleSessionClosure.go, server.go (sessions), session.go | ModelSession, ModelKey | session info opaque; only OnSessionClosed may panic |
| genericSessionInfo.go, sessionInfoToVarMap.go, session.go (Clone) | ModelCopy | map keys are strings or nil; recursion by fuel |
| serverOptions.go, newServer.go, handleConnection.go:8-46 | ModelOptions | loggers, hooks opaque |
| defaultSessionManager.go | ModelFiles, ModelPath, ModelDir | JSON is a codec parameter (ModelJson is one that fits, C80_faithful); no symbolic links; one file system |
| encoding/json (Go 1.11) as called by defaultSessionManager.go:13-41, connection.go:247-256, handleSessionRestore.go:59-71 | ModelJson | infos hold nil, booleans, integers, floats, strings, slices and maps, no pointers, structs, byte slices or types with methods; how floats and times are printed and read is a parameter bound by `sound`; errors are not told apart |
| transport/memchan/*.go | ModelMemchan | timers may fire at any time; making and pairing sockets, RemoteAddr, sockets without a server and connection.go:53-85, 141-157 are in ModelSocket, where calls do not overlap; Address not modelled; Serve is in ModelStack |
| transport/memchan/socket.go:163-251 once more, with time | ModelTimer | one Read at a time; messages appear in the reader channel; Go timers before and since 1.23 |
| connection.go:299-349, session.go:59-76 | ModelGetter | a getter is one atomic reading, or waits; info objects opaque (their copies: ModelCopy) |
| requestManager, server and message reading/writing put together | ModelLink | there is no client in the repository: it follows the request manager's comments; connections are reliable queues; a frame is a request or reply by its type byte; handlers do not close messages |
| server.go (Run, Shutdown), handleConnection.go, transport/memchan/*.go put together | ModelStack | content of replies to session requests and the options of a connection are arbitrary; a call of the transport and the return from it are separate steps |
| connection.go, handleSessionRestore.go, sessionRegistry.go and defaultSessionManager.go put together | ModelKeep | OnSessionClosed reads the key and begins in one step; session info objects are opaque; a restart keeps the files as they are (no loss of written data) |
| all of the above once more, as locks and accesses to shared fields | ModelAccess | values are left out (conditions may come out either way); goroutines of the library may start at any time; fields written only before their object is shared, messages, channels and objects of the user are left out; the payload bytes of a transport buffer are handed over by channel operations: races on them are a matter of ModelMemchan (C75_bytes_*) |
| errors.go, translateContextError.go, transport/memchan/sockReadErr.go, the type switches of failMsg.go and handleRequest.go | ModelErrors | errors of foreign types are known by their text only (or the panic of their Error()); what package fmt prints for an error whose Error() panics is a parameter; `made` lists the places that make errors |
| message/writeMsg*.go, message/parse*.go, read.go, connection.go:159-186, socket.go:234-250 once more, with error values | ModelReport | the errors of the io.WriteCloser and of GetWriter are arbitrary; `parse_text` gives the text for each error of ModelMessage's parsers; io.Reader errors and deadlines are in ModelMemchan |
| failMsg.go, fulfillMsg.go, handleRequest.go, handleConnection.go, handleSession*.go, newServer.go:74-84, sessionRegistry.go:84-98, connection.go:230-232 once more, with what is logged | ModelLog | entries without the loggers' prefix and flags; %p of a connection and %v of a session object are parameters; one call at a time |
| connection.go:188-297, defaultSessionManager.go once more, with error values | ModelFault | calls do not overlap; ioutil.WriteFile is one call; what registering does is in ModelSession |
| newServer.go:13-95, serverOptions.go:86-97, message/newAcceptConfMessage.go, server.go:38-45, 88-125 once more, with error values | ModelStart | Connection.CloseSession is any function here (ModelFault has it); Duration.String from one second up |
| transport/memchan/buffer.go:40-64, socket.go:71-85, 121-135 once more, with error values | ModelSend | one caller at a time (writerLock excludes others; the goroutines are in ModelMemchan); the remote reader always answers, with any error |

Not modelled: `Server.Address`, `Transport.Address`, `SessionLookupResult` getters, `String()` texts, Go's memory
model below the level of locks, atomics and channels (the other models take every step as
atomic; which accesses can race is the subject of ModelAccess alone, C75), the garbage collector, the scheduler's fairness (liveness is stated as
"enabled", never as "eventually"), other transports, the rest of encoding/json, and the tests.

## Mutation tests

`seeded/LOG.jsonl` has one line per deliberately wrong edit of a model definition: the edit, the
English claim it breaks, the theorems that no longer prove, and what was tightened when none
failed.
