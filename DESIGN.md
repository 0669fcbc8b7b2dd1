# Formal model of klaatu01/neutron in Rocq (Coq 8.16.1)

`properties.jsonl` lists the properties in English, `MANIFEST.json` the theorems that prove each
one, `seeded/LOG.jsonl` the wrong programs the theorems were tried on. Everything formal is in
`rocq/theories/` (logical name `Verif`) and uses the Coq standard library only.

## 1. Files

Model (every definition cites the lines of /repo it models; where it simplifies, its comment says so):

| file | models | contents |
|------|--------|----------|
| `Bytes.v` | - | bytes (`Coq.Init.Byte`), big-endian integers, list utilities |
| `Errors.v` | `src/error.rs` | error kinds, rendering, `outcome` = `Ok`/`Err`/`Panic` |
| `Wire.v`, `Utf8.v`, `Proto.v` | protobuf 3.x crate | varints, tags, raw fields; UTF-8; dynamic messages: writer, size, parser with recursion limit, initialisation check, getters |
| `ProtoTable.v` | `src/protos/pulsar.proto` | descriptor table of all messages and enums, generated by `tools/gen_proto.py` |
| `Crc.v` | crc32c crate | bitwise CRC-32C |
| `Codec.v` | `src/codec.rs`, `ConnectionStream::next` | `encode`, `decode`, the `Framed` read loop over arbitrary reads |
| `Sink.v` | `ConnectionStream::send`, `Framed` sink of tokio_util | write buffer, flush over a transport that takes, stalls or fails |
| `Address.v` | `src/broker_address.rs`, `PulsarConfig` | addresses, TLS choice, proxy target, decimal rendering |
| `Message.v` | `src/message.rs` | requests and events, conversions from and to commands, batches, correlation keys |
| `Auth.v` | `src/auth.rs` | OAuth2 token cache under concurrent callers |
| `Token.v` | `src/auth.rs` | the token request: url, fields, form encoding |
| `Dial.v` | `src/connection.rs` | the host, port and TLS choice of a dial |
| `Channel.v` | `src/engine.rs` | channel pairs |
| `Client.v` | `src/client.rs`, `connect` of both builders | numbering, queueing, handshakes as interaction programs |
| `Builder.v` | builders in `src/consumer.rs`, `src/producer.rs`, `src/pulsar.rs` | setters and `connect`/`build` |
| `Consumer.v` | `src/consumer.rs` | `next_message`/`next_batch` of any number of concurrent calls, with cancellation at every await |
| `Plugin.v` | `src/consumer.rs` | `consume` and plugins |
| `Producer.v` | `src/producer.rs`, `ack_all` | `send`, `send_batch`, `send_all`, `ack`, `ack_all` |
| `Engine.v` | `src/pulsar.rs`, `src/client_manager.rs`, `src/connection_manager.rs`, `src/command_resolver.rs`, connection task of `src/connection.rs` | one transition system: manager, clients, engine task, connection tasks, network |

Specifications (`Spec*.v`): small vocabularies in which the theorems are stated: `SpecFrame`
(frame layout and CRC as polynomial division, without the model's integer or checksum code),
`SpecCodec`, `SpecProto` (when two encodings say the same), `SpecMessage` (what a request means in
terms of protocol field numbers, what a broker answer means), `SpecKeys`, `SpecClient`
(handshakes as a relation), `SpecConsumer` (what a history of deliveries should hand out),
`SpecEngine`, `SpecEngine2` (projections of the log of observations), `SpecStack` (bytes, streams and
events of the whole stack), `SpecOwed` (which events are for a client), `SpecGrammar` (the
protobuf encoding as a grammar).

Theorems: `Prop*.v`, each theorem named `Cxx_...`, with examples on concrete cases next to it and
`Print Assumptions` after it. `*Facts.v`, `ConsumerRuns.v` and `Engine{Inv,Req,Ev,Conn,Log,View,Route,Queue,Gate,Life,Hang,Origin,Net,Owed,Ex}.v`
hold lemmas and invariants.

Style: total functions; a panic is the outcome `Panic`; schedules are event lists interpreted by a
partial function `step` (`None`: the event cannot happen now); theorems quantify over all event
lists, of any length, and all environment choices in them (dial results, authentication results,
write errors, network input, clock readings, dropped futures).

## 2. Plan per property

What is modelled, and how it is proved.

* C01, C02, C03, C05, C06 (framing): `Codec.v`. Round trip from lemmas on big-endian integers and
  the protobuf round trip; streams by induction on the list of reads; C06 by exhaustive case
  analysis of `decode` against a description in `SpecFrame` terms.
* C04: `SpecFrame.v` is a strict frame reader that computes CRC-32C by polynomial division; the
  bitwise CRC is shown equal to it by induction over the bits.
* C07, C08, C09 (protobuf): induction over nested messages; C09 through a simulation relation
  between raw field lists (`SpecProto.same_wire`).
* C10, C11, C12 (conversions): every request a Rust caller can build, described by the field
  numbers of pulsar.proto in the parsed bytes actually written; every parsed command, classified.
* C13-C17 (batches): induction on the payload list, composed with the codec and a broker that
  stores metadata and payload unchanged.
* C18, C19 (numbering): interleaving model of `fetch_add` and queueing; permutation invariant.
* C20, C21, C24 (handshakes, results): interaction programs run against all reply lists.
* C22, C23 (correlation keys): case analysis and injectivity of decimal rendering. `C22_caller_gets_the_answer`
  (`PropJobs.v`) joins C22 to the engine: in any run a caller whose wait is over has the answer, or is told that it was cancelled.
* C25-C27, C31 (delivery): invariant relating arrivals, buffer, calls in progress and results.
* C28-C30 (permits): invariants on the sum of counter, grants and calls in progress; unbounded
  growth by an explicit family of schedules; stalls by showing the state is a trap.
* C32 (plugins): induction on the results of `next_message`, connected to runs of `Consumer.v`.
* C33-C46, C49 (engine): invariants over all reachable states of `Engine.v` (`EngineInv`:
  bookkeeping; `EngineReq`: life of a request; `EngineEv`: life of an event; `EngineConn`,
  `EngineRoute`, `EngineView`, `EngineQueue`: queues against the log; `EngineGate`: connects one
  at a time; `EngineLife`: ends). Claims of the form "there is a schedule" are proved by exhibiting
  one (`EngineEx`, evaluated by the kernel); claims "can always" by exhibiting it from every state.
* C47, C48 (tokens): state machine over clock readings and endpoint answers.
* C50, C51, C52: string reasoning; case analysis; refinement to two FIFO queues.
* C53 (corruption): one step of the division and one fed bit are injective on 32-bit states, and 32
  fed bits are one addition followed by 32 steps; so a burst changes the state and nothing after it
  can undo the change.
* C54 (hang): `EngineHang.v` tracks where the response channel of the awaited connect is (queue,
  resolver of the connection, answered, dropped); left in the queue of an ended connection is a trap.
* C55, C56, C57: case analysis of every step on one connection (alive, ended); the log invariant of
  C39; `EngineOrigin.v`: what every dial and authentication call in the log was made for.
* C58: explicit schedules from any reachable state, using the invariants for queues (C55) and for the connect the
  engine waits for (C54); the schedules are in the polling order (C76).
* C59, C60: composition of C02 (framing), C38/C39 (engine queues) and C25/C19 (consumer, client numbering). The
  models meet at two interfaces: the items the stream of a connection yields are the network events of the engine
  schedule (`nets`), and the consumer's arrivals are what the engine put into the client's channel. The bytes written
  are defined along the schedule (`wire`), one encoded command per successful write.
* C61: composition of C02/C15 (decoding), C16/C17 (unpacking: which id a message carries) and C10 (the bytes a request
  becomes); a parsed message id is shown fit to be encoded again.
* C62: C34 (what the requester sees of an event, `seen_as`) composed with C21 (the client's decision).
* C63: a measure (queued events plus the steps each call may still make) that every step after the end decreases; a
  lock invariant for progress; two invariants of the states after the end (nothing left; window used up).
* C64: `Dial.v` models url parsing on `scheme://host[:port]` and on texts without slash (elsewhere it is an arbitrary
  function); by origin of every dial (`EngineOrigin.v`) and of every write all addresses share the configured base url.
* C65: the form serializer (`Token.v`) against an independent form reader (`SpecToken.v`): round trip by induction.
* C66: C34 (which event answers a request) and C60 (what a broker decodes from the bytes written) composed; the
  numbers of a single producer are distinct by C18; a schedule with two producers refutes it without that.
* C67: induction over the list of setter calls (each field holds the last value given), composed with C20.
* C68: an invariant of the log relating the assigned broker of a client after each entry to a function of its own
  requests forwarded so far (`goes`); C34/C35 (every answered request was written) and C60 (bytes read) composed with C20.
* C69: C59 with its assumptions about the assignment of the client discharged by C68, from the first message for the
  consumer's id on; before that nothing for it has arrived.
* C70: C60 with its assumption on routing discharged by C68, and the commands the broker decodes matched one by one with
  the requests written (`denotes` determines whether a command is a send and for which producer).
* C71: `SpecOwed.v` says from the log alone which events are for a client; invariant over transitions (`EngineOwed.v`, beside
  the one of C38): what is owed, as shown, is what was received followed by the content of the channel.
* C72: `SpecGrammar.v` writes the protobuf encoding and the frame down as inductive relations, without the model's readers;
  the parser is shown equivalent by induction on bytes, on fields and on the nesting depth (`GrammarUtf8.v`, `GrammarFacts.v`).
  This also gives C06 a meaning of "valid command" that does not mention the parser.

* C73: `SpecEnd.v` lists the causes as an inductive predicate over the history and the log. `EngineEnd.v` adds the invariant that
  the only connect a connection holds is the one the engine waits for; `PropEnd.v` traces absent clients, the dropped manager, cancelled
  registrations and dead connections back to the events of the history, and does a case analysis of the step that ends the engine.
* C74: `Sink.v` models the write half of `Framed` (poll_ready with its 8 KiB boundary, start_send, poll_flush) over a transport
  that answers every write as an arbitrary plan says (`io_plan`: takes n bytes, takes none, fails). `SpecStack.v` lists the
  commands a connection offers in a schedule and folds the sink over them (`attempts`, `wire`); `SinkFacts.v` proves
  sent ++ waiting = the frames taken, by induction; `PropSink.v` combines this with C02 and the engine log. C60, C66, C68 and C70
  are stated over the same `wire`, C66 and C70 for every behaviour of the transport. The result of a write reported in the log
  (`EvWrite _ _ io`) is free; theorems that use it say that it agrees with the sink (`map at_ok (attempts ..) = reports ..`).
* C75: `PropReads.v`: C70 generalised from sends to every command that names a client (`from_client`, by command type and id
  field) and to every other client: that only the owner's requests name its id follows from the API (C15/C67) and unique ids, no
  hypothesis about others is left. The requests of a kind written to a connection are an initial part of those issued (C37/C68),
  the commands decoded from the wire match them one by one (C74). Acknowledgements are traced back through the consumer
  (C25), the routing of messages (C38/C69) and the frame decoded (C61).
* C76: `SpecTurn.v` defines which schedules of the engine model follow the polling order of `select_all` (`as_polled`). The model
  allows every order, so what is proved for every schedule holds for these; where a theorem says that something can happen (C34,
  C36, C58, C66, C76, C77) the schedule given is in that order, for every iteration order of the connections (`rank`), and checked
  examples come with a proof of it (`TurnFacts.v`, `orderly`). The bounds follow from: a client that has something is never
  found idle, and after one step of the engine every client before the one served has to be found idle anew.
* C77: `SpecAnswered.v` (the kind of a command, what the brokers have read by each moment, brokers that answer at most what they
  have read), over C35 for one kind of request, C74 and C60. The answer that arrives as the j-th of its kind on a connection is
  matched with the j-th command of that kind read there; C35 then says that it completes that request. For
  handshakes this is composed with C20 and C39 (order); unlike C68 no write has to succeed. The counterexample is a
  schedule in the polling order (C76).
* C78: `SpecLoop.v` (one request at a time, acknowledgement of one message alone), over C77: what has completed was read, and
  at most the last request has not completed, so what the broker has read has no gap. With C25, C38 and C69 the acknowledged
  ids are those of the first messages the broker sent. `C78_alone` discharges the condition on requests in flight.
* C79: `SpecAll.v` (what a request has come to, as the log shows it), over C24 (`Producer.many`), C77 and C39: a request is cancelled
  only if the engine ends or another one of its kind is taken, so with distinct sequence numbers all sends that send_all waits for
  are answered, hence read. For ack_all a run in the polling order shows that nothing of the kind holds.
* C80: `SpecPermits.v` (permits read, permits asked for, what reading makes good), over C28-C30 (consumer) and C75 (what a broker
  reads of one client). `PropBatchFlow.v`: an invariant of the counter for next_batch. `PropPermits.v`: the permits read are a
  subsequence (an initial part) of those granted; the stall by induction over the schedule after the permits are used up, the
  consumer being given at every prefix (`consumes`).
* C81: `PropStart.v`. A command read is one that was written, a pong or a request of the client API (C39, C40, C66); routes are
  determined by the requests (C68), so a client's first request on a connection is a connect; a connect is answered, by its own
  connection (`EngineGate.gate`), before the engine takes another request (C37). Drops: only a live client issues requests.
* C82: `SpecRest.v` (what there is to do, counted), `PropRest.v`. Every task step uses up some of it, by cases on the transitions;
  a state in which some task can change something is one of finitely many cases, in the polling order by C76; at rest the queue
  invariants (C38, C39) say what has been passed on. The spinning loop of a dropped manager is stated and proved.
* C83: `PropAsked.v`, from C75: the acknowledgements among the commands of a client, filtered on both sides of the
  correspondence between its requests and the commands read; `acked` (`SpecLoop.v`) lists the message ids asked for.
* C84: `SpecBuild.v`, `PropBuild.v`: what a program of calls has had as replies is read off the log (`replies`); by C82 a
  call that has not completed at rest waits for an answer that has not arrived, and a connect that was written is completed
  by the CONNECTED on its connection (invariant `unanswered`), so under the stated conditions everything has completed; the
  results of the builders then follow from C20 and C34.
* C85: `SpecFinish.v`, `PropFinish.v`: from any reachable state in which nothing has failed (`unharmed`, `sensible`) a continuation
  (`helped`: steps of the tasks in which no call fails, and answers to commands written and not yet answered, by frames that satisfy C01's
  `sendable`) is constructed: C82's `quiet_or_step` brings the tasks to rest in the polling order; if a written command is unanswered its
  answer arrives next; each answer lowers the number of issued requests whose written command is unanswered (a request is written at most
  once), so this ends, and C84 says every call has completed. `reach_known` (who made a request is registered or queued for it) and
  C82_at_rest (no registration waits) give the rest. Existence only: no fairness of a real scheduler is claimed.
  It holds for any set of answers brokers are willing to give, provided it has one for each kind of request (`some_answer`, a
  hypothesis; `willing_answers` shows it of all answers, with lookups that say Connect).
* C86: `SpecServe.v`, `PropServe.v`: the same for a program of calls (`Client.prog`) of a client that has not been used: `served` adds to
  `helped` the calls the program makes on the replies it has had. `yields` says, by recursion on the program, that on every answer of
  the right kind that brokers are willing to give (as seen by the client: `seen_as`) it makes reasonable requests and ends with a result
  satisfying Q. Proof: by C85 there is a way to a `calm` state, in which every request ever made has been taken and every one that waits
  has completed; a call made then is not superseded (`alone_kept`: whoever supersedes it would be taken later, but everything older is
  taken), its answer is of its kind (C34), and the replies grow by exactly that answer (`replies_after`); induction on the program.
  Corollaries compute `yields` for the two builders and for any list of sends. Not claimed: concurrency within the program.
* C87: `SpecGroup.v`, `PropGroup.v`: the concurrent case: from a calm state a list of requests no two of which (of those that wait)
  have one kind is issued without anything in between (`at_once`); C85 completes them; `group_kept` shows by position in the log that none
  is superseded (an older request has been taken before, one of the group has another key by C23), C34 gives the answer. `C87_send_all`
  instantiates it with the Producer model's `send_all`; sequence numbers of up to 2^64 sends differ modulo 2^64.
* C88: `PropReceive.v`: C85 gives the continuation to rest; there C82 says that the engine has taken every event of every connection;
  a client then empties its channel, so C71 (what a client is owed is what it has received and what is in its channel) and C69 (a
  consumer's messages are those that arrived for it) become statements about what has been received: `C88_everything_received`,
  `C88_messages_received` (under C69's assumptions: messages for a consumer arrive after its subscription was written, and it does not
  ask for another broker after subscribing). `C88_all_returned` joins it to the consumer's model: a consumer on which no call is
  under way, all payloads decoding; `drain` of `PropFlow.v` and C25.
* C89: `SpecJobs.v`, `PropJobs.v`: C85 brings everything to rest with every request completed; `residual` shows that what is left of a
  client's program then is a program making reasonable requests (by induction along its requests and their outcomes; C34 gives that
  each outcome is one the request may get); the clients are then driven to their ends one after the other with C86's `drive`, a client's
  requests and replies being left alone while others are driven. `stops_modest` gives consumers and producers.
* C90: `PropPing.v`: at rest (C82) the engine has taken all that has arrived and every command queued has been written; a ping taken
  is followed by its pong in the log unless the engine ends (C40), so the counts agree by induction over the log; what a broker
  decodes comes from C60 and the command types (C81). That rest can be reached from any state in which nothing has failed is C85,
  whose answers are no pings. The rest theorem assumes that no connect is in flight: until it is answered pings wait (C40).

No property of the list is left out as inexpressible.

## 3. Trusted base

* Coq 8.16.1's kernel, including its `vm_compute` machine (used for concrete schedules).
  `Print Assumptions` reports "Closed under the global context" for every theorem in
  `MANIFEST.json`: no axioms, of the standard library or otherwise. (Loading the standard library's
  ssreflect files makes a listing of the whole environment show the axioms of `ssrunder`; no theorem
  depends on them.)
* That the model says what the Rust code does. The code was read, not run. Points where the
  model relies on the documented behaviour of something that is not in the repository:
  * *protobuf 3.x*: fields are written in field-number order; a field whose wire type is unexpected
    is kept as an unknown field; 32-bit varint fields out of range are an error; the last occurrence
    of a singular field counts, also for sub-messages; nesting below 100; groups are rejected;
    an enum getter returns the first declared value when the field is absent or holds an undeclared
    number; `write_to_bytes` fails on missing required fields and from 2 GiB on; strings must be UTF-8.
    (`with_batch_index` puts the batch index at the end of the message id; by C09 the order of
    fields does not matter.)
  * *crc32c*: equals the bitwise algorithm. *nom*: `take`, `be_u16`, `be_u32` on complete input.
  * *tokio_util `Framed`*: decodes as often as possible after each read, `decode_eof` at the end,
    left-over bytes are an error, after an error the stream ends. Its sink (0.7) flushes before taking a
    command once 8192 bytes wait, appends the encoded frame to its buffer, flushes it with writes until it is
    empty, keeps what a failed flush has not written, and does not flush while it is read.
  * *async_channel*: unbounded FIFO; a queue is freed when both its ends are gone; a receive that is
    dropped while waiting takes nothing. *futures oneshot*: dropping the sender cancels.
    *futures Mutex*: no poisoning. *join_all* polls in order. *select!*: any ready
    branch may win. *select_all*: polls in order, the first ready future wins (`SpecTurn.v`); the engine model allows
    every order.
  * *chrono*: `Utc::now() + Duration` is exact within the range of dates, given as a parameter, and
    panics outside. *serde_json* / user `TryFrom`: an arbitrary partial decoding function.
  * *atomics*: sequentially consistent, each access one step.
  * u32 additions: in `encode` both build modes are modelled (`oc`); the consumer's counter is the
    wrapping `AtomicU32`.
* In the engine model a lock of the engine (`Mutex<ClientManager>`, `Mutex<ConnectionManager>`) is
  taken only by the engine task and is left out; one iteration of the engine's loop is one event,
  split where it waits for the outside (authentication, dial, answer to a connect).
  A write of a connection is one event.

## 4. Not modelled

URL parsing outside the two classes of `Dial.v`; DNS, TCP and TLS handshakes, certificates, the validity of a
host as TLS server name (a dial succeeds or fails: an argument of the event); the HTTP exchange with the token
endpoint (the request's url and body are modelled in `Token.v`, its result is an argument); logging; physical
time and timeouts; memory and CPU use (so: no claim about busy loops except that an event changes
nothing); fairness of the scheduler, beyond the polling order of C76; `src/combinators.rs` (not used by the rest of the crate);
`ClientManager::send_all` and other dead code; `examples/`, `build.rs`. `Debug` output and the
`Display` of requests and events (used only for logging) are not modelled.
