#!/usr/bin/env python3
"""Single source of /verif/properties.jsonl (run: python3 tools/gen_properties.py)."""
import json, os
P = []
def add(title, statement, quantifier, why, anchors):
    P.append(dict(id="C%02d" % (len(P)+1), title=title, statement=statement,
                  quantifier=quantifier, why_tests_cant=why, anchors=anchors))

# ---------------------------------------------------------------- wire codec
add("Frame round-trip",
    "Encoding any protocol command (with or without a message payload) and decoding the bytes that were produced yields the same command, the same metadata and the same payload bytes, consumes exactly the produced bytes, and leaves any bytes that follow untouched, as long as the frame fits the 32-bit size field. (A build with overflow checks panics instead when the frame together with its size field reaches 2^32 bytes; a build without them never does.)",
    "every well-formed command, every metadata and payload byte string with total size below 2^32, every suffix already in the buffer",
    "the space of commands and payloads is infinite; the only round-trip test in the repo encodes one literal and does not compare the result",
    ["src/codec.rs: Codec::encode, Codec::decode, command_frame, payload_frame"])
add("Stream reassembly under any segmentation",
    "However the network splits or coalesces the byte stream of a sequence of frames, the connection reads exactly those commands, in order, none twice and none missing; a partial frame is never delivered and is kept until its remaining bytes arrive.",
    "every sequence of commands, every way of cutting the concatenated bytes into reads",
    "the number of segmentations is exponential in the stream length and chosen by the network",
    ["src/codec.rs: Decoder::decode", "src/connection.rs: ConnectionStream::next"])
add("Truncated stream is reported, never delivered",
    "If the peer closes the connection in the middle of a frame, every complete frame before it is delivered, the partial frame is not delivered, and the reader sees a decode error followed by end-of-stream; if it closes on a frame boundary the reader sees only end-of-stream.",
    "every command sequence, every cut position, every segmentation",
    "the cut position is a crash point",
    ["src/codec.rs: Decoder::decode", "src/connection.rs: ConnectionStream::next"])
add("Sent frames obey the Pulsar wire format and carry a valid CRC-32C",
    "Every frame the client writes is accepted by an independent strict reader of the Pulsar framing (total size, command size, magic 0x0e01, CRC-32C over metadata-size+metadata+payload, metadata size) and that reader recovers the command bytes, metadata bytes and payload; a frame too large for its size field is refused by that reader.",
    "every command and payload below the 32-bit size limit",
    "infinitely many payloads; the repo has no test of the checksum at all",
    ["src/codec.rs: Codec::encode"])
add("Incoming checksums and magic numbers are not verified",
    "What the client decodes from an incoming frame does not depend on the magic-number and checksum bytes: overwriting those six bytes with anything never changes the result, so payload corruption in transit is not detected by the client.",
    "every incoming frame, every replacement of the six bytes",
    "a test can only show it for chosen corruptions; this is a statement about all of them",
    ["src/codec.rs: payload_frame, Decoder::decode"])
add("Exact set of incoming bytes that crash the decoder",
    "Reading a frame panics exactly when a complete frame is buffered and either its command-size field does not fit in the frame, the command bytes are not a valid BaseCommand, or a payload section whose metadata is not a valid MessageMetadata is present; in every other case decoding either waits, or returns a command and removes exactly one frame from the buffer.",
    "every content of the receive buffer",
    "the input is arbitrary bytes chosen by the peer",
    ["src/codec.rs: command_frame (unwrap), Decoder::decode (unwrap)"])
add("Protobuf encoding round-trip",
    "Serialising any initialised protocol message and parsing it back yields the same fields, for every message of the protocol that the client sends or receives, including negative int32 values, nested message ids and repeated fields.",
    "every well-typed message of every modelled type, every field value in range, every nesting depth up to the parser's limit",
    "infinite value space with 64-bit boundaries",
    ["src/protos/pulsar.proto", "src/codec.rs: write_to_bytes, parse_from_bytes", "src/message.rs: From<..> for MessageCommand"])
add("Declared sizes equal written bytes",
    "The size computed for a protobuf message is exactly the number of bytes it serialises to, so the size fields of every frame and of every batch entry are exact.",
    "every message value",
    "size arithmetic depends on varint boundaries at every power of 128",
    ["src/codec.rs: compute_size", "src/message.rs: Send::payload"])
add("Unknown or reordered protobuf fields do not change what is read",
    "A broker that adds fields the client does not know, or emits the fields of a command in another order, is understood identically: every value the client reads from the command is unchanged.",
    "every valid command, every permutation of distinct fields, every set of unknown fields inserted anywhere",
    "combinatorially many encodings of one message",
    ["src/codec.rs: BaseCommand::parse_from_bytes, MessageMetadata::parse_from_bytes"])
# ---------------------------------------------------------------- commands
add("Every request reaches the wire as the command it denotes",
    "The bytes written for a connect, lookup, producer, subscribe, send, ack, flow, ping or pong request parse back to a command of exactly that type whose fields are the caller's arguments (topic, subscription, names, ids, permits, message id, auth data, proxy target); writing never panics. The one exception is the authentication response, which is written with the command type of a challenge.",
    "every argument value of every request",
    "argument spaces are unbounded strings and 64-bit integers",
    ["src/message.rs: impl From<X> for MessageCommand (all X)"])
add("Incoming commands are classified by type and carry their fields",
    "An incoming command is turned into the event of its own type with the ids the broker put in it; command types outside the supported ten (including ERROR and SEND_ERROR) are reported as unsupported and otherwise have no effect; a supported type whose mandatory sub-message is missing panics the connection.",
    "every incoming command of every type",
    "67 command types times arbitrary field contents",
    ["src/message.rs: TryFrom<MessageCommand> for Inbound and for each payload type"])
add("Broker-reported errors inside responses are ignored",
    "An acknowledgement response that carries a server error, and a producer-success response that says the producer is not ready, are both treated exactly like successful responses.",
    "every response, every error code and message",
    "a statement about all error contents",
    ["src/message.rs: TryFrom<MessageCommand> for AckReciept, for ProducerSuccess"])
add("Batch payload round-trip",
    "For two or more payloads (each below 2^31 bytes), the consumer that receives the entry written by a batch send obtains exactly the payloads the producer passed, in order, one message per payload.",
    "every list of at least two payloads",
    "unbounded number, size and content of payloads",
    ["src/message.rs: Send::payload, batched_payload, parse_batched_message, TryFrom<MessageCommand> for Message"])
add("Batches of zero or one message are not delivered as sent",
    "A batch send of exactly one payload is delivered to a consumer as one message whose bytes are not the payload but the payload preceded by its batch header (six bytes or more), and a batch send of no payloads is delivered as one message with empty bytes.",
    "every payload",
    "needs all payloads: no payload content makes the single-element batch come back intact",
    ["src/message.rs: Send::number_of_messages, Send::payload, TryFrom<MessageCommand> for Message"])
add("Malformed batches are all-or-nothing",
    "Parsing a batch either yields exactly as many messages as the entry declares or fails as a whole; it never yields a partial list, never reads past the entry, and bytes after the declared messages are ignored.",
    "every byte string and every declared count",
    "arbitrary peer-controlled bytes",
    ["src/message.rs: batched_payload, parse_batched_message"])
add("Single message payload integrity end to end",
    "The bytes passed to a single send are, after encoding, the broker storing metadata and payload unchanged and delivering them to a consumer, exactly the bytes the consumer's message is decoded from, and its acknowledgement names the message id the broker assigned.",
    "every payload, every producer name, sequence id, publish time, message id and consumer id",
    "unbounded inputs across two codecs",
    ["src/message.rs: Send, Message", "src/codec.rs", "src/consumer.rs: Consumer::next"])
add("Acknowledgement ids of a batch",
    "The i-th message taken out of a batch carries an acknowledgement naming the entry's ledger, entry and partition with batch index i; acknowledgements of different messages of one batch are different.",
    "every batch and index",
    "unbounded batch sizes and ids",
    ["src/consumer.rs: Consumer::next"])
# ---------------------------------------------------------------- client / producer
add("Request and sequence numbers are unique",
    "Under any interleaving of concurrent calls on one client, no two requests get the same request id and no two sends get the same sequence id (until 2^64 have been issued), and the numbers issued are exactly 0,1,2,... without gaps.",
    "every interleaving of any number of calls below 2^64",
    "schedules are unbounded",
    ["src/client.rs: request_id, sequence_id (fetch_add)"])
add("Wire order of sends",
    "If sends on a producer are issued one after another (or through one send-all), they are queued for the wire in increasing sequence order; if two tasks send concurrently there are schedules in which a later sequence number is queued before an earlier one.",
    "every number of sends; every interleaving of the two steps of each send",
    "depends on the schedule between taking the number and queueing the command",
    ["src/client.rs: send_message, send_command_and_resolve", "src/producer.rs: send_all"])
add("Handshake order",
    "Building a consumer issues connect, lookup, optionally (proxied) connect and lookup again, subscribe and then flow, in this order, each only after the previous one was answered positively; building a producer does the same ending with producer registration. The first failure stops the sequence and is returned. (Of the second lookup only the kind of the answer is examined, not its verdict.)",
    "every sequence of broker answers",
    "all response histories, including failures at each step",
    ["src/consumer.rs: Consumer::connect", "src/producer.rs: Producer::connect", "src/client.rs: lookup_topic"])
add("Lookup decision",
    "A lookup answered Connect without proxying succeeds without contacting any other broker, whatever broker address the answer names; answered Connect with proxying it connects through the service url to the named broker and looks up again; answered Failed it returns ConnectionFailed; answered Redirect, or with no or an unknown answer type, it panics.",
    "every lookup response",
    "all responses, including omitted and unknown enum values",
    ["src/client.rs: lookup_topic", "src/message.rs: TryFrom<MessageCommand> for LookupTopicResponse"])
add("A resolved request always converts",
    "Whenever the resolver matches an incoming command to a waiting request, the command is of the response type that request expects, so a caller never receives Unresolvable; delivered messages are never consumed by the resolver.",
    "every pair of request and response",
    "all pairs of command values",
    ["src/message.rs: try_key of Outbound and Inbound", "src/client.rs: send_command_and_resolve"])
add("Correlation keys",
    "Two requests share a correlation key exactly when they are of the same kind and, for sends, carry the same sequence number; the key depends on neither the client nor the request id.",
    "every pair of requests",
    "decimal rendering of all 64-bit numbers",
    ["src/message.rs: impl ResolverKey for Outbound, for Inbound"])
add("Producer send reports the broker's answer",
    "A single send or a batch send returns success exactly when its receipt arrived, and otherwise the error; send_all and ack_all always return success, even when some or all operations failed.",
    "every number of messages and every combination of outcomes",
    "outcome combinations are exponential",
    ["src/producer.rs: send, send_all, send_batch", "src/consumer.rs: ack, ack_all"])
# ---------------------------------------------------------------- consumer
add("In-order exactly-once delivery by next_message",
    "A consumer driven by next_message returns exactly the messages the broker delivered, batches unpacked in order, each once, in arrival order, and skips non-message events, for every interleaving of concurrent callers.",
    "every arrival history, every number of calls, every interleaving of concurrent callers",
    "unbounded histories and schedules",
    ["src/consumer.rs: next_message, next", "src/client.rs: next_message"])
add("next_message never panics on well-formed deliveries",
    "next_message never hits its empty-list panic: a batch always unpacks to at least two messages and a single to one; an undecodable single payload returns DeserializationFailed and is dropped, while an undecodable payload inside a batch panics the caller.",
    "every delivery",
    "all delivery contents",
    ["src/consumer.rs: next_message (remove(0)), next (unwrap)"])
add("next_batch size, order and loss",
    "next_batch(n) returns at most n messages; it takes buffered messages before new ones, each group last-first; when the newly received entry holds more messages than there is room for, the earliest ones of that entry are dropped and are never returned by any later call; nothing is lost exactly when the entry fits.",
    "every buffer content, every n, every incoming entry",
    "unbounded sizes; loss only at particular size combinations",
    ["src/consumer.rs: next_batch"])
add("Flow permits on single-message traffic",
    "When every delivery is a single message that decodes and next_message calls do not overlap, the broker never runs out of permits while the consumer keeps calling next_message: permits granted exceed messages delivered by at least the configured window; but each refill grants twice the window, so the number of outstanding permits grows without bound. A single message that does not decode uses a permit that is never counted.",
    "every number of deliveries and every window size",
    "unbounded history; growth is only visible in the limit",
    ["src/consumer.rs: check_and_flow, connect, next_message"])
add("Flow permits on batched traffic",
    "Reading batches with next_message counts one permit per entry instead of one per message: there are delivery histories after which the broker has no permits left, everything delivered was consumed, and no further call ever grants permits again, so the consumer stalls forever.",
    "all continuations after the witness history",
    "a liveness failure over all futures",
    ["src/consumer.rs: next_message (buffer path), check_and_flow"])
add("Concurrent permit accounting",
    "The permit counter is exact when calls do not overlap; with two overlapping calls there are schedules in which permits are granted twice for the same deliveries and schedules in which a delivery is never counted.",
    "every interleaving of the atomic steps",
    "races",
    ["src/consumer.rs: check_and_flow (load/store), fetch_add"])
add("Cancellation safety",
    "Dropping a next_message call at any await point loses no message; dropping a next_batch call while it waits loses every message it had already taken from the buffer, and so does an error return from it.",
    "every state and every await point",
    "cancellation points are crash points",
    ["src/consumer.rs: next_message, next_batch"])
add("Plugin dispatch",
    "consume hands every message to every plugin in registration order until the first plugin error, which it returns; messages after the failure are not taken; on_connect and on_disconnect are never called.",
    "every message history, every list of plugins and their results",
    "unbounded histories and arbitrary plugin behaviour",
    ["src/consumer.rs: ConsumerEngine::consume, ConsumerPlugin"])
# ---------------------------------------------------------------- engine
add("Engine bookkeeping never breaks",
    "In every reachable state every registered client has a distinct id and is assigned to a broker address for which a connection exists, so the engine never hits its internal unwrap, its missing-connection error, or its no-connection branch.",
    "every schedule of registrations, requests, connects, broker traffic, drops and failures (fewer than 2^64 clients)",
    "all interleavings",
    ["src/pulsar.rs: get_next, handle_client_outbound, send_to_connection", "src/client_manager.rs"])
add("A request resolves at most once and only by a response of its own kind",
    "The future of a request completes at most once; if it completes with a response, that response was received from a broker, was taken by the engine while the request was in flight, has the kind the request expects and, for sends, the same sequence number; no received event completes two requests. An event that arrived before the request was even issued, but that the engine had not taken yet, can be credited to it.",
    "every schedule",
    "all interleavings of clients, engine, connections and broker",
    ["src/command_resolver.rs: put, try_resolve", "src/client_manager.rs: next, send", "src/connection.rs: start_connection"])
add("Requests with distinct keys do not interfere",
    "As long as no two in-flight requests of the clients of one Pulsar instance share a correlation key, every request that completes with a response completes with the broker's answer to that very request, whatever the order in which answers arrive.",
    "every schedule without key collision, every order of answers",
    "all interleavings",
    ["src/command_resolver.rs", "src/client_manager.rs"])
add("Requests with equal keys are cross-wired",
    "Two in-flight requests with the same key (two acks, two lookups of different clients, two producers at the same sequence number) interfere: the earlier one fails with ChannelTerminated although the broker answered it, and the later one completes with the earlier one's answer.",
    "all schedules of the witness shape; general overwrite rule for every state",
    "depends on the schedule",
    ["src/command_resolver.rs: put", "src/message.rs: try_key"])
add("Connects are serialised",
    "Connect requests never interfere: while the engine is running no connect future is ever cancelled by another client's connect, because the engine answers one connect completely before taking the next event.",
    "every schedule",
    "all interleavings",
    ["src/pulsar.rs: send_to_connection", "src/client_manager.rs: next"])
add("Messages reach only and exactly the addressed consumer, in order",
    "For every schedule, the messages delivered to a client together with those still queued in its connection are exactly the messages with its consumer id received on its connection, in the same order, none duplicated and none lost; no other client receives them.",
    "every schedule, any number of clients and connections",
    "all interleavings",
    ["src/client_manager.rs: send", "src/pulsar.rs: handle_connection_inbound", "src/connection.rs: start_connection"])
add("Commands of one client reach the wire in issue order",
    "For every schedule, the commands of one client that were transmitted on its connection, followed by those still queued, are exactly the commands it issued, in issue order.",
    "every schedule",
    "all interleavings",
    ["src/engine.rs", "src/pulsar.rs: handle_client_outbound", "src/connection.rs: start_connection"])
add("Keep-alive",
    "Each ping the engine takes from a connection produces exactly one pong on the same connection and reaches no client; but pings are not taken while no client is registered or while a connect is waiting for its answer.",
    "every schedule",
    "all interleavings",
    ["src/pulsar.rs: handle_connection_inbound, get_next, send_to_connection"])
add("Engine termination releases registered requests",
    "When the engine stops for any reason at any point, every request it had taken from a client completes with ChannelTerminated and every later call by its clients fails with ChannelTerminated; deliveries already queued for a client can still be read; a request that was queued but not yet taken stays pending as long as its client exists.",
    "every reachable state as crash point",
    "crash points are arbitrary",
    ["src/pulsar.rs: start_pulsar", "src/client.rs: send_command_and_resolve", "src/engine.rs"])
add("Faults are not isolated",
    "Dropping any one client, losing any one connection, a failed dial for one client's connect, or a failed authentication call stops the engine for every client.",
    "every reachable running state, every client and connection",
    "all states and crash points",
    ["src/pulsar.rs: start_pulsar, handle_client_outbound, handle_connection_inbound"])
add("Broker errors leave requests pending",
    "An ERROR or SEND_ERROR answer from the broker changes nothing: the request it refers to stays pending, for every schedule in which the engine keeps running, takes no success answer of the same kind and takes no other request of the same kind.",
    "every schedule without a matching success answer",
    "absence of an effect over all futures",
    ["src/connection.rs: start_connection", "src/message.rs: TryFrom<MessageCommand> for Inbound"])
add("Registration",
    "Every registration the engine takes makes the client routable at the configured broker, and there are never more confirmations than registrations. If registrations are made one after another, a client is routable when its registration is confirmed; if they overlap, a client can be confirmed before it is registered. Dropping the manager handle never disturbs existing clients, unless a cancelled registration is still queued, which then ends the engine.",
    "every schedule",
    "all interleavings",
    ["src/pulsar.rs: register, handle_registration, handle_next"])
add("One connection per broker address",
    "The engine dials a broker address at most once per successful connection: there are never two connections for the same address and an existing connection is reused by every later connect to it.",
    "every schedule",
    "all interleavings",
    ["src/pulsar.rs: new_connection", "src/connection_manager.rs"])
add("Proxied clients are moved, others are not",
    "A connect that names a proxied broker dials the service url, carries the broker's url (without its pulsar:// prefix) as proxy target, and moves only the calling client; a plain connect never moves any client.",
    "every configuration, url and client set",
    "unbounded strings and client sets",
    ["src/pulsar.rs: handle_client_outbound", "src/broker_address.rs", "src/message.rs: From<Connect> for MessageCommand"])
# ---------------------------------------------------------------- auth, address, errors
add("Token caching",
    "The OAuth2 plugin contacts the token endpoint only when it holds no unexpired token; it never returns a cached token whose computed expiry has passed; a failed request returns the error and leaves the cache as it was; concurrent callers are served one at a time so that one fetch serves all callers until expiry.",
    "every sequence of calls, clock readings and endpoint responses",
    "unbounded histories and clock values",
    ["src/auth.rs: get_auth_data, CachedToken::is_expired"])
add("Computed expiry is later than the server's",
    "The cached expiry is counted from the arrival of the response, so for every positive round-trip delay there is a moment at which the plugin returns a token the server already considers expired.",
    "every issue time, lifetime and delay",
    "time values are unbounded",
    ["src/auth.rs: get_auth_data"])
add("Every connect carries the plugin's credentials",
    "If an authentication plugin is configured, every connect command written on any connection carries its method name and the data it returned for that connect; if none is configured no connect carries authentication fields.",
    "every schedule, every plugin result",
    "all interleavings and plugin results",
    ["src/pulsar.rs: handle_client_outbound", "src/message.rs: From<Connect> for MessageCommand"])
add("TLS selection",
    "A broker address derived from the configuration uses TLS exactly when the configured url starts with pulsar+ssl://, for every url and port; a proxied connection uses TLS exactly when the configured url does, regardless of the target broker's scheme.",
    "every url string and port",
    "all strings",
    ["src/broker_address.rs: is_tls", "src/pulsar.rs: PulsarConfig::is_tls, broker_address"])
add("Error classification and rendering",
    "Only Disconnected and ChannelTerminated count as disconnects, and different error kinds never render to the same text.",
    "every pair of errors, every message text",
    "error texts are unbounded strings",
    ["src/error.rs"])
add("Channel pairs are cross-wired FIFO",
    "The two ends of an engine channel pair are wired crosswise: everything sent on one end is received on the other end, in order, exactly once, and never by the sender; after one end is dropped the other drains what is queued and then gets ChannelTerminated, and its own sends fail with ChannelTerminated.",
    "every interleaving of sends, receives and drops on the two ends",
    "all interleavings",
    ["src/engine.rs: EngineConnection"])

# ---------------------------------------------------------------- appended
add("Corruption of a sent payload is detected",
    "For every frame with a payload that the client writes, a reader that checks the checksum refuses the frame after any corruption of the covered part (metadata size, metadata, data) that stays within 32 consecutive bits, and after any change of the magic number or of the checksum; two byte strings that differ only within 32 consecutive bits never have the same checksum.",
    "every sendable payload frame and every burst of at most 32 bits",
    "payloads, positions and error patterns are unbounded",
    ["src/codec.rs: Codec::encode, payload_frame"])
add("A connection lost before it takes a queued connect hangs the engine",
    "If a connection ends while a connect is still queued for it, the engine does nothing ever again: it does not end, takes no request, and no request of any client completes, whatever happens afterwards. If the connection had taken the connect, the connect completes: with the broker's answer if there was one, otherwise by the end of the engine.",
    "every schedule up to and after the loss",
    "a hang is a statement about every continuation",
    ["src/pulsar.rs: send_to_connection", "src/connection.rs: start_connection"])
add("Connections write out their queue and end only for a reason",
    "A connection that has not ended can write everything queued for it, in order, with nobody's help, also after the engine has ended; after that it ends. It ends only because its stream ended, because of a frame or command that panics, or after the end of the engine. Once ended it never reads or writes again. After the end of the engine the first event from the broker, other than the answer to a connect, ends the connection, and what was still queued is never written.",
    "every schedule, every queue content, every event",
    "all interleavings and continuations",
    ["src/connection.rs: start_connection", "src/pulsar.rs: start_pulsar"])
add("Authentication challenges are never answered",
    "No connection ever writes an authentication response. A challenge from the broker is only passed to the clients assigned to that broker, and changes nothing else.",
    "every schedule and configuration",
    "a claim about everything ever written",
    ["src/pulsar.rs: handle_connection_inbound", "src/client_manager.rs: send", "src/message.rs: Outbound::AuthChallenge"])
add("The cause of a failed dial or authentication reaches no caller",
    "Every dial after the first is made for a connect in flight, to the address it names, and the authentication plugin is called only for a connect in flight. When one fails, every request in flight of every client, that connect included, completes with ChannelTerminated and nothing else: the error itself is seen by no caller.",
    "every schedule, every failing dial or plugin call",
    "all interleavings",
    ["src/pulsar.rs: handle_client_outbound, new_connection, start_pulsar"])
add("Progress needs nobody but the engine, the connection and those polled earlier",
    "In every state in which the engine waits for its next event, whatever is in flight and whatever the clients registered later have queued: a client's queued requests can be brought onto the wire by the engine and that client's connection alone, after the requests queued by clients registered earlier have been taken (none of them a connect, none of these clients dropped); if the earlier ones have nothing queued, its connect can complete by steps of the engine, the authentication plugin, the dialled or existing connection and its broker alone. An event that has arrived - a message for a consumer, the answer a request waits for - reaches its client by steps of the engine and that client alone, if the connections polled before have nothing. All this in the order in which the engine polls.",
    "every reachable state, every queue content, every destination, with and without authentication",
    "a claim about every state and the existence of a continuation",
    ["src/pulsar.rs: get_next, handle_client_outbound, send_to_connection", "src/connection.rs: start_connection", "src/client_manager.rs: next", "src/connection_manager.rs: next"])

add("From the broker's bytes to next_message, exactly once and in order",
    "The broker writes frames to a connection, the network cuts their bytes in any way and has delivered any part of them. For a consumer assigned to that connection, the messages its next_message calls have returned, followed by those it holds, those queued for it and those the engine has not looked at yet, are exactly the messages for its consumer id among the frames that have arrived, each once and in order. In particular what has been returned is an initial part of what was sent.",
    "every sequence of frames, every segmentation and arrived part, every schedule of engine, connection and other clients, every interleaving of concurrent next_message calls",
    "composes framing, engine routing and consumer over all schedules at once",
    ["src/codec.rs: Decoder", "src/connection.rs: start_connection", "src/pulsar.rs: next, handle_connection_inbound", "src/client_manager.rs: send", "src/consumer.rs: next_message"])
add("From send to the bytes on the wire, in order",
    "If no write fails, the bytes a connection has written, cut in any way, decode to exactly the commands it has taken from its queue, in order (C74 says what holds when writes fail). If a producer's sends do not overlap and go to one connection, the sends written to that connection are, in order and with unchanged payload, an initial part of its calls of send and send_batch, the i-th one carrying sequence number i.",
    "every schedule of client tasks, engine and connection, every segmentation, other clients doing anything",
    "composes client numbering, engine queues and framing over all schedules at once",
    ["src/client.rs: send_message, send_batch_message", "src/pulsar.rs: handle_client_outbound", "src/connection.rs: start_connection", "src/codec.rs: Encoder", "src/producer.rs: send, send_batch"])
add("Acknowledging a returned message acknowledges the entry the broker delivered",
    "A frame arrives and yields messages. Acknowledging the i-th of them writes a frame from which the broker decodes an individual acknowledgement, by this consumer and with its next request id, of exactly one message id: the id the broker put into the delivery, with batch index i if the delivery was a batch and otherwise unchanged. Two messages whose acknowledgements are equal come from deliveries with the same ledger, entry and partition and have the same place in their batch.",
    "every received frame, every payload type, every message it yields, every client state, every build",
    "composes decoding, unpacking and encoding over every frame",
    ["src/codec.rs: Decoder, Encoder", "src/message.rs: TryFrom<MessageCommand> for Inbound, Into<MessageCommand> for Outbound", "src/consumer.rs: next, ack, Message::ack", "src/client.rs: ack"])
add("When a lookup goes through the proxy",
    "A lookup answered with Connect over the connection to some address succeeds at once, whatever follows, if the broker did not ask for the proxy or named a url equal to the text of that address; otherwise the lookup goes on to connect, through the proxy, to exactly the broker named. The text of a connection made through a proxy equals neither of its two urls, so the broker at its end is not recognised, and a lookup over it that names that broker makes the same proxied connect once more.",
    "every schedule of engine, clients and brokers, every address, every lookup answer",
    "composes the engine's rewriting of answers with the client's decision over all schedules",
    ["src/pulsar.rs: handle_connection_inbound", "src/broker_address.rs: Display", "src/client.rs: lookup_topic"])
add("A consumer after the engine has ended",
    "Once the engine has ended, the next_message and next_batch calls under way make only boundedly many further steps, some call can always go on while one is under way, and all of them return. When nothing delivered is left, every further call fails with ChannelTerminated (only next_batch(0) may still return an empty list). But if the engine ends while the permits of the window are used up, every further call fails with ChannelTerminated at once and the messages already delivered to the consumer are never returned; this happens with every window size.",
    "every window, payload type, history and interleaving of concurrent calls, every point at which the engine ends",
    "all interleavings and all continuations; the bound is over schedules of any length",
    ["src/consumer.rs: next_message, next_batch, check_and_flow", "src/client.rs: next_message, flow"])
add("Connections go only to the configured host and port",
    "With a configuration scheme://host and a port, the host and the port dialled are exactly those, with TLS exactly if the scheme is pulsar+ssl; a configured url without a scheme is refused with InvalidUrl and never dialled. In every run, every connection the engine opens or tries to open, and every byte it writes, goes to that same host and port with that same choice of TLS: no broker answer and no proxied broker changes it.",
    "every configuration with a plain host name, every schedule, every broker answer, every lookup and proxied connect",
    "all schedules and all broker answers; a broker naming another host is an input tests would have to guess",
    ["src/connection.rs: PulsarConnection::connect", "src/pulsar.rs: PulsarConfig::broker_address, handle_client_outbound", "src/broker_address.rs"])
add("The token request carries exactly the configured credentials",
    "Whatever bytes the credentials contain, the form posted to authority/oauth2/v2.0/token is read by the endpoint as exactly: the client id, the scopes joined by single spaces, the client secret, the grant type client_credentials, and the audience if and only if one is configured. The request consists of plain ASCII only, different credentials never make the same request, and the scopes are recovered one by one if none contains a space.",
    "every client id, secret, authority, list of scopes and audience, as arbitrary bytes",
    "arbitrary texts, separators and escapes included",
    ["src/auth.rs: ClientCredentialsOAuth2::new, request_new_token, OAuth2TokenRequest"])
add("A send that succeeds was read by the broker, once",
    "If the brokers send receipts only for sends they have read, and no two sends of the instance carry the same sequence number (as with a single producer client), then for every send that was answered, send returned Ok and the broker has read exactly that command - producer, number, name, payload - from the bytes written; and it reads the command of a send at most once, on one connection. With two producers using the same number this fails: a send can succeed although its command has not even been written.",
    "every schedule of engine, clients, connections and brokers, every behaviour of the transports (partial and failing writes), every segmentation, every amount of bytes the brokers have read so far",
    "relates results of calls to the bytes on the wire over all schedules",
    ["src/producer.rs: send", "src/pulsar.rs", "src/connection.rs: start_connection", "src/command_resolver.rs", "src/codec.rs"])
add("The builders use the last value given of each kind",
    "However the setters of the consumer builder, the producer builder and the instance builder are called, in any order and any number of times, the last value of each kind is the one used, and plugins are kept in the order added. Without a name, a topic or (for a consumer) a subscription, connect panics and has done nothing: no id taken, nothing registered, nothing sent. Otherwise it takes one id, registers once for the last topic, fails with the registration's error if that fails, and then makes the handshake for the last topic, name and subscription, with 250 permits for a consumer. The name of a consumer never reaches the broker. Building an instance panics exactly if no configuration was given.",
    "every sequence of setter calls, every answer of the registration and of the broker",
    "every order and repetition of setters with every outcome of the requests that follow",
    ["src/consumer.rs: ConsumerBuilder", "src/producer.rs: ProducerBuilder", "src/pulsar.rs: PulsarBuilder"])
add("Where a client's requests go depends on that client alone",
    "Every request of a client is forwarded, and written, on the connection given by that client's own earlier requests: the configured broker, until a connect asks for the proxy, from then on the broker named there, through the configured one. The schedule, other clients, brokers and credentials do not change it. Hence, when building a consumer (producer) has succeeded and no write failed, the broker has read from the bytes written - in this order - the connect, the lookup and the subscription (registration) with the configured ids and names; behind a proxy, connect and lookup at the configured broker and then connect, lookup and subscription on the connection to the broker named. After its last such connect the client stays at that broker.",
    "every schedule, every behaviour of other clients and of dials, every credential, every segmentation of the byte streams; for the built consumer or producer: honest brokers and no two requests in flight with the same key",
    "all interleavings with other clients; the relation to the bytes on two connections",
    ["src/pulsar.rs: handle_client_outbound", "src/client_manager.rs: move_client_to_broker", "src/client.rs: connect, lookup_topic", "src/consumer.rs: ConsumerBuilder::connect", "src/producer.rs: ProducerBuilder::connect"])
add("A built consumer returns exactly the messages of its subscription",
    "A consumer was built, directly or behind the proxy, and its client has since made no further connect. If brokers send messages for a consumer id on a connection only after they were sent its subscription there, then the messages its next_message calls have returned, followed by those received and not yet returned and those still on their way through the engine, are - in order, each exactly once - all the messages for the consumer's id in the frames that have arrived from its broker, however the byte stream was cut. None is lost between the subscription and the end of the handshake.",
    "every schedule, every other client, every reply to the handshake, every segmentation and partial last frame, every interleaving of next_message calls, every payload decoder",
    "the composition of codec, connection, engine, client and consumer over all schedules",
    ["src/consumer.rs", "src/client.rs", "src/pulsar.rs", "src/client_manager.rs", "src/connection.rs", "src/codec.rs"])
add("The broker reads exactly the sends of a producer, in order",
    "A producer was built, directly or behind the proxy, its client has made no further connect, its sends are made in turn, and no other client sends under its producer id. However the transports behave, however much of the bytes written the brokers have read, and however the stream was cut, the send commands with the producer's id that its broker has read are calls of send, in order, each at most once, with the number of the call and unchanged name and payload; if the transport takes no more bytes once a write has failed (in particular if none fails) they are exactly the first k calls, numbered from 0, none missing; and no other connection carries any.",
    "every schedule, every other client, every reply to the handshake, every behaviour of the transports, every amount of bytes read and every segmentation",
    "the composition of client, engine, connection and codec over all schedules",
    ["src/producer.rs", "src/client.rs", "src/pulsar.rs", "src/client_manager.rs", "src/connection.rs", "src/codec.rs"])
add("A client receives exactly the events that are for it",
    "Every event the engine takes from a connection and that answers no waiting request - unsolicited, late, or left over - goes to the clients assigned to that broker at that moment: a receipt, an acknowledgement receipt or a message to the client whose id it names and to no other, anything else except a ping to each of them. What a client has received is, event by event and in order, an initial part of what was so taken for it, and as long as the client exists all the rest waits in its channel: none lost, none twice, none for another client. Events are shown unchanged, but for the proxy flag of a lookup answer.",
    "every schedule, every number of clients and connections, every sequence of events from the brokers, every moment",
    "all interleavings of events, requests and registrations; lateness of answers",
    ["src/client_manager.rs: send", "src/pulsar.rs: handle_connection_inbound", "src/message.rs: try_consumer_or_producer_id", "src/client.rs"])
add("What is accepted from the network, as a grammar",
    "A complete frame is delivered as a command exactly if its body is a size, the bytes of a valid command of that size, and after it either a payload section (six bytes, a size, valid metadata of that size, data) or bytes without that form, which are ignored; otherwise reading panics. Valid means: encoded by the protobuf grammar - variable-length integers of at most ten bytes and 64 bits, field numbers from 1 to 2^29-1, the four wire types, exact lengths, texts that are UTF-8 of code points, integers in range of their declared type, packed repeated integers, unknown fields and unexpected wire types kept aside, at most a hundred levels of nesting - with every required field present at every level. Each byte string encodes at most one message, and everything the client writes is in the grammar.",
    "every byte string, every message type of the protocol, every nesting",
    "all byte strings; boundaries of varints, of UTF-8 and of integer ranges",
    ["src/codec.rs: Decoder::decode, command_frame, payload_frame", "src/protos/pulsar.proto"])

add("The engine ends only for a stated cause",
    "If the engine has ended, one event ended it, and for one of these causes only: the first or a later dial failed; the authentication plugin failed; a registered client was dropped (or its registration cancelled) and everything it had queued had been taken; the manager was dropped and no client was ever registered, or after a registration had been cancelled; a connection was broken (its stream ended or panicked, an incoming frame or an outgoing command made the conversion panic) and the engine then read from it, sent to it or waited for its answer. So as long as none of this happens the engine does not end, whatever frames the brokers send (errors, unknown commands, undecodable data) and whatever the clients do. Conversely an engine whose manager is gone and that never had a client does nothing but end.",
    "all histories of registrations, requests, broker frames, failures and drops",
    "that nothing else can ever stop the engine is a statement about every reachable history; tests show single runs that keep going",
    ["src/pulsar.rs: get_next, send_to_connection, handle_client_outbound, handle_connection_inbound, handle_next, start_pulsar", "src/connection.rs: start_connection", "src/client_manager.rs: next"])
add("Whole commands in order, whatever the transport does",
    "The transport under a connection may take writes piecemeal, fail, recover. In every case a broker that reads any part of the bytes that got out, cut in any way, decodes whole commands only: an initial part of the commands the stream took, which are commands the connection took from its queue, in order, each at most once; never a torn or interleaved frame. If the transport takes nothing more once it has failed, they are an initial part of all commands, so nothing is missing in between. A command is left out only if its own write fails with at least 8 KiB of the commands before it still unsent - then it is lost silently: its caller waits on and later commands may go out. A write that succeeds means that this command and all taken before it are out, also those whose own write had reported a failure. If the transport takes at least one byte of every write, all writes succeed.",
    "all schedules of requests and writes, all behaviours of the transport (partial writes, failures, recoveries), all segmentations",
    "partial writes and failures at every byte, in every combination, cannot be enumerated; sockets in tests take everything",
    ["src/connection.rs: ConnectionStream::send, start_connection", "src/codec.rs: Encoder::encode"])
add("What the brokers read of one client",
    "A consumer or producer has been built on a client, directly or behind the proxy, and the client has made no further connect. However the transports behave, whatever other clients do, however much of the bytes the brokers have read and however the stream was cut: the commands naming the client's id (subscribe, producer, send, ack, flow) that its broker has read are requests of this client, in the order of the calls, each at most once and unchanged; exactly the first k of them if the transport takes nothing more once it has failed; and no other connection carries any. For a consumer: the subscription first, then the initial permits, then acknowledgements and permits in order. If the application acknowledges only messages the consumer has returned, every acknowledgement read under the consumer's id names exactly one message its broker has sent to it - by the id it was sent with and, for the i-th message of a batch, batch index i.",
    "every schedule, every other client, every reply to the handshake, every behaviour of the transports, every amount of bytes read and every segmentation, every value decoder",
    "the composition of consumer, client, engine, connection, sink and codec over all schedules",
    ["src/consumer.rs", "src/producer.rs", "src/client.rs", "src/pulsar.rs", "src/client_manager.rs", "src/connection.rs", "src/codec.rs", "src/message.rs"])
add("Clients are served in the order of their registration",
    "Between two requests the engine polls its clients in the order in which they were registered. So a queued request waits for requests queued before it by the same client and for clients registered earlier, not for those registered later: until it is taken these are served at most once. A dropped client likewise keeps the later ones from being served more than once before the engine ends. There is no bound on clients registered earlier: one that keeps making requests can be served any number of times while the later ones wait. The same holds for connections, in an order that is arbitrary but changes only when a connection is added. The order never blocks the engine: if a client or connection has something, one of those up to it in the order can be taken from.",
    "every schedule in the polling order, every number of clients, connections and queued requests",
    "bounds over all schedules; starvation shows up only under particular loads",
    ["src/client_manager.rs: next, add_client", "src/connection_manager.rs: next, add_connection", "src/pulsar.rs: get_next"])
add("A request that completes was read by the broker that answered",
    "For every kind of request (connect, acknowledgement, lookup, subscription, producer creation, send by sequence number): if on each connection at most as many answers of that kind have arrived, at every moment, as commands of that kind have been read there, and no request of that kind is taken while another one of that kind is in flight, then for every request of that kind that completes with a response, the broker has read the very command of that request, unchanged, on the connection on which the response arrived - however the transports behave, however much of the bytes the brokers have read, however they are cut, whatever else is going on. For connects the second condition always holds. So when ack returns Ok, the broker has read an acknowledgement by that consumer of exactly that message; and when building a consumer or producer succeeds, its broker has read the connect, the lookup and the subscription (or producer creation) with its id, topic and name, in this order - behind the proxy after a connect and a lookup on the configured broker's connection - whether or not any write was reported to have failed. Without the second condition this fails: of two consumers that acknowledge at the same time, the second's ack can return Ok although its command has not even been written.",
    "every kind of request, every schedule, every behaviour of the transports and of the network, every history of reads",
    "counting answers against reads over all schedules and all cuts of the byte streams",
    ["src/command_resolver.rs", "src/pulsar.rs: handle_client_outbound, handle_connection_inbound", "src/client.rs: send_command_and_resolve, ack", "src/consumer.rs: ack", "src/connection.rs", "src/codec.rs"])
add("Loops that wait for each acknowledgement or send",
    "A consumer has been built on a client and the application calls next_message and acknowledges the messages in the order they are returned, each only when the acknowledgement before it has returned Ok (the loop of the README and the examples). Then at every moment - whatever the transports do, however much of the bytes the brokers have read, at whatever point the program stops - the acknowledgements under this consumer's id that its broker has read name exactly the first j messages the broker has sent to it, in the order sent, each once and each alone, where j is at least the number of acknowledgements that have returned Ok and at most the number of messages returned to the application; no other connection carries any. A producer whose application waits for each send or batch: the send commands under its id that its broker has read are exactly the first j calls in order, each once and unchanged, with j at least the number that have returned Ok. Conditions: brokers answer at most what they have read and send messages only where the consumer was subscribed, and no acknowledgement (or send with the same sequence number) of another client is in flight at the same time, which is automatic if no other client makes such requests.",
    "every schedule, every behaviour of the transports and of the network, every history of reads, every stopping point, every value decoder",
    "a statement about every prefix of every run (every crash point), composed over all layers",
    ["README.md", "examples/consumer.rs", "examples/producer.rs", "src/consumer.rs: next_message, ack", "src/producer.rs: send, send_batch", "src/client.rs", "src/command_resolver.rs", "src/pulsar.rs", "src/connection.rs", "src/codec.rs"])
add("What send_all and ack_all say when they return",
    "A producer has been built and send_all has returned while the engine goes on. If the brokers answer at most what they have read and no two sends with the same sequence number are in flight, the producer's broker has read every message that can be serialised, in the order given - although send_all reports success in any case; messages that cannot be serialised are left out silently. For ack_all this fails: when it returns and the engine goes on, every acknowledgement has been queued for the consumer's connection, in order, but the broker need not have read them - even if the consumer is the only client, all transports work and all brokers behave: there is a run in the polling order in which ack_all has returned Ok and the broker has not read the acknowledgement of the second message, because the answer to the first completes the second.",
    "every schedule, every list of messages or acknowledgements, every behaviour of the transports and of the network; the counterexample is one concrete run",
    "the order of taking, writing and answering is the scheduler's; the positive part ranges over all of them",
    ["src/producer.rs: send_all", "src/consumer.rs: ack_all", "src/client.rs", "src/command_resolver.rs", "src/pulsar.rs: handle_client_outbound, handle_connection_inbound", "src/connection.rs", "src/codec.rs"])
add("Permits between a consumer and its broker",
    "A consumer has been built on a client. However the transports behave and however much of the bytes the brokers have read: the permits its broker has read are the initial ones (twice the window) and those later calls granted, in order, each at most once - so never more than were granted - and no other connection carries any. A consumer read by calls that do not overlap (next_message on unbatched entries, or next_batch only) never waits unless the permits granted exceed the messages returned by more than the window; with next_message on unbatched entries, once everything has arrived and been read, the broker may send more than a whole further window: it does not stall. But reading an entry makes good only one permit with next_message and at most n with next_batch(n), none if it does not decode: if the entries the broker has sent use up the initial permits while what they make good stays below the window, a broker that keeps to the permits it has read never sends this consumer anything again.",
    "every schedule of the whole system (engine, connections, transports, other clients), every transport behaviour, every cutting of the byte stream, every interleaving of the consumer's calls (non-overlapping ones where stated), every window, batch size and decoder",
    "stalling is a statement about all continuations of a history; a test can only observe that nothing has arrived yet, and the permits depend on every interleaving of calls and on what part of the bytes was read",
    ["src/consumer.rs: check_and_flow, next_message, next_batch, connect", "src/client.rs: flow", "src/message.rs", "src/pulsar.rs", "src/connection.rs", "src/codec.rs"])
add("Only eight kinds of command are ever sent, and none before the handshake",
    "Every command a broker reads is a CONNECT, LOOKUP, SUBSCRIBE, PRODUCER, SEND, ACK, FLOW or PONG; nothing is ever unsubscribed, closed, redelivered, pinged or re-authenticated. If applications connect first, as the builders do, a broker that has read anything but connects and pongs on a connection has sent CONNECTED on that connection before; and if the transport fails for good, if at all, the first command on a connection, pongs aside, is a CONNECT. Once a consumer or producer has been dropped it makes no further requests: brokers only read what it had asked for before, and nothing tells them it is gone.",
    "all environments, schedules of applications, clients, connections and brokers, transports and parts of the bytes read", 
    "the absence of a command and the order of commands of several clients on shared connections concern every schedule and every behaviour of broker and transport",
    ["src/pulsar.rs: handle_client_outbound, handle_connection_inbound, send_to_connection", "src/client.rs", "src/message.rs", "src/connection.rs", "src/codec.rs"])
add("Left alone, an instance comes to rest, and then everything handed to it has been passed on",
    "While users call nothing and nothing arrives, the engine task and the connections' tasks take only a bounded number of steps, in whatever order they run and however their dials, authentications and writes end: six for each request clients have queued, one for each registration, two for each event and one for each command queued on a connection, one for each open connection and at most six for the call the engine is in. In the polling order they always get there. When they can do nothing more, either the engine has ended and so have all its connections; or a connect waits for its answer; or every registration has been handled, every request of every registered client has been forwarded and taken for writing by its connection, and, if there is a client, every event that has arrived has been looked at - so a request that is still pending waits only for its own answer: none has arrived since the engine took it; if whatever was written has been answered since, every call has completed, and every message that has arrived for a consumer has been received by it or waits in its channel. Once a registered client has been dropped, or the manager while no client is registered, they come to rest only with the engine and all connections ended (or a connect of another client waiting). The one thing that goes on for ever: once the manager has been dropped while a client remains, the engine's loop has a branch that is always ready and does nothing, so it spins, logging an error each time.",
    "every reachable state, every order in which the tasks run, every outcome of their calls",
    "termination over all schedules, and absence of lost work at every quiescent state",
    ["src/pulsar.rs: get_next, handle_next, next, run", "src/client_manager.rs: next", "src/connection_manager.rs: next", "src/connection.rs"])
add("Nothing is acknowledged that the application did not ask to be",
    "A consumer has been built and the application calls next_message, next_batch, ack and ack_all in any way, waiting or not. Whatever the transports do and however much of the bytes the brokers have read: the acknowledgements under this consumer's id that brokers have read are acknowledgements the application asked for, one message each, in the order of the calls and each at most once (exactly the first k if the transport, once it has failed, takes no more bytes), and all of them on the connection of the consumer's broker. So the library never acknowledges by itself: not when it returns a message, not when an entry cannot be decoded, not when the consumer is dropped and not on behalf of another consumer.",
    "every schedule, every sequence of calls, every transport behaviour, every part of the bytes read, any number of other clients",
    "the absence of a command over all schedules, and order under every failure of the transport, cannot be sampled",
    ["src/consumer.rs: next_message, next_batch, ack, ack_all", "src/client.rs: ack", "src/message.rs", "src/pulsar.rs", "src/connection.rs", "src/codec.rs"])
add("When the brokers answer what they are sent, every call returns",
    "The engine and the connections' tasks have come to rest, the engine has not ended, every connection that was made is still there, and every command that was written has been answered since on its connection. Then no call is left hanging: no connect waits, every call of a registered client has completed, and any sequence of calls an application makes one after the other has returned. In particular building a consumer or a producer has returned: Ok - unless the answer to its first lookup says Failed (the error ConnectionFailed) or Redirect (a panic) - provided no lookup and no subscription (producer registration) was taken up while another one was in flight, from this client or any other.",
    "every environment, every schedule in the polling order, any number of other clients, every program of calls, every builder argument",
    "that a call returns is a statement about all schedules and all orders of answers; a test that does not return has only timed out",
    ["src/pulsar.rs: get_next, handle_next, next, run", "src/client.rs", "src/consumer.rs: connect", "src/producer.rs: connect", "src/connection_manager.rs", "src/command_resolver.rs"])
add("As long as nothing has failed, every call can still return",
    "No connection has been broken, no stream damaged, no dial or authentication has failed and nobody has given up a client, a registration or the manager; requests and credentials are of sensible size. Then, however the instance has been used so far and whatever is outstanding, no deadlock is possible: from every state the tasks, polled in the engine's order and without any call failing, together with brokers that only answer commands they have been sent, with frames that can be sent, can bring the instance to a state of rest in which the engine and all connections are up, everything that was written has been answered, no registration waits, every client that made a request is registered and every request that waits for a response has completed. No further step of a user is needed.",
    "every environment, every reachable state in which nothing has failed, every polling order of the connections",
    "a deadlock is a property of a reachable state and all its continuations; tests only visit some states and cannot tell a deadlock from a slow answer",
    ["src/pulsar.rs: get_next, handle_next, handle_client_outbound, handle_connection_inbound, next, run", "src/client_manager.rs: next", "src/connection_manager.rs", "src/connection.rs", "src/resolver_manager.rs"])
add("Any program of calls can be run to its end as long as nothing has failed",
    "On an instance on which nothing has failed (no stream damaged, no connection lost, no call failed, nobody has gone away), in whatever state it is and whatever calls other clients have under way, a registered client that has made no call yet can run any program of calls, made and awaited one after the other, to its end: the tasks have steps to take, in the order in which the engine polls, and the brokers have answers to give, of those they are willing to give, after which every call of the program has returned. If the program returns a result of some kind on whatever its brokers are willing to answer, it returns such a result: none of its calls is dropped in favour of another, gets the answer of another kind of call or stays pending. In particular a consumer can always be built when lookups are answered with the topic's broker; so can a producer, and any list of messages it then sends is acknowledged.",
    "all environments, all reachable states in which nothing has failed, all programs of calls, all sets of answers that contain one for each kind of call; a continuation is shown to exist (the users of other clients do nothing but wait meanwhile)",
    "The absence of states from which a caller can no longer be served - a lost wake-up, a queue nobody reads, a stuck connect - is a statement about every reachable state; a test shows that one history goes on.",
    ["src/client.rs:84-123 Client::send_command, send_command_and_resolve", "src/client.rs:126-250", "src/consumer.rs:230-247 Consumer::connect", "src/producer.rs:48-70 Producer::connect, send", "src/pulsar.rs:55-300 PulsarEngine"])

add("Calls of different kinds made at once are all answered, each by its own answer",
    "On an instance on which nothing has failed there is a moment from which a client can make any calls at once, without waiting in between, as long as no two of those that wait are of the same kind (sends with different sequence numbers are of different kinds): each of them then completes with an answer of its own kind that a broker has given, and afterwards everything is as it was before, so that this can go on. In particular send_all of any number of messages returns, and every message that could be serialised has received the receipt with its own sequence number.",
    "all environments, all reachable states in which nothing has failed, all registered clients, all lists of requests of pairwise different kinds; a continuation is shown to exist",
    "Depends on every way in which a list of requests of any length can meet the engine's table of pending requests in any reachable state.",
    ["src/producer.rs:72-93 Producer::send_all", "src/client.rs:94-123", "src/command_resolver.rs:15-49", "src/pulsar.rs:126-230"])

add("As long as nothing has failed, everything that has arrived can be received",
    "As long as nothing has failed, whatever the state, the instance can go on - brokers answering what they have been sent, users waiting - to a point after which a client that keeps receiving gets everything it is owed: the engine has taken every event that has arrived on every connection, and the client has received, in order, each event from its broker that was for it and answered no request. In particular a consumer receives every message that has arrived for it from its broker by now, once and in order; and calls of next_message made from then on return the contents of all of them, together with what had been returned before, in order, each once.",
    "all reachable states of a live instance in which nothing has failed - any events untaken, in channels, in buffers, any requests of any clients unanswered - all clients and consumers, all payload types, all answers brokers are willing to give",
    "that a particular message comes through does not show that none can get stuck in a connection's queue, in the engine, in a channel or in the consumer's buffer, whatever else is going on",
    ["src/connection_manager.rs next", "src/pulsar.rs:197-232 handle_connection_inbound", "src/engine.rs:45-60 recv", "src/client.rs:125-131, 252-260 next, next_message", "src/consumer.rs:171-195 Consumer::next_message"])

add("As long as nothing has failed, all programs under way can be run to their ends",
    "Any number of clients each run a program of calls, each at whatever point of it: a request waiting to be taken, in flight, or about to be made. As long as nothing has failed, there is a continuation - brokers answer what they have been sent, the clients make the requests of their programs and users do nothing else - after which every one of the programs has returned. No set of clients can get in each other's way for good: not consumers and producers being built, behind the proxy or not, nor producers sending, and not even by superseding each other's requests, which makes a program return an error at worst.",
    "all reachable states of a live instance in which nothing has failed, all numbers of clients, all programs making requests of sensible size whatever they get (among them building a consumer, building a producer and sending with it, with all parameters), all points in them, all answers brokers are willing to give",
    "a deadlock between clients needs a particular interleaving of several handshakes; tests run a few interleavings of a few clients",
    ["src/client.rs:94-123, 155-184 send_command_and_resolve, lookup_topic", "src/consumer.rs:230-247 Consumer::connect", "src/producer.rs:48-70 Producer::connect, send", "src/pulsar.rs:126-300", "src/command_resolver.rs:15-49"])

add("Every ping gets its pong",
    "As long as nothing has failed and a client is registered, every PING that has arrived from a broker can still be answered: there is a continuation, in the polling order, in which no call fails and brokers only answer what they were sent, after which exactly as many PONGs have been written to that broker as PINGs have arrived from it. More generally, whenever an instance that is up has come to rest with no connect outstanding, the PONGs written to each broker are as many as the PINGs that arrived from it, and a broker that has read all bytes written decodes that many PONG commands.",
    "every configuration, every reachable state of an instance, every schedule in the polling order, every broker it is connected to, every behaviour of the transport in which no write fails",
    "A broker closes a connection whose pings are not answered; whether an answer can be lost or doubled depends on how pings interleave with requests, lookups and connects in flight, on all histories.",
    ["src/pulsar.rs: handle_connection_inbound, next, run", "src/connection.rs", "src/connection_manager.rs", "src/message.rs: Ping, Pong"])
out = os.path.join(os.path.dirname(__file__), "..", "properties.jsonl")
with open(out, "w") as f:
    for p in P: f.write(json.dumps(p) + "\n")
print(len(P))
for p in P: print(p["id"], p["title"])
