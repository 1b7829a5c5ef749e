{"id": "C01", "title": "Integer round trip through IAny", "statement": "For every Go integer v of any of the ten predeclared integer types (and every defined type over them), NewAny(v).Encode(buf) succeeds, and Decode on the same buffer followed by Int64() (signed) or Uint64() (unsigned) returns exactly the number v, with no error, and consumes exactly the bytes that were written. The same-width accessor (Int8() for an int8, ...) returns v as well.", "quantifier": "every integer value of every integer type, every buffer content that follows", "why_tests_cant": "2^64 values per type, with the interesting ones at the width boundaries, times every trailing buffer content", "anchors": ["codec/encoder.go encodeInt8..encodeInt64,encodeUint8..encodeUint64,encodeInt,encodeUint", "codec/decoder.go decode,readInt16..readUint64", "codec/any.go Int64,Uint64"]}
{"id": "C02", "title": "Float round trip, and exactly where it breaks", "statement": "For a float64 (float32) v, Encode then Decode then Float64() (Float32()) returns the same bit pattern if and only if the bit pattern is at least 2^32 (2^16); for every smaller bit pattern, including +0.0, Encode succeeds and Decode of its own output panics.", "quantifier": "every bit pattern of both float types, every following buffer content", "why_tests_cant": "2^64 bit patterns; the repository's tests sample 0.520 and -0.0052 and miss the failing region, which contains zero", "anchors": ["codec/encoder.go encodeFloat32,encodeFloat64,encodeUint32,encodeUint64", "codec/decoder.go decode (cFloat32,cFloat64 cases)"]}
{"id": "C03", "title": "String, bool and nil round trip", "statement": "Every string shorter than 2^32 bytes, every bool and nil is returned unchanged by Encode followed by Decode and the String/Bool/Any accessor, and the bytes after it in the buffer are left untouched.", "quantifier": "every byte string below 2^32 bytes (any bytes, also NUL and invalid UTF-8), every bool, every following buffer content", "why_tests_cant": "unbounded set of strings and lengths, including the empty string at end of buffer", "anchors": ["codec/encoder.go encodeString,encodeBool,encodeNil", "codec/decoder.go decode", "codec/any.go String,Bool,Any"]}
{"id": "C04", "title": "Structured values round trip", "statement": "For every finite nesting of slices/arrays and maps over supported scalars in which no float has a crashing bit pattern and no map has keys that collide or become unhashable on the wire, Decode(Encode(v)) yields a value of the same shape: same array order and length, same map entries, every scalar numerically equal (integers come back in the narrowest wire type, float32 elements come back widened to float64 with the same real value).", "quantifier": "every value tree of every depth and width below 2^32 elements per level, every map iteration order", "why_tests_cant": "unbounded nesting depth and width; map order is randomised by the Go runtime", "anchors": ["codec/encoder.go encodeValue,encodeArray,encodeMap", "codec/decoder.go decodeArray,decodeMap,decode"]}
{"id": "C05", "title": "Encodings are self-delimiting: streams of values", "statement": "Encoding any finite sequence of values into one buffer and decoding that many times returns the values in order, and leaves the buffer empty; no encoding is a proper prefix of another encoding.", "quantifier": "every finite sequence of supported values", "why_tests_cant": "sequences of unbounded length of arbitrary values", "anchors": ["codec/any.go Encode,Decode", "protocol.go protoRpcRequest.Marshal,protoRpcRequest.Unmarshal"]}
{"id": "C06", "title": "Decode terminates and consumes a prefix", "statement": "Decode of any finite byte buffer terminates, with a value, an error or a panic; what it leaves in the buffer is a suffix of what was there, strictly shorter whenever the buffer was not empty; every value it produces is made only of types in the wire universe (nil, bool, sized ints, floats, string, []interface{}, map[interface{}]interface{}) in range.", "quantifier": "every finite byte string, including hostile length and count fields up to 2^32-1", "why_tests_cant": "all byte strings; a count field of 2^32-1 with few bytes behind it cannot be enumerated", "anchors": ["codec/decoder.go decode,decodeArray,decodeMap,readByte"]}
{"id": "C07", "title": "Truncated input", "statement": "Decoding a proper prefix of an encoding never returns a value different from the encoded one with a nil error. The code violates this: cutting an encoding inside a multi-byte integer or inside a string body yields a zero-filled value and no error. A cut right before the payload, or an empty buffer, is reported as an error.", "quantifier": "every encodable value and every cut point", "why_tests_cant": "needs all values and all cut points; no test in the repository truncates anything", "anchors": ["codec/decoder.go readUint16,readUint32,readUint64,decode (cStr32)"]}
{"id": "C08", "title": "Unknown or missing tag is an error", "statement": "Decode of a buffer whose first byte is not one of the sixteen supported type codes, or of an empty buffer, returns a non-nil error, never a value and never a panic, and Any() is nil afterwards.", "quantifier": "every byte value and every continuation", "why_tests_cant": "241 bad tags times every continuation", "anchors": ["codec/decoder.go decode", "codec/code.go"]}
{"id": "C09", "title": "Encode refuses exactly the unsupported kinds", "statement": "Encode into an in-memory buffer returns an error if and only if the value contains, at some depth reachable by the encoder, a value of an unsupported kind (struct, pointer, func, chan, complex); otherwise it succeeds.", "quantifier": "every value tree", "why_tests_cant": "unbounded nesting; the offending leaf can be anywhere", "anchors": ["codec/encoder.go encodeValue,encodeArray,encodeMap,encode"]}
{"id": "C10", "title": "Integer wire size", "statement": "An unsigned integer n takes 2, 3, 5 or 9 bytes for n < 2^8, < 2^16, < 2^32, and larger; a signed integer z takes 2, 3, 5 or 9 bytes for |z| < 2^7, < 2^15, < 2^31, and larger, where a top level value of a narrower static type never takes more than its own width; two integers of the same signedness have the same encoding inside a container iff they are the same number, whatever their Go types.", "quantifier": "every integer of every type", "why_tests_cant": "2^64 values per type", "anchors": ["codec/encoder.go encodeUint16..encodeInt64", "codec/code.go cUint8Max..cInt32Min"]}
{"id": "C11", "title": "Accessor arithmetic", "statement": "On a decoded integer, an accessor of the same signedness at least as wide returns the exact number; a narrower accessor returns the number reduced modulo 2^width in two's complement and still reports success; an accessor of the other signedness or another kind returns an error and never a value.", "quantifier": "every decoded value and every accessor", "why_tests_cant": "all pairs of values and accessors", "anchors": ["codec/any.go Int,Int8,Int16,Int32,Int64,Uint,Uint8,Uint16,Uint32,Uint64,Bool,String,Float32,Float64,Arr,Map"]}
{"id": "C12", "title": "Accessor safety", "statement": "After any history of successful Decodes on one IAny no accessor panics, and the accessor matching the decoded type succeeds. After a failed Decode this is violated: the kind of the previous value is kept while the value is dropped, so the accessor that matched the previous value panics.", "quantifier": "every history of Decode calls over arbitrary buffers on one object, every accessor", "why_tests_cant": "depends on the whole decode history of the object, over arbitrary bytes", "anchors": ["codec/any.go Decode,normalize and all accessors"]}
{"id": "C13", "title": "NewAny accessor coverage", "statement": "NewAny(v) followed by the accessor for v's own type returns v for bool, string, sized integers, floats, []interface{} and map[interface{}]interface{}; for int, uint and any defined type the accessor reports an error although Encode works; for other slice or map types (e.g. []int, map[string]int) Arr()/Map() panics.", "quantifier": "every Go value and every accessor", "why_tests_cant": "all values and types", "anchors": ["codec/API.go NewAny", "codec/any.go normalize,Int,Uint,Arr,Map"]}
{"id": "C14", "title": "Re-encoding is stable", "statement": "Encoding the value obtained by decoding an encoding gives back byte for byte the same encoding (maps taken in the same order), so a value relayed through any number of hops does not drift.", "quantifier": "every value tree that round trips, any number of hops", "why_tests_cant": "every value and unboundedly many hops", "anchors": ["codec/encoder.go encode,encodeValue", "codec/decoder.go decode"]}
{"id": "C15", "title": "Decode under short reads", "statement": "Decode from any io.Reader depends only on the bytes it delivers, not on how they are split across Read calls. The code violates this: a reader that splits a multi-byte field delivers a different value without error. It holds for every split that does not cut a field.", "quantifier": "every byte string, every split into Read results", "why_tests_cant": "exponentially many splits of arbitrary inputs", "anchors": ["codec/decoder.go readUint16,readUint32,readUint64,decode", "codec/API.go IAny.Decode"]}
{"id": "C16", "title": "Encode reports write failures", "statement": "If Encode returns nil then every byte of the encoding reached the writer, for any writer that may fail any write. Violated for floats: the failure of the tag write is ignored. It holds for every value without floats.", "quantifier": "every value and every pattern of write failures", "why_tests_cant": "all failure patterns of the writer", "anchors": ["codec/encoder.go encodeFloat32,encodeFloat64,encodeString,encodeArray,encodeMap"]}
{"id": "C17", "title": "Maps on the wire: collisions and unhashable keys", "statement": "A Go map is restored entry for entry by Encode/Decode exactly when its keys stay distinct and hashable after wire narrowing; keys of different integer types with the same number collapse into one entry, a NaN key's value is replaced by nil, and an array-typed key makes Decode of the encoder's own output panic.", "quantifier": "every map and every iteration order", "why_tests_cant": "all maps, keys and iteration orders", "anchors": ["codec/encoder.go encodeMap", "codec/decoder.go decodeMap"]}
{"id": "C18", "title": "Protocol messages round trip", "statement": "For each of the nine packet types and all field values (argument and result lists that round trip in the codec), Unmarshal(Marshal(packet)) yields a packet of the same type with equal fields, argument and result lists up to wire narrowing.", "quantifier": "every packet of every type with every field content below the frame size limit", "why_tests_cant": "unbounded field contents", "anchors": ["serializer.go Marshal,Unmarshal", "protocol.go"]}
{"id": "C19", "title": "Framing", "statement": "For a packet whose body is below 2^32 bytes, Slice applied to its frame followed by anything returns exactly the frame length, and applied to any proper prefix of the frame returns 0 (wait for more).", "quantifier": "every packet, every continuation, every cut", "why_tests_cant": "all packets, continuations and cut points", "anchors": ["serializer.go Slice,Marshal"]}
{"id": "C20", "title": "Stream reassembly under any segmentation", "statement": "However the byte stream of a sequence of packets is cut into Read results, the receiver dispatches exactly those packets, in order, once each, none early; bytes of an incomplete packet are kept for later.", "quantifier": "every packet sequence and every segmentation of the stream, at every prefix", "why_tests_cant": "exponentially many segmentations of unbounded streams", "anchors": ["network/peer.go run (recv routine)", "serializer.go Slice,Unmarshal"]}
{"id": "C21", "title": "Hostile frames", "statement": "No frame received from the network can take the process down. The code violates this: a well-formed frame carrying an unknown packet id, a short body or a non-string slot list makes the receiver panic or exit. A frame produced by Marshal never does (as long as no float has a crashing bit pattern).", "quantifier": "every byte string accepted by Slice", "why_tests_cant": "all byte strings", "anchors": ["serializer.go Unmarshal", "protocol.go Unmarshal methods"]}
{"id": "C22", "title": "Text serializer segmentation", "statement": "With the txt serializer the receiver delivers exactly the NUL-terminated segments of the concatenated stream, terminator included, in order, independent of segmentation, and keeps the unterminated tail; a sent string is delivered as itself iff it contains exactly one NUL, at its end, and the stream before it was NUL-terminated.", "quantifier": "every sequence of strings and every segmentation", "why_tests_cant": "all strings and segmentations", "anchors": ["network/txt_serializer.go", "network/peer.go run (recv routine)"]}
{"id": "C23", "title": "Peer sends in order, drops only when full", "statement": "The packets a connection writes are the packets passed to Send, in order, without duplicates; a packet is missing only if 20 packets were queued at the moment of its Send, and a drop is silent.", "quantifier": "every interleaving of Send calls with the sending routine", "why_tests_cant": "all interleavings and queue fill levels", "anchors": ["network/peer.go Send,run (send routine)"]}
{"id": "C24", "title": "Peer close stops sending", "statement": "Once close has put its stop mark into the send queue nothing queued later is ever written, and once it has closed the connection nothing at all is. Without write errors the sender ends exactly after everything queued before the mark. Two expectations fail: close does not wait, so packets accepted before it can be lost, and if the queue is full at close time the stop mark itself is dropped.", "quantifier": "every interleaving of Send, close and the sending routine", "why_tests_cant": "all interleavings", "anchors": ["network/peer.go close,Send,run"]}
{"id": "C25", "title": "One response per request", "statement": "Every request put to a callee is answered at most once, by the method's result or by the timeout, never both, in every schedule of the handler, the timers and the callers.", "quantifier": "every schedule, any number of callers and requests, every timing of the timers", "why_tests_cant": "all interleavings of handler and timer goroutines", "anchors": ["chancall/callee.go result,track,process", "chancall/data.go"]}
{"id": "C26", "title": "A feature's methods run one at a time, in arrival order", "statement": "Methods of one callee never overlap, run in the order in which their requests entered the queue, each request is executed at most once, and the object's state after any history is the result of applying those calls sequentially.", "quantifier": "every schedule and any number of concurrent callers", "why_tests_cant": "all schedules", "anchors": ["chancall/callee.go handling,process", "chancall/API.go NewCallee"]}
{"id": "C27", "title": "A caller gets the answer to its own call", "statement": "When each caller object is used by one goroutine at a time, the value returned by Call/CallWithResult is the result of that very invocation (its method applied to its arguments in its turn) or its own timeout error; a late result of a timed-out call never reaches a later call. With a caller object shared by two goroutines this fails: answers can be swapped.", "quantifier": "every schedule, any number of callers, any history of timeouts", "why_tests_cant": "all schedules and timeout histories", "anchors": ["chancall/caller.go Call,CallWithResult,call", "chancall/callee.go result,track"]}
{"id": "C28", "title": "Timeout duration", "statement": "A call reports a timeout only after at least the configured number of seconds truncated toward zero has passed since its execution began; so a setting below one second is a zero timeout, which may fire before any method body completes. SetTimeout affects the named method only, unknown names are ignored, and the default is one second.", "quantifier": "every float32 setting, every method, every schedule", "why_tests_cant": "all float settings and all schedules", "anchors": ["chancall/callee.go track", "chancall/meta.go timeout,setTimeout", "slot.go SetTimeout"]}
{"id": "C29", "title": "Queued calls have no timeout", "statement": "Call returns within its timeout. Violated: the timer starts only when the handler picks the request up, so in every continuation of a state where a method never returns, requests behind it are neither executed nor timed out.", "quantifier": "every continuation schedule in which the running method does not return", "why_tests_cant": "an infinite-schedule property", "anchors": ["chancall/callee.go handling,process,track"]}
{"id": "C30", "title": "Dispatch by name, arity and conversion", "statement": "Calling an existing method with as many arguments as it has parameters, each convertible, runs exactly that method with the converted arguments and returns its results in order; calling an unknown method runs nothing and returns no results and no error; a wrong arity or inconvertible argument panics.", "quantifier": "every method table, method name and argument list", "why_tests_cant": "all method tables and argument lists", "anchors": ["chancall/meta.go collect,call"]}
{"id": "C31", "title": "Hub port allocation", "statement": "Over any history of registrations, the ports the hub hands out to one host are strictly increasing, hence pairwise distinct, greater than 20000, at most 49000, and never blacklisted; the search always terminates; when no port is left the hub exits rather than reuse one.", "quantifier": "every history of registrations from any hosts, every blacklist, any interleaving of handlers", "why_tests_cant": "all histories and blacklists", "anchors": ["hub.go allocate,OnPacket"]}
{"id": "C32", "title": "Hub query answers", "statement": "A query for a feature is only ever answered with the address (host:allocated port) of a dock that registered that feature and has since declared itself ready, namely one registered no earlier than every dock that was ready when the answering polling round began; each query is answered at most once, to the peer that asked.", "quantifier": "every interleaving of register, ready and query handlers, any number of docks and features", "why_tests_cant": "all interleavings and histories", "anchors": ["hub.go OnPacket,respondQueryImme"]}
{"id": "C33", "title": "Hub query for an absent feature", "statement": "A query for a feature that no ready dock offers is never answered, and once such a dock is ready every later polling round of the query answers it.", "quantifier": "every history", "why_tests_cant": "unbounded waiting; liveness over all schedules", "anchors": ["hub.go OnPacket (cQueryRequest)"]}
{"id": "C34", "title": "Hub keeps serving departed docks", "statement": "Query answers name live docks. Violated: disconnection changes nothing in the hub, so the address of a dock that left keeps being handed out in every continuation until a newer one is ready.", "quantifier": "every history with disconnections", "why_tests_cant": "all histories", "anchors": ["hub.go OnClosed,OnPacket"]}
{"id": "C35", "title": "Address of a registrant", "statement": "The host part handed out for a registrant with remote address host:port is host for every host without a colon (IPv4, names); for bracketed IPv6 addresses it is the prefix before the first colon, so distinct IPv6 hosts share one port pool and get an unusable address.", "quantifier": "every remote address string", "why_tests_cant": "all strings", "anchors": ["hub.go pickIP"]}
{"id": "C36", "title": "Local features are called locally", "statement": "Call/CallWithResult on a feature carried by the same dock never sends a packet and creates no pending call, whether or not the feature is discoverable; any other name creates a pending remote call.", "quantifier": "every dock state and name", "why_tests_cant": "all dock states", "anchors": ["dock.go call,callWithResult", "slot.go Call,CallWithResult"]}
{"id": "C37", "title": "Only discoverable features are announced", "statement": "Every packet in which a dock announces its features (registration and ready) lists exactly the discoverable features it carries, each once, in every state up to Close; each connection gets exactly one announcement (none but the due one, and that one once the announcer has run).", "quantifier": "every set of features, every history of packets", "why_tests_cant": "all feature sets and histories", "anchors": ["dock.go collect,OnConnected,OnPacket"]}
{"id": "C38", "title": "Remote call sent at most once, to a dock that announced the feature", "statement": "In every history of packets, calls and schedules, the request of one remote call is put on the wire at most once, unchanged (name, method, arguments), and only to a peer that announced the called feature, namely the latest one that did.", "quantifier": "every interleaving of calls and incoming packets", "why_tests_cant": "all interleavings", "anchors": ["dock.go commit,OnPacket", "rpc.go"]}
{"id": "C39", "title": "Replies reach their own call", "statement": "If call identifiers are distinct, a pending remote call returns only through a response carrying its identifier, with that response's results and error text (nil error iff the text is empty), and a response never completes another call. Identifiers are clock readings: if two calls read the same nanosecond, one caller receives the other's answer or waits forever.", "quantifier": "every interleaving of calls and responses, every clock behaviour", "why_tests_cant": "all interleavings and clock readings", "anchors": ["rpc.go newRpc,call,callWithResult,callback", "dock.go OnPacket (cRpcResponse)"]}
{"id": "C40", "title": "Serving side: one execution and one reply per request", "statement": "For each RPC request received for a carried feature the method is executed at most once and exactly one response goes back, to the peer that asked, with the request's identifier, feature and method and the outcome of the invocation; a request for a feature not carried is dropped without any response.", "quantifier": "every history of incoming packets and schedules", "why_tests_cant": "all histories", "anchors": ["dock.go OnPacket (cRpcRequest)"]}
{"id": "C41", "title": "Duplicate response crashes the caller's dock", "statement": "No packet from a peer can crash a dock. Violated: a second response with the identifier of a call, arriving before the first one's clean-up, is sent on a closed channel and panics; without duplicates the dock never does so.", "quantifier": "every schedule of two handlers and one caller", "why_tests_cant": "needs a specific interleaving", "anchors": ["rpc.go callback,call", "dock.go OnPacket (cRpcResponse)"]}
{"id": "C42", "title": "Commit race", "statement": "Committing a pending call never crashes. Violated: the check that a request is still unsent is made outside the lock, so a caller and a ready-handler (or two ready-handlers) can both reach the commit of one call and the second dereferences nil. Serialised commits never do.", "quantifier": "every interleaving of committing goroutines", "why_tests_cant": "needs a specific interleaving", "anchors": ["dock.go OnPacket (cReady),commit"]}
{"id": "C43", "title": "The hub connection is the one queries go to", "statement": "Queries are sent on the hub connection. Violated: the hub socket is recorded only after dialling returned, so if the hub's registration reply is handled first, the dock's own listening socket takes its place and every later query goes to the wrong peers, in every continuation. It holds in every schedule in which run() finished before the first packet.", "quantifier": "every interleaving of run() and packet handlers", "why_tests_cant": "needs a specific interleaving", "anchors": ["dock.go run,OnPacket (cRegisterResponse),commit"]}
{"id": "C44", "title": "Feature life cycle", "statement": "Each carried feature's OnStart runs once per registration reply (so exactly once when the hub replies once), never before it; Close runs OnDestroy exactly once per feature, closes the sockets in reverse order of creation, and afterwards requests are ignored and a second Close does nothing.", "quantifier": "every history of packets and Close calls", "why_tests_cant": "all histories", "anchors": ["dock.go Close,start,OnPacket", "runtime.go wait,destroy"]}
{"id": "C45", "title": "Lost packet hangs the call", "statement": "A remote call eventually returns. Violated: if the send queue is full the request (or the response) is dropped silently and the call is marked as sent, so no later packet for it is ever produced.", "quantifier": "every continuation", "why_tests_cant": "an infinite-schedule property", "anchors": ["network/peer.go Send", "dock.go commit"]}
{"id": "C46", "title": "Set behaves as a set", "statement": "For every sequence of Add/Remove/ToSlice over hashable, self-equal items, Add returns true iff the item was absent, Remove true iff present, and ToSlice lists each member exactly once; NaN items are never found again and unhashable items panic.", "quantifier": "every operation sequence over every item type", "why_tests_cant": "all operation sequences", "anchors": ["misc/set.go"]}
{"id": "C47", "title": "Visit caches one proxy per name", "statement": "As long as visits of one name on one slot do not overlap, Slot.Visit(name) returns the same proxy for every later call once a maker was registered that produced one, and nil while none is registered; a later Register of the same name affects only slots that have not visited it. Overlapping first visits make several proxies, the last stored wins.", "quantifier": "every history of Register and Visit", "why_tests_cant": "all histories", "anchors": ["slot.go Visit", "registry.go"]}
{"id": "C48", "title": "Remote call equals local call", "statement": "For a method of a remote feature whose parameters and results are of wire-supported types, with arguments of exactly those types, the whole pipeline request -> bytes -> frame -> decode -> argument conversion -> method -> response -> bytes -> decode delivers the same arguments to the method as a local call does and returns results numerically equal to the local ones, however the connections cut the bytes. Excluded, with the outcome stated: values the codec cannot carry (unsupported kinds end the caller, floats with small bit patterns such as 0.0 end the callee), signalling float32 NaNs, messages beyond the frame limit, and int values that do not fit the other platform's int.", "quantifier": "every method, every argument list of every supported type, every result list", "why_tests_cant": "composition of all layers over unbounded values", "anchors": ["dock.go call,OnPacket", "rpc.go", "protocol.go", "serializer.go", "chancall/meta.go call"]}
{"id": "C49", "title": "Generated proxies and result types", "statement": "A generated proxy returns the same value whether the feature is local or remote. Violated for int, uint, float32 and for every sized integer whose value fits a narrower type: the proxy's type assertion panics on the remotely decoded result. It holds for bool, string and float64 results (non-crashing bit patterns). A nil result of an interface type makes the proxy panic, local or remote.", "quantifier": "every result type and value", "why_tests_cant": "all values of all types", "anchors": ["tool/ferry.gen.go gencode", "test/proxy.gen.go", "codec/decoder.go"]}
{"id": "C50", "title": "Proxy generation preserves signatures", "statement": "For every interface declaration with one name per parameter and plain identifier types, the generated proxy has exactly the methods of the interface with the same parameter and result types and forwards all parameters in order; a grouped parameter list (x, y T) silently loses parameters, and string (or any non-numeric, non-bool) results get the default nil, which is not a value of type string.", "quantifier": "every interface declaration", "why_tests_cant": "all interface declarations", "anchors": ["tool/ferry.gen.go parseFile,genProxyCode,gencode"]}
{"id": "C51", "title": "Mock network delivers what was written", "statement": "On the mock network each Write of at most the reader's buffer size is delivered whole, in order, exactly once to the other end; a larger Write loses its tail silently.", "quantifier": "every sequence of writes and reads of every size", "why_tests_cant": "all sequences and sizes", "anchors": ["network/mock.go conn.Read,conn.Write,Accept,Dial"]}
{"id": "C52", "title": "End-to-end RPC over hub and docks", "statement": "In a system of one hub and any number of docks, in every schedule of deliveries, if a remote call of a dock whose calls have distinct identifiers returns then the called method was executed exactly once for that call, on a dock carrying the feature as discoverable, with the caller's arguments, and the caller got that execution's results; a request that gets through is answered. Without distinct identifiers (two calls in one nanosecond) it is false.", "quantifier": "every number of docks, features, calls and every schedule", "why_tests_cant": "unbounded distributed executions", "anchors": ["hub.go", "dock.go", "rpc.go"]}
{"id": "C53", "title": "Closing a connection while it receives", "statement": "Closing a connection while packets arrive never takes the process down. Violated: the receive routine tests the sink and then reads it again for the call, so a close between the two makes it call a method on nil. It holds in every schedule in which no close clears the sink between test and call, and once a close has returned the sink hears nothing more.", "quantifier": "every interleaving of received packets, read errors and any number of closes", "why_tests_cant": "all interleavings", "anchors": ["network/peer.go run (recv routine), close"]}
{"id": "C54", "title": "Closed notification", "statement": "A sink is told OnClosed exactly once when a peer is closed locally, however many closes race, and never because the remote side disconnected.", "quantifier": "every interleaving of received packets, read errors and any number of closes", "why_tests_cant": "all interleavings", "anchors": ["network/peer.go run (recv routine), close"]}
{"id": "C55", "title": "A socket sends to and closes all its peers", "statement": "Send on a socket passes the packet once to each connection accepted so far, in order; Close closes all of them. Violated for a connection being accepted while Close runs: it stays open for ever. It holds when no accept overlaps Close.", "quantifier": "every interleaving of accepts, sends and one Close", "why_tests_cant": "all interleavings and numbers of connections", "anchors": ["network/socket.go Listen,Send,Close"]}
{"id": "C56", "title": "A registration is recorded in full and answered once", "statement": "Each registration packet of a dock gets exactly one reply, in order, carrying the port allocated for it, and before that reply every feature it lists was recorded, in order, under that port; nothing else is ever recorded for the dock.", "quantifier": "every interleaving of register, ready and query handlers of any number of docks", "why_tests_cant": "all interleavings and numbers of docks", "anchors": ["hub.go OnPacket (cRegisterRequest)"]}
{"id": "C57", "title": "A ready packet marks its sender's registration", "statement": "Once a ready packet of a dock has been handled, for each feature it lists which the dock had registered, the dock's first registration of that feature is marked ready, and no other registration is ever marked. Consequence (finding): a dock registering again on one connection is never served at its newer port.", "quantifier": "every interleaving of register, ready and query handlers of any number of docks", "why_tests_cant": "all interleavings and numbers of docks", "anchors": ["hub.go OnPacket (cReady)"]}
{"id": "C58", "title": "Calls after Close", "statement": "A call made through a closed dock fails cleanly. Violated: the pending call is recorded and committed, the commit indexes the emptied list of sockets, and the process panics, in every state in which Close has ended, no socket was opened since and the called feature is not in the cache.", "quantifier": "every dock state after Close", "why_tests_cant": "all histories before Close", "anchors": ["dock.go Close,commit"]}
{"id": "C59", "title": "Unreachable address", "statement": "A dock survives the failure of another one. Violated: an address packet naming a dock that cannot be dialled ends the whole process (log.Fatal), in every state in which the packet is handled; a dock is ended so exactly when a Listen or a Dial of its own has reported an error.", "quantifier": "every dock state, every address", "why_tests_cant": "all states", "anchors": ["dock.go OnPacket (cQueryResponse)", "network/socket.go Dial"]}
{"id": "C60", "title": "A ready packet wakes every pending call", "statement": "When a ready packet lists a feature, every call of that feature which is pending with an unsent request when the handler starts on the feature, and still pending when it has finished with it, has been committed by then, or a query for the feature has gone out.", "quantifier": "every interleaving of handlers, callers and callbacks", "why_tests_cant": "all interleavings", "anchors": ["dock.go OnPacket (cReady), commit"]}
{"id": "C61", "title": "Packets of other docks are handled in full", "statement": "By the time the next packet of a peer is handled, or its receive routine is idle, the last one has had its full effect: a registration was answered with exactly one ready packet and every listed feature recorded for that peer, in order; a registration reply opened the listening socket and sent one ready packet; an address opened a connection; nothing else was recorded or announced. A busy routine can always be run to its end by its own steps, unless the dock crashes on the way.", "quantifier": "every interleaving of handlers, callers and callbacks", "why_tests_cant": "all interleavings", "anchors": ["dock.go OnPacket"]}
{"id": "C62", "title": "Answered calls return", "statement": "With distinct identifiers, once a response for a pending call was received, the call returns: in every reachable state in which neither the delivering goroutines nor the caller can take a step, it has returned.", "quantifier": "every interleaving of calls, responses and handlers", "why_tests_cant": "all interleavings", "anchors": ["dock.go OnPacket (cRpcResponse)", "rpc.go callback,call,callWithResult"]}
{"id": "C63", "title": "Float conversions are IEEE-754", "statement": "Converting float64 to float32 (the Float32 accessor of a decoded value, a float64 argument for a float32 parameter) gives the nearest float32, ties to even, infinity from 2^128 less half a unit on, and keeps sign, infinities and NaN; converting float32 to float64 (the Float64 accessor, a float32 argument for a float64 parameter, a float32 in a container on the wire) is exact.", "quantifier": "every bit pattern", "why_tests_cant": "2^64 patterns", "anchors": ["codec/any.go Float32,Float64", "codec/encoder.go", "chancall/meta.go call"]}
{"id": "C64", "title": "Discovery leads to a dock that serves", "statement": "In a system of one hub and any number of docks, in every schedule, an address that a dock is given by the hub answers a query this dock made and belongs to a dock that carries the feature as discoverable, registered it, was told its port and had opened a listening socket on it.", "quantifier": "every number of docks, every connection pattern, every schedule", "why_tests_cant": "unbounded distributed executions", "anchors": ["hub.go", "dock.go OnConnected,OnPacket"]}
{"id": "C65", "title": "A connection delivers what it queued", "statement": "Between two connected peers, in every interleaving of sending goroutines, the send routine, and reads in pieces of any size: as long as the packets sent are encodable, neither end panics, and what the receiver's sink gets is a prefix of what Send queued, in that order, each packet equal up to Go types; a goroutine's packets are queued in the order it sent them; Send drops only on a full queue of 20; when nothing fails, steps remain possible until everything queued has arrived, and they come to an end.", "quantifier": "every schedule, every packet sequence, every fragmentation, both word sizes at either end", "why_tests_cant": "unbounded schedules and fragmentations", "anchors": ["network/peer.go run,recv,Send,Close", "network/packer.go", "protocol.go"]}
{"id": "C66", "title": "Calls end to end", "statement": "In a system of a hub and docks with their features, each feature behind its own callee: whatever a feature executes was asked for by a request its dock accepted or by a local call, once, with those arguments; a remote call returns only with the result of its one execution by the object of its feature at a dock that carries it, on the arguments as they arrived, or with the error of a call that timed out; the object is what the executed methods, one at a time, make of its first state, and a call made after another one returned is executed after it; once the features of a running dock have nothing left to do, every request accepted was replied to, every local call returned, and every remote call whose request went out returned if nothing was lost; a panic in a method ends its dock for good. A call that returned an error may have been executed.", "quantifier": "every number of docks and features, every target object, every schedule", "why_tests_cant": "unbounded distributed executions over arbitrary objects", "anchors": ["dock.go OnPacket,Call,CallWithResult", "rpc.go", "chancall/caller.go", "chancall/callee.go", "chancall/meta.go"]}
{"id": "C67", "title": "Methods that call, and calls in a circle", "statement": "A method may call features while it runs. Features of a set each of which runs a method waiting for another of the set that has not picked the request up are stuck for ever: no timeout frees them, they pick nothing up, and no call of theirs not yet picked up returns; a method calling its own feature is such a case. There is no other way to be stuck: when nothing happens by itself any more and all timeouts are over, every method still in a call is on or leads to such a circle, and if no calls ever went in a circle, all calls have returned. What happens by itself ends after at most 17 steps per call. A method gets the answer to its own request.", "quantifier": "every number of features, every target object, every pattern of nested calls, every schedule", "why_tests_cant": "deadlocks depend on schedules and on the pattern of calls; timeouts hide them in tests", "anchors": ["dock.go Call,CallWithResult,OnPacket", "chancall/caller.go", "chancall/callee.go"]}
{"id": "C68", "title": "Which shared memory is free of data races", "statement": "Whatever a program calls and whatever packets arrive, no two goroutines are ever about to use, one of them to write, a dock's table of remote slots, the done flag of a request or the table of proxy makers; until ferry.Close is called, the same holds for the hub's tables, a dock's slots and a peer's sink. Every other piece of shared memory has such races: the lists of docks with a feature and their ready flags, a dock's sockets and pending calls, a pending call's request, proxies and timeouts of a feature, the serializer table, the instance list, the mock network's tables. No goroutine waits for a mutex whose holder cannot release it.", "quantifier": "every number of hubs, docks, features, peers and packets, every schedule", "why_tests_cant": "data races depend on the schedule; the race detector only sees the schedules it runs", "anchors": ["hub.go", "dock.go", "rpc.go", "slot.go", "runtime.go", "network/socket.go", "network/peer.go", "network/mock.go", "network/API.go", "chancall/callee.go", "chancall/meta.go"]}
{"id": "C69", "title": "Peers on the mock network", "statement": "On a connection of the mock network the receive routine of a peer reads the frames the other peer wrote, in order, each cut to 10240 bytes, all but possibly the last; packets (or texts) whose frames fit arrive unchanged, in order, and leave nothing behind; a packet with a longer frame does not arrive, and the packets after it, as many bytes as were cut off, are taken for its rest.", "quantifier": "every schedule, every packet sequence", "why_tests_cant": "tests send short packets only", "anchors": ["network/mock.go Read,Write", "network/peer.go run", "serializer.go"]}
{"id": "C70", "title": "Which serializer and network a socket gets", "statement": "A socket uses the serializer last registered under its name when it was made, and its connections keep it whatever is registered later; the name txt means the built-in text serializer unless the program registered another one after the first socket was made, so one registered before is never used. Made under an unknown name a socket has none, and the first packet sent or bytes received take the process down; a socket made under a name registered before, as hubs and docks do, never does. A socket is opened on the mock network exactly if Mock(\"tcp\") was called before. Opening exits the process only if the network reports an error or a socket without a sink dials. A peer is its own (IsSelf) exactly if it was dialled.", "quantifier": "every sequence of registrations, Mock calls, sockets, connections and packets", "why_tests_cant": "unbounded sequences; process-wide tables make tests depend on their order", "anchors": ["network/API.go NewSocket,Mock,ExtendSerializer", "network/inet.go", "network/socket.go Listen,Dial", "network/peer.go newPeer,run"]}
{"id": "C71", "title": "Every call is answered", "statement": "In a network of one hub and any number of docks whose connections are made only by dialling the addresses the hub handed out: the connections have two matching ends; docks of one machine never listen on the same port; a dock that dials an address reaches a dock carrying, as discoverable, a feature it has called, not itself; and when nothing is left to do, no process has died, no dock was closed and nothing was lost, every call of a feature that some connected dock carries has returned exactly once, with what its one execution gave. A request dropped by a full queue leaves its call waiting for ever.", "quantifier": "every number of docks, every distribution over machines, every schedule", "why_tests_cant": "unbounded distributed executions", "anchors": ["hub.go OnPacket,allocPort", "dock.go OnConnected,OnPacket,Call,CallWithResult,run", "network/socket.go Listen,Dial"]}
{"id": "C72", "title": "Down to the bytes", "statement": "A hub and docks whose packets travel as bytes - send queues of 20, send routines, frames in streams cut anywhere, receive buffers, write errors in the middle of a frame, closed streams, processes ended by the serializer - do nothing that they would not do if whole packets travelled, some of them lost; nothing is lost unless a query or a packet of the hub found a full queue (what a routine that ended leaves behind stays under way); and when nothing is under way in queues, streams and buffers, no packet is. So a remote call returns only if its method ran exactly once, with the arguments as the codec carries them, and a call whose request was queued returns once nothing is under way and nothing is left to do. While something is under way, some routine can go on. A queue holds at most 20 packets and a packet is refused only at a full one.", "quantifier": "every number of docks, every mixture of word sizes, every cutting of the streams, every schedule", "why_tests_cant": "unbounded executions; cuttings of streams and errors in the middle of a frame are not under a test's control", "anchors": ["network/peer.go Send,run", "serializer.go", "protocol.go", "network/socket.go Send", "dock.go OnPacket", "hub.go OnPacket"]}
{"id": "C73", "title": "Every call is answered, down to the bytes", "statement": "In a network whose docks dial the hub and, at the addresses the hub hands out, each other, and whose packets travel as bytes through send queues, send routines, streams cut anywhere and receive buffers, on any mixture of word sizes: docks, hub, connections and listeners do nothing that they would not do if whole packets travelled; a remote call returns only if its method ran exactly once, with the arguments as the codec carries them; a dial reaches a dock carrying a feature the dialling dock has called, not itself; and when nothing is left to do - no goroutine, no send or receive routine can go on -, no process or routine has ended and no packet found a full queue, every call of a feature that some connected dock carries has returned exactly once, with what its one execution gave.", "quantifier": "every number of docks, every distribution over machines, every mixture of word sizes, every cutting of the streams, every schedule", "why_tests_cant": "unbounded distributed executions", "anchors": ["network/peer.go Send,run", "network/socket.go", "serializer.go", "protocol.go", "dock.go OnConnected,OnPacket,Call,CallWithResult,run", "hub.go OnPacket,allocPort"]}
{"id": "C74", "title": "Every call returns", "statement": "Along every endless run of a network (one hub, any number of docks, connections made by dialling) in which no goroutine, packet or connection is held up for ever, every range over the waiting calls ends, nothing is lost, no process dies, no dock is closed and no queue is full, every call of a feature carried by some dock that connects to the hub - before or after the call - returns, exactly once, with what the one execution of its method, at a dock that carries it, gave; however many other calls, queries and connections go on meanwhile and though the network never comes to rest. Without fairness it may wait for ever.", "quantifier": "every endless fair run, every number of docks, every distribution over machines", "why_tests_cant": "liveness over infinite executions", "anchors": ["hub.go OnPacket,allocPort", "dock.go OnConnected,OnPacket,Call,CallWithResult,commit,run", "rpc.go", "network/socket.go Listen,Dial"]}
{"id": "C75", "title": "How many connections calls open", "statement": "A dock dials other docks at most as often as it asked the hub for a feature. Along every endless run in which no goroutine, packet or connection is held up for ever, every range over the waiting calls ends, nothing is lost and nothing breaks, a dock that makes no more calls, all of features that docks connected to the hub carry, dials other docks only finitely often. One call alone may open any number of connections to the same dock before it is answered: the Ready with which that dock answers a greeting may overtake its own greeting, and the caller, which does not know the feature yet, asks the hub again, which has it dial again.", "quantifier": "every run, every endless fair run, every number of connections", "why_tests_cant": "the schedules are not under a test's control; unbounded counts and infinite executions", "anchors": ["dock.go OnConnected,OnPacket,commit", "hub.go OnPacket", "network/socket.go Dial"]}
{"id": "C76", "title": "Every call returns, down to the bytes", "statement": "Along every endless run of a network whose connections are made by dialling and whose packets travel as bytes through send queues, send routines, streams cut anywhere and receive buffers, on any mixture of word sizes, in which no goroutine that can go on - send routine, receive routine with its handler, accept loop, call, execution, response, poll - is held up for ever, every range over the waiting calls ends, no process or routine ends, no packet finds a full queue, no dock is closed and the messages are legitimate, every call of a feature carried by some dock that connects to the hub returns, exactly once, with what the one execution of its method, at a dock that carries it, gave, the values as the codec carries them. If a send routine may be held up for ever it may never return.", "quantifier": "every endless fair run, every number of docks, every mixture of word sizes, every cutting of the streams", "why_tests_cant": "liveness over infinite executions; cuttings of streams and schedules are not under a test's control", "anchors": ["network/peer.go Send,run", "network/socket.go Listen,Dial", "serializer.go", "protocol.go", "dock.go OnConnected,OnPacket,Call,CallWithResult,commit,run", "hub.go OnPacket,allocPort", "rpc.go"]}
{"id": "C77", "title": "Every call of a feature returns", "statement": "Along every endless run of a feature's callee with its callers, timers and clock in which each caller object is used by one goroutine at a time, no method panics, no goroutine - handler, timer, receiver - is held up for ever, every method ends and no sender is passed over for ever at the request queue, every call returns, with an answer made for it. Even when methods do not end, every call whose execution has begun returns, if time goes on. But the timeout does not free the queue: behind a method that does not end, a queued call never returns, however long it waits.", "quantifier": "every endless fair run, every target object, every number of callers and calls, every timeout setting", "why_tests_cant": "liveness over infinite executions", "anchors": ["chancall/callee.go", "chancall/caller.go", "chancall/data.go", "chancall/API.go"]}
{"id": "C78", "title": "Every call returns, features included, down to the bytes", "statement": "In a network whose connections are made by dialling, whose packets travel as bytes, and whose docks run their features in chancall's callees: a feature is asked for a method only by a goroutine serving a request its dock accepted, on that request's method and arguments, or making a local call, and once by each; a remote call returns only if the object of its feature, at a dock that carries it, was asked for that method exactly once, on the arguments as the codec carries them, and what comes back is the result of that execution as the codec carries it, or the error of a timeout there; the executions of a feature, whoever asked for them, happen one at a time on its object; a call made after another one of the same feature at the same dock has returned takes effect after it; and along every endless run in which no goroutine is held up for ever, methods end without panic, and nothing breaks, every call of a feature that a dock connected to the hub carries returns exactly once, and so does every local call.", "quantifier": "every number of docks and features, every target object, every mixture of word sizes, every cutting of the streams, every schedule, every endless fair run", "why_tests_cant": "safety and liveness over unbounded distributed executions; schedules and cuttings are not under a test's control", "anchors": ["dock.go OnConnected,OnPacket,Call,CallWithResult,commit,run", "hub.go OnPacket,allocPort", "rpc.go", "network/peer.go Send,run", "network/socket.go Listen,Dial", "serializer.go", "protocol.go", "chancall/callee.go", "chancall/caller.go", "chancall/data.go", "chancall/API.go"]}
{"id": "C79", "title": "A process that has ended", "statement": "In a network whose connections are made by dialling, whose packets travel as bytes, and whose docks run their features in chancall's callees: a process that has ended - by log.Fatal, by a panic in the codec, by a panic of a method, or from outside at any moment - stays as it is, whatever the others do. A call that went out to it and that it had not executed before it ended never returns. Neither does any later call of a feature that the caller knows on its connection to that process, unless it hears of the feature elsewhere: what the caller remembers is never forgotten (OnClosed does nothing), and no timeout ends a remote call. A dock that the hub sends to the listening address of the ended process gets no connection, and on every endless run in which no goroutine is held up for ever its own process ends too (log.Fatal on a dial that fails).", "quantifier": "every number of docks and features, every target object, every mixture of word sizes, every cutting of the streams, every schedule, every endless fair run", "why_tests_cant": "that something never happens, on any continuation; liveness over infinite executions", "anchors": ["dock.go OnClosed,OnPacket,commit,call,callWithResult", "rpc.go call,callWithResult", "hub.go OnPacket,allocPort", "network/socket.go Listen,Dial", "chancall/callee.go"]}
{"id": "C80", "title": "A network whose hub has ended", "statement": "When the hub's process has ended - by a panic in the codec or from outside at any moment - it stays as it is and no dock joins it any more. Once nothing of it is under way (no bytes to a dock, none read but not taken, no dock about to dial another at its word), the connections of the network are final, whatever the docks do; and a call that any dock makes, or has made, of a feature which no dock connected to it carries never returns, even if other docks carry the feature and had announced it to the hub. (Calls between connected docks go on.)", "quantifier": "every number of docks and features, every target object, every mixture of word sizes, every cutting of the streams, every schedule", "why_tests_cant": "that something never happens, on any continuation", "anchors": ["hub.go OnPacket", "dock.go OnPacket,OnClosed,call,callWithResult", "rpc.go call,callWithResult", "network/socket.go Dial,Send"]}
{"id": "C81", "title": "The table of pending calls", "statement": "In a dock whose calls carry different indexes, a call is in the dock's table of pending calls (d.rpcs) from the moment it is made until a response with its index is there. Whenever neither a caller nor a delivering goroutine can take a step, the table holds exactly the calls that have not returned, so calls that never return are never removed and nothing bounds the table. Along every endless fair run of a network, a call that has returned is removed from the table of its dock for good, as long as the dock's process runs.", "quantifier": "every execution of a dock, every number of calls; every endless fair run of a network of any number of docks", "why_tests_cant": "growth without bound and removal at some time to come show in no finite run", "anchors": ["dock.go call,callWithResult,OnPacket", "rpc.go"]}
{"id": "C82", "title": "Docks that go on whatever becomes of the others", "statement": "Two docks of a network run on, and a connection between them works at both ends: its routines run, every range over waiting calls ends, nothing sent on it is refused for want of room; the called dock does not close its features and the caller's indexes differ. Then, whatever becomes of the hub and of every other dock - their processes may end at any moment or simply stop - each call the one has committed to that connection returns exactly once, with what the object of its feature at the other made of it (or the error of a timeout there), and so does each call it makes once it remembers the feature there and nowhere else. Each call of a feature of its own returns in a dock that runs on, whatever becomes of all the others. Fairness is asked only of the goroutines of the docks named.", "quantifier": "every number of docks and features, every target object, every mixture of word sizes, every cutting of the streams, every endless run fair to these docks, every failure of the others", "why_tests_cant": "liveness over infinite executions under every pattern of failures elsewhere", "anchors": ["dock.go OnPacket,Call,CallWithResult,commit,run", "rpc.go", "network/peer.go Send,run", "network/socket.go", "serializer.go", "protocol.go", "chancall/callee.go", "chancall/caller.go"]}
{"id": "C83", "title": "What a feature in a slot lets others call", "statement": "Carrying a feature succeeds exactly for types with the methods OnStart and OnDestroy that take an ISlot and return nothing; embedding Feature supplies them. The table others can call by name holds exactly the feature's methods whose names begin with a capital - so OnStart and OnDestroy are in it - and any other name gives no result and no error. The values the codec yields, from whatever bytes, have no methods and so are no ISlot: a call of OnStart or OnDestroy with such values panics before the method is entered, whatever the number of arguments, and such a request never comes to a result. In an endless run of a network in which no goroutine of the called dock is held up for ever, the process of a dock that accepts such a request, of one that makes such a local call, and of one to which another dock commits such a call on a working connection (whatever its arguments), does not go on for ever: any peer can end a dock by calling OnDestroy of any feature it carries, discoverable or not.", "quantifier": "every type, every name, every list of values, every sequence of bytes; every number of docks, every schedule, every endless run fair to the docks named", "why_tests_cant": "tests call the methods they know of, with arguments that fit; that a name is callable which nobody meant to offer, and that every such request is fatal, shows in none", "anchors": ["slot.go newSlot", "ferry.go IFeature,ISlot,Carry,Feature", "chancall/meta.go newMeta,collect,call", "chancall/callee.go", "dock.go OnPacket,commit"]}
{"id": "C84", "title": "OnStart and OnDestroy take time", "statement": "A dock's features are started by one goroutine per registration reply and destroyed by the one that runs Close; OnStart and OnDestroy take time and may call features. One goroutine calls them one after another, each after the one before has returned. While a call made within one has not returned, the goroutine goes no further: the features after it are not started, Close does not go on to the sockets; if the call is of a feature no dock has as discoverable this is so for ever. Otherwise, along every endless run in which what is called returns, the goroutine is not held up for ever and the process goes on, each feature still to come - so each the dock carries - is started (destroyed), once; the network's part of such a run is one of the runs of C78, and once a call made within OnStart or OnDestroy has returned there, the goroutine goes on; so, whatever becomes of the hub and of all others, in a dock that goes on a call of one of its own features made within OnStart or OnDestroy ends, and so does one of a feature the dock remembers at another that goes on, over a connection that works. Nothing keeps them apart from the rest: methods of a feature run before and during its OnStart, and OnDestroy may be called while OnStart and a method run.", "quantifier": "every number of docks and features, every target object, every schedule, every pattern of calls within OnStart and OnDestroy; every endless run fair to the goroutine", "why_tests_cant": "that a goroutine hangs for ever on every continuation, and liveness over infinite executions; which calls may overlap depends on the schedule", "anchors": ["dock.go Close,OnPacket,start", "slot.go Call,CallWithResult", "rpc.go call,callWithResult", "chancall/caller.go", "ferry.go IFeature"]}
