# Formal model of muguangyi/ship ("ferry") in Rocq/Coq 8.16.1

The Go code in /repo is read as text and transcribed, function by function, into
Gallina. Nothing ties the model to the code except this reading: every definition
in a `*Model.v` file cites the Go file and lines it models and names its
simplifications.

## Layout (`rocq/theories`)

| file | content |
|---|---|
| `GoInt.v` | fixed-width integer arithmetic, bytes, shifts/ors (lemmas) |
| `GoFloat.v` | IEEE bit patterns, float32 -> float64 widening, float64 -> float32 rounding |
| `GoVal.v` | Go values as the codec sees them (dynamic type + value), map-key equality |
| `CodecModel.v` | `codec/encoder.go`, `decoder.go`, `any.go`, `API.go` |
| `CodecSpec.v`, `CodecProof*.v`, `CodecProps.v` | specification, lemmas, property theorems C01-C17 |
| `ProtoModel.v` ... `ProtoProps.v` | `protocol.go`, `serializer.go` C18-C21 |
| `Lts.v` | executions of a step function, invariants, the step behind a history event |
| `PeerRecvModel.v`, `RecvProof.v` | receive routine of `network/peer.go`, `txt_serializer.go` C20, C22 |
| `PeerSendModel.v`, `PeerLifeModel.v` ... `PeerProps.v` | sending, closing, sockets (`network/peer.go`, `socket.go`) C23, C24, C53-C55 |
| `ChanModel.v` ... `ChanProps.v` | `chancall/` C25-C29 |
| `MetaModel.v` ... `MetaProps.v` | `chancall/meta.go` argument conversion and dispatch C30 |
| `Tables.v` | association tables shared by the hub and dock models |
| `HubModel.v` ... `HubProps.v` | `hub.go` C31-C35, C56, C57 |
| `DockModel.v` ... `DockProps.v` | `dock.go`, `rpc.go`, `slot.go` C36-C45, C58-C62 |
| `MiscModel.v` ... `MiscProps.v` | `misc/set.go`, `registry.go`, `runtime.go`, `slot.go` C44, C46, C47 |
| `CallModel.v` ... `CallProps.v` | the pure pipeline of a remote call and the generated proxy C48, C49 |
| `FloatSpec.v` ... `FloatProps.v` | float32/float64 conversion C63 |
| `GenModel.v` ... `GenProps.v` | `tool/ferry.gen.go` C50 |
| `MockModel.v` ... `MockProps.v` | `network/mock.go` C51 |
| `ConnModel.v` ... `ConnProps.v` | one direction of a connection, bytes in flight C65 |
| `FullModel.v` ... `FullProps.v` | a system with its features, calls end to end C66 |
| `NestModel.v` ... `NestProps.v` | methods that call features, calls in a circle C67 |
| `RaceModel.v` ... `RaceProps.v` | accesses to shared memory and mutexes C68 |
| `MockPeerSpec.v`, `MockPeerProof.v`, `MockPeerProps.v` | peers on the mock network (`MockModel.v` and `PeerRecvModel.v`) C69 |
| `NetModel.v` ... `NetProps.v` | serializers and networks of sockets (`network/API.go`, `inet.go`) C70 |
| `SysModel.v` ... `SysProps.v` | hub, docks, codec and framing composed C52, C64 |
| `WorldModel.v` ... `WorldProps.v` | the same with listening and dialling at the addresses handed out C71 |
| `ByteModel.v` ... `ByteProps.v` | the system of C52 with queues, send and receive routines and byte streams C72 |
| `FleetModel.v` ... `FleetProps.v` | the networks of C71 down to the bytes C73 |
| `LiveSpec.v` ... `LiveProps.v` | endless fair runs of the networks of C71: C74 |
| `ChanLiveSpec.v`, `ChanLiveProof.v`, `ChanLiveProps.v` | endless fair runs of chancall: C77 |
| `FleetLiveSpec.v` ... `FleetLiveProps.v` | endless fair runs of the networks of C73: C76 |
| `DialSpec.v` ... `DialProps.v` | how many connections calls open C75 |
| `HarborModel.v` ... `HarborProps.v`, `HarborEndProps.v`, `HarborHubProps.v` | the networks of C73 with chancall's callees (C66's composition), any process ended from outside at any moment: C78, C79, C80 |
| `TableProps.v` (`DockProof12.v`, `HarborProof7.v`) | the tables of pending calls C81 |
| `IsleProps.v` (`IsleSpec.v`, `IsleProof.v`, `IsleProof2.v`) | docks that go on whatever becomes of the others C82 |
| `SlotModel.v`, `SlotSpec.v`, `SlotProof.v`, `SlotProof2.v`, `SlotProps.v` | `slot.go:15-39`, `ferry.go:8-29,52-54,62-72`, `chancall/meta.go:11-42`: what a feature lets others call C83 |
| `HookModel.v`, `HookSpec.v`, `HookProof.v`, `HookProof2.v`, `HookProps.v`, `HookProps2.v` | `dock.go:43-53,132,218-222`, `slot.go:53-59`: the goroutines that run `OnStart` and `OnDestroy`, in the network of C78: C84 |

`*Props.v` files contain only property theorems, each closed by `exact`, followed
by `Print Assumptions`, plus the non-vacuity `Example`s.

## Plan per property

Codec (C01-C17). Encoder as a function over an abstract writer (`wr : list byte ->
W -> error * W`), instantiated with the in-memory buffer and with a failing writer;
decoder as a fuelled recursive function over an abstract reader, instantiated with
the in-memory buffer (`bytes.Buffer`/`bytes.Reader` semantics: short reads without
error) and with a chunked reader. Panics (`x.(T)` on the wrong type, unhashable map
key) are an explicit outcome. Proofs: induction over the value tree for round trips;
strong induction on the buffer length for termination; refutations by witness.

Protocol and framing (C18-C21). `Marshal`/`Unmarshal`/`Slice` as functions on byte
lists; `log.Fatal` and panics are explicit outcomes. Composition of codec lemmas;
reassembly by induction over the segmentation.

Peer (C22-C24). Send queue + writer routine as a labelled transition system;
invariant relating accepted, queued and written packets over all label sequences.

chancall (C25-C30). Transition system: callers, request queue of capacity 2, one
handler, one timer per request, a response channel of capacity 1 per caller, a
clock. Invariants over all schedules. C29 is an invariant of every continuation.

Hub (C31-C35). Handlers as small-step threads over the shared tables; history
variables; invariants over all schedules. Allocation loop shown to terminate.

Dock (C36-C45). Transition system with in-flight handlers as threads; environment
packets are arbitrary. Crash is an explicit state; crash-freedom is proved under
the stated discipline and refuted by a witness schedule without it.

Set, registry, runtime (C44, C46, C47): step functions and refinement to a simple
specification.

C48/C49: pure composition of the layers. C50: generator as a function from the
declarations of the sources to the tokens of the generated file, following the template;
the specification reads the tokens back (automatic semicolons, then a recursive-descent
reader) and compares the methods read with the interfaces. ASCII names only; the text of
comments, the layout chosen by go/format and HTML escaping (which leaves identifiers
alone) are not modelled.
C51: channels of the mock network as a transition system. C52, C64: the hub
and dock models composed at packet level (`SysModel.v`), every dock and the hub shown to
run as in its own model, flows of packets related to what was sent; the values go
through the codec and framing of C18-C22 (`SysCodec.v`). C65: sending half, bytes in
flight and receiving half of a connection composed; the invariant says that the bytes
received, buffered or in flight are the frames of the packets written. C66: the system of
C52 and a callee of C25-C29 for each feature; every part is shown to run as in its own
model, so their theorems carry over, and an invariant ties goroutines of the docks to
requests of the callees. C67: a family of such callees whose handlers call each other; the
stuck sets are invariant, a quiet state has no others (finitely many callees have called, so
a chain of waiting ones closes), and a count of the stages requests have passed bounds what
happens by itself. C68: every function as the tree of its accesses and mutex operations; a
generic lemma turns a check of the trees (at most one mutex at a time, guarded memory only
under its mutex) into an invariant of all schedules; races are shown by schedules.
C69: the delivery theorem of C51 composed with reassembly (C20, C22). C70: the tables as
a step function with a history; the specification speaks of the last registration in the
history. C71: the system of C52 with the connections made by dialling; a run is a run of the
system over the connections it ends up with; for every call an invariant says which step of
its way (query, answer, dial, greeting, request) comes next, so that in a settled network no
call is on its way. C72: for each direction of a connection the messages on their way are
recovered from receive buffer, stream and queue (reassembly lemmas of C20); every step down
to the bytes is matched by steps of the system of C52, losing first the packets that the
bytes never carried; the queues' bound of 20 is an invariant. C73: the same matching against the network of C71, step by step; a
connection just made has carried nothing, so that it matches an empty one; in a settled
network down to the bytes no routine can go on, hence (C72) nothing is under way and the
matched network is settled, where C71 applies. C74: one rule (a state that lasts until its
task steps, in which the task does not rest, ends) applied along the way of a call:
registration, mark at the hub, query, answer, dial, greeting, request, execution, response;
the two ways in which a call can be overtaken (another connection caches its feature,
another receive routine commits it) end at the same commit. C75: queries on their way, at the
hub and answered are counted against those sent; after the last call has been committed
(C74) no query is sent; the refutation is a loop of 18 steps that the network goes through
any number of times. C76: an endless run down to the bytes is, step by step, an endless run of
C74 (each step is one step there, or none); that run is fair because each message under way is
popped, written, read byte by byte and taken, unless its receiver is busy, and the other
goroutines wait there only if they wait here; C74 then applies. C77: each
point of the handler and of a timer is left by one task only and stays enabled until then, so
it is left; the lock of a request is held by two tasks that both let it go; the handler comes
back to its queue again and again, a queued request moves up each time, and a blocked sender
finds room each time; an answered call's goroutine receives what was made for it (C27). C78:
the network of C73 and, for each feature of each dock, the callee of C25-C29; every run is a
run of either part, so the theorems about the parts apply; invariants say that a callee's
goroutines are exactly the goroutines serving accepted requests and making local calls.
Liveness: each callee's part of an endless run is an endless run of C77, so a call begun
there returns; hence the network's part is fair in the sense of C76, where an execution is
one step.
C79: a step of the network changes a dock only if the dock's process takes it, and no process
takes a step once it has ended; so what it has accepted and executed is final, and since a call
returns only if executed (C73) at the dock at the other end of its connection, calls that this
dock had not executed never return. A dial needs a listener whose process runs, and each port
of a machine is handed out once, so no other process answers at the address.
C80: a dock dials another only at an address a message brought it, only the hub sends such
messages, and a dock takes a message from the hub only from bytes that came from it; so without
the hub, and without bytes of it, no connection is made, and a call returns only from a dock at
the other end of a connection of its caller (C73).
C81: an entry is put in the table with its call and taken out by the goroutine that delivered
a response with its index, whose last step is the removal; that step is weakly fair.
C82: what a dock sends on a connection, the routines of the two docks alone carry to the other
(the argument of C76, with fairness only for goroutines of these docks); the other's callee
executes it (C77); the answer comes back the same way.  The network's safety theorems (C73)
hold whatever the others do, and say where the call was executed.
C83: the table is the map `collect` fills, one entry per exported method; the codec's values are
`bare` by the round trip of C01 and by cases on what decodes; a request whose method panics for
every state of the object never ends (induction over the callee's replay, C25), the callee works
through its queue (C77), and the step that would end the request ends the process.
C84: each step of these goroutines is one of the dock or none; only they call `OnStart` and
`OnDestroy`, so a goroutine that waits leaves its list as it is; that a call returns only if some
dock carries its feature is C78; liveness by induction over what is still to be called; the
network's part of an endless run is an endless run of C78, to which C82 applies.

## Trusted base

* Coq's kernel.
* The reading of the Go sources; Go's specified semantics for integer conversion,
  maps, channels, `reflect` as cited in comments.
* Axioms. Under every theorem of the `*Props.v` files `Print Assumptions` reports
  "Closed under the global context": no theorem rests on an axiom. A check of the whole
  context (`coqchk -o`) lists seven declarations of the standard library's
  `Coq.ssr.ssrunder.Under_rel` (`Under_rel`, `Under_relE`, `under_rel_done`, ...),
  which come with `Require`d library files and are used by no theorem here.

Granularity of the concurrent models (peer, chancall, hub, dock): one step is one
channel operation, one map or slice operation, one critical section, or one call into
another component; anything between two such operations may be interleaved. Results of
`Dial`, `Listen`, `Send`, of clocks and of user methods are labels chosen by the
environment. Iteration over a Go map is any order (and, for a map changed meanwhile,
any choice of the added entries). In the dock model one `Close` runs at a time.

## Not modelled

Memory exhaustion; the goroutine scheduler (the safety theorems hold for every schedule;
liveness is stated either as "enabled in every continuation" or for endless runs with the
fairness named in the theorem, C74-C84); the Go memory model below the granularity named in each
model (unsynchronised map access is a fatal error or undefined in Go; the models
treat each map operation as atomic; C68 says where such accesses are), real TCP, OS signals (but a process may be ended at any moment, C79, C80), text/template and
go/parser internals, logging.
