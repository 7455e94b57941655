# Formal model of Blueprint-uServices/blueprint in Rocq

The Go source in /repo is read as text. Every model definition carries a comment with the file and
lines it models. The tie between model and code is that reading: nothing here is extracted or run.

## Layout

For each subsystem `X` there are up to four files in `rocq/theories/`:

* `X_Model.v`: executable Gallina functions, one per Go function, with citations. No proofs.
* `X_Spec.v`: the small independent specification the theorems are stated against (when needed).
* `X_Proof.v`: lemmas.
* `X_Props.v`: only the property theorems (closed by `exact`), the non-vacuity examples next to them,
  and `Print Assumptions`.

## Modelling conventions

* Errors are values; nil is an explicit constructor or `None`; Go panics and non-termination are
  explicit outcomes, never silently totalised.
* Go maps are std++ `gmap`s (or functional maps); iteration order over a map is an arbitrary
  permutation that theorems quantify over.
* Fixed-width integers wrap explicitly where the property depends on it (`uint16` ports, `$inc`).
* Recursion that Go does not bound (alias chains, namespace building, backoff loops) runs on explicit
  fuel with a distinguished out-of-fuel result. Theorems exclude or characterise that result.
* Goroutines and channels are step relations over explicit program counters.
* User-supplied code (build functions, wrapped clients) is universally quantified: as programs in a
  free monad over the namespace API, or as outcome sequences.

## Per property: what is modelled and how it is proved

| id | model files | what is modelled | proof |
|----|-------------|------------------|-------|
| C01-C04 | `Wiring` | spec state (definitions, aliases, properties), every mutating call of the `WiringSpec` interface as a `step` | invariant and refinement to the call log, by induction over histories; the alias walk against an inductive chain relation |
| C05-C07 | `NS` (+ `NS_Edges`, `NS_Queue`) | namespaces, handlers, aliases, deferred functions and `BuildApplicationIR` as a state machine; build functions and deferred functions are arbitrary code: labels say what they do next | invariants over all runs |
| C08 | `Ports` | `AssignPorts`, `Clear` over a heap of bind configs, `uint16` wrap | loop invariants |
| C09, C47 | `Names` | `CleanName`, `EnvVar`, `FuncName`, their run-time copies, `ReplaceSuffix`, `Indent`, `Reindent` on byte strings | structural induction |
| C10 | `Pointer` (on `Wiring`) | `CreatePointer`, the `Add...Modifier` calls, addresses, `RequireUniqueness`, `AddNodeTo` as sequences of wiring calls | induction over sequences of modifiers interleaved with other calls |
| C11, C49 | `Unique` (on `NS`) | build functions of the uniqueness check and of namespaces running inside the `NS` machine | invariant over all runs |
| C12, C13 | `IRBuild` | builder registry and dispatch, artifact generators, IR traversal | permutations, induction over trees |
| C14 | `Conf` | flags, environment, explicit values of a generated process | case analysis over all sources |
| C15, C16 | `RunNS` | run-time namespaces, threads, wait groups, cancellation as a step machine | invariants over all interleavings |
| C17-C19 | `Filter` | query parser and filter evaluation | induction over queries and documents against a denotational specification |
| C20, C21 | `Update` | update operators on nested documents, fixed-width integers | induction over paths |
| C22, C23 | `Coll` (on `Filter`, `Update`) | all collection operations | refinement to an ordered list over all histories |
| C24, C25 | `Cache` (on `Copy`) | cache operations; two-phase increment | refinement; bounds over all interleavings |
| C26 | `Queue` | bounded channel with blocked producers and consumers | history invariant |
| C27, C28 | `Pool` | every atomic operation of Pop and Push is a step | counting invariant over all interleavings |
| C29, C30 | `Workload` | proportion table; open-loop run with its goroutines | counting lemmas; step-machine invariant |
| C31 | `Registry` | registrations, defaults, cached results | induction over histories |
| C32-C35 | `Retry` | each generated retry template as a loop over an arbitrary sequence of outcomes | induction |
| C36 | `LB` | round-robin `pickClient` | modular counting |
| C37, C46 | `Timeout` | caller, goroutine and timer as a three-party machine; fault and latency injectors | reachability invariant; arithmetic |
| C38, C50 | `Imports` | import table, type names | invariant over histories; token-level grammar of Go types |
| C39, C51, C52 | `Workspace` | modules, directories, go.mod and go.work, copying of local modules | invariants over histories |
| C40 | `NsBuild` | namespace builder, the generated file as statements, what they do at run time | induction over builder calls |
| C41, C53 | `WrapGen` | writing generated files; which wrapper classes plugins generate and instantiate | induction over histories |
| C42 | `Compose` (on `Ports`, `Env`) | declarations, `processArgNodes`, what the template writes | fold lemmas over arbitrary map iteration orders |
| C43 | `Kube` (on `Compose`) | pods, services, config map, what the template writes | fold lemmas over pods and iteration orders |
| C44 | `Env` (on `Names`) | `matchDialsToBinds`, `generateEnv` for `.env` and `.local.env` | fold lemmas, sorting |
| C45 | `RunSh` (on `Names`) | run functions, `run.sh` and the part of bash it uses | induction over declarations, and over dependency rank |
| C02 (options) | `WiringOpts` (on `Wiring`) | `Define` options folded over histories of definitions | induction over histories |
| C54 | `Cmd` | flag parsing results, spec registry, passes and the stages of `Build` | case analysis over all outcomes, induction over passes |
| C55, C56 | `Rpc` | IDL types, message generation, marshalling, the wire and unmarshalling for gRPC and Thrift; Go types and values as trees over struct declarations | induction over types and values; measure on ungenerated structs |
| C57, C58 | `RpcCall` (on `Rpc`) | generated clients and servers for gRPC, Thrift and HTTP with a faulty network; the service is an arbitrary function of its history | case analysis over faults, C55 |
| C59 | `GoSrc` | `goparser` from syntax trees to packages: two loading passes over the files in any order, imports, type resolution, functions | loading invariants over declarations (fold induction), `resolve` against an inductive scoping relation `denotes` |
| C60 | `WfSpec` (on `GoSrc`) | type, signature and method-set comparison | structural induction on types; composition with C59 for the source-level statement |
| C61 | `WfSpec` | service lookup over a module set, every map loop in an arbitrary order | membership characterisation of each search; soundness, completeness, determinism |
| C62 | `WfSpec` | constructor arguments, client interface | induction on the parameter list |
| C63 | `ModSet` | `moduleset.go`: heap of parsed modules, global cache, sets with parents; parsing, `filepath.Clean` and the Go tool are oracles | invariant over histories (cache, directory and name indexes agree), extension order for stability |
| C64 | `NetCache` | `redis/cache.go`, `memcached/cache.go` over ideal servers (a map of texts, one command at a time); JSON is a codec oracle; each command is executed, refused, or executed with its answer lost; memcached evicts; Mset's goroutines run in any order | invariant: the server's content is one of those the replies allow |
| C65 | `NetCache` | the same clients and the in-memory cache of `Cache` | simulation between the in-memory map and the map of texts; differences refuted one by one |
| C66 | `NetCache` | the same | induction over the events that touch one key |
| C67 | `NetQueue` | `rabbitmq/queue.go` over an ideal broker: message list, per-client buffers (auto-acknowledged consumers), blocked callers, contexts, losses | invariant: the history of hand-outs accounts for every message; extension arguments for "stays" and "for ever" |
| C68 | `NetQueue` | `getBytes`, `decodeBytes` as a codec oracle, `CopyResult` of `Copy` | induction over destination types, reusing C48 |
| C69 | `Trace` | `backend/trace.go` with hexadecimal notation bit by bit; JSON and the grammar of trace states are oracles | computation on bytes, induction over texts |
| C70 | `Trace` | the generated OpenTelemetry client and server wrappers and the trace logger, over the SDK's Start/AddEvent/RecordError/End with the default sampler; handlers are trees of log statements and calls, one after the other | invariant over open spans; the call tree numbered by the order of Start is the witness |
| C71 | `GoVec` | the generated GoVector client and server wrappers and the shared logger, over the library's tick, merge and log; any number of processes and calls, crashes and lost responses | invariant linking components of clocks to the entries they count; happened-before is the transitive closure of the edges |
| C72 | `XTrace` | the generated X-Trace client and server wrappers and logger; baggage is a task and the last events, the library's treatment of events without a task and of task starts is left open; handlers are trees of log statements and calls with any context at hand | induction over trees with reachability among reported events |
| C73 | `Deploy` | building the IR of a whole wiring spec of workflow services, wrappers, backends, `grpc.Deploy` and Go processes: `BuildApplicationIR`'s deferred functions, namespaces, and the build functions of pointer, visibility, address, namespaceutil, goproc, grpc and workflow; names are structured, types match | total correctness: every Get is shown to finish and to keep an invariant that says what each namespace has seen and what each node holds; termination by processes not yet entered, then by the queue |
| C74 | `Cart` | SockShop's `cartservice.go`, each method as a program of database operations; Go's slice aliasing in MergeCarts | induction over call sequences against a map per customer; MergeCarts characterised item by item |
| C75 | `Cart` | calls running at the same time, one database operation per step, each of which may be refused or lose its answer, or never come | invariant over schedules; commutation of calls about different customers; case analysis of failure points |
| C76 | `Order` | SockShop's `orderservice.go` NewOrder (four concurrent fetches, then payment, queue, shipment, order, cart), `paymentservice.go`; each remote call one step that may be refused or lose its answer | invariant over all histories of interleaved calls (`stores`); a run of the single call; witnesses for what is not guaranteed |
| C77 | `Order` | `shippingservice.go`, `queuemaster.go`, any number of queue masters | invariant (where every shipment is), decreasing measure for delivery, and invariants showing the two ways shipping can stop for good |
| C78 | `Image` | `linuxcontainer/deploy.go`, `deploy_docker.go`, `dockergen/dockerfile_.go`, `goproc/deploy_linux_.go`, `goproc/linuxgen`, `dockercompose/deploy.go` (images), and the Dockerfile instructions they emit | closed form of the generated directory by induction on the processes; execution of the stages as `mapM`; equivalence with a condition on names; combined with C45 for run.sh; refuted for other names |
| C79 | `Breaker` | `circuitbreaker/codegen.go`, and the states, counters, ticker and timer of go-circuitbreaker | timed transition system with concurrent calls; invariant relating the counters to a stretch of the log; forward invariants from the point where a given entry was logged; refuted for three claims of the documentation |
| C80 | `Mongo` | `mongodb/nosqldb.go` over a server with the query and update languages as parameters, next to `simplenosqldb/nosqldb.go` of C22 | simulation (lists of documents related field by field) for the calls in the common part, and query invariance by induction on queries; each difference outside it refuted |
| C81 | `GoTests` | `gotests/{findtests,ir}.go` and its generated `init`, over the source parser of C59 and the registry of C31; what a name stands for in the workflow spec is an oracle | the registries found are those declared (loading lemmas of C59), matching decides method inclusion, generation by an invariant over services and registries, and the run by C31's first-registered-wins; each excluded case refuted |
| C82 | `Hotel` | `ReservationService.go` whole: a call is a program of cache and database calls; worlds with interleaving, four fates per backend call, eviction, restart; the date parser is an oracle | a program logic (`safe`) over what is booked, what the call put and inserted, whose facts are stable because calls on one hotel do not overlap; invariant over histories; the sequential case by refinement of an ideal service; counterexamples by computation |
| C83 | `UniqueId` | `UniqueIdService.go` (`ComposeUniqueId`, `getCounter`), the same code in `UserService.go`, `GetMachineID`: hexadecimal formatting and parsing, cutting and padding of digits, the counter; clock readings are inputs | arithmetic: the padded digits as quotients by powers of sixteen; induction over the calls for the counter; pigeonhole for the window of sixteen milliseconds |
| C84 | `SocialGraph` | `SocialGraphService.go` without the calls by user name: calls are one or three goroutines of cache and database calls, with interleaving, failures, lost answers and eviction; query numbers go through float64 and its shortest decimal digits (`JsonNum`) | invariant over histories: per cache key and per document list what the finished calls say, per running call how far its goroutines are; stable because calls on one list do not overlap; counterexamples by computed histories |
| C85 | `WrapStack_*`: interfaces as maps from methods to argument and result lists; genInterface of the server and client wrappers of OpenTelemetry, X-Trace, GoVector and the health checker (a panic is `None`); their templates as methods with named parameters, results, local variables and one call, checked like Go checks them and run with an environment of named values. Induction over the stack: what a client wrapper strips is what its server wrapper added. Interface-keeping modifiers stand as `Plain`; spans, baggage and clocks themselves are C69-C72. |
| C86 | `Replica_*`: names of replicas and balancer, their nodes and those of their modifiers in the order of construction, instances by first declaration of a name, RPC as a jump to another process, the balancer of `LB`; a call is an inductive relation (path of modifiers, replica, next balancer). Distinctness of all node names, then induction over chains; determinism gives the exact path. |
| C87 | `Users_*`: each call of the user service is a program of cache, database and social graph steps which interleave; every step can be refused or lose its answer, calls can be killed, cache entries evicted; the hash is a parameter. Invariant: documents come from registrations, cached entries agree with the first document of the name, shapes of the running programs; a second invariant for histories in which registrations of a name do not overlap. |
| C88 | `HomeTL_*`: reads and writes of home timelines as programs of cache, social graph and post storage calls which interleave; the answer of the social graph and the order of map iteration are chosen by the event. Invariant: every cached or to-be-written list is the posts of distinct calls that are done with that timeline; for histories without overlapping read-modify-writes a second one that also says which calls are in it. |
| C89 | `ShopUsers_*`: each call of the sock shop's user service is a program of database calls which interleave; each can be refused or lose its answer, calls can be killed; object ids are (call, number); the hash is a parameter. Invariant: users, cards and addresses come from calls, every listed id has one owner, shapes of the running programs; a second invariant for histories without deletions: what is listed is stored, what is acknowledged is there. The database is MongoDB as documented. Not modelled: listing calls, fields other than the card number and one text per address. |
| C90 | `Catalogue_*`: each call of the catalogue is a sequence of SQL statements which interleave; each can be refused or lose its answer, calls can be killed; joins, GROUP BY and GROUP_CONCAT are list functions, strings.Split and the cutting into pages are written out; foreign keys are a parameter. Invariants: shapes of the running calls, origin of rows; a second one for the only running call about a sock; a third one for the only running call that adds tags. Not modelled: limits of column widths and of GROUP_CONCAT, comparison rules of text, columns other than the id as more than one text, the order of rows (theorems state sets, and pages of one fixed order). |
| C91 | `Posts`, `JsonNum` | `PostStorageService.go`: calls are sequences of cache and database calls, which interleave; each can fail or lose its answer, the cache can drop entries; query numbers go through float64 and its shortest decimal digits; documents come back in the order of storing. Not modelled: the fields of a post other than its id as more than one text | invariant over histories: cache entries are stored posts, stages of the running calls; arithmetic of float64 for numbers up to 2^53; counterexamples by computed histories |
| C92 | `UserTL`, `JsonNum` | `UserTimelineService.go`: calls are sequences of cache, database and post storage calls, which interleave; each can fail or lose its answer, calls can be killed, the cache can drop entries; the cache holds post infos or, after line 133, ids, which cannot be read as infos; the error of All that is ignored is a lost answer of the search. The database is MongoDB as documented. Not modelled: overflow of start plus a length, failures of GetCollection and of parsing | invariant over histories: origin of posts and stages of the running calls; a second one for one writer per user, which matches the stored posts with the calls; a third one for calls one after the other; a fourth one from a broken entry on; counterexamples by computed histories |
| C93 | Links_{Model,Spec,Proof,Props} | the link expression and its matches, short links, ReplaceAll for one link after the other, failing database and mention calls | texts are cut into characters and links; an invariant of the replacement loop: what has been rendered so far is the cut text with some links replaced, and no link begins inside a link or short link |
| C94 | Mention_{Model,Spec,Proof,Props} | the mention expression, ComposeUserMentions and GetUserId as programs of cache and database calls which interleave, fail and are killed, with registrations and evictions in between | invariant: cached ids come from documents, and each call is at a stage that is justified by the users at its beginning and now |
| C95 | NewPost_{Model,Spec,Proof,Props} | ComposePost: the four preparing goroutines as one step with their answers, the three writing ones as steps that interleave, fail, lose their answer or are cut off; ComposeMedia | invariant: what a call has written is what its post says, and with distinct ids nothing is written twice |
| C96 | HotelInfo_{Model,Spec,Proof,Props} | GetRates and GetProfiles as programs of cache and database calls that interleave, fail, lose their answer or are cut off; Nearby only as the projection of rates to hotel ids, the geo service it asks first is not modelled | invariant over histories: every entry of the cache and every partial answer is what the database says of that hotel |
| C48 | `Copy` | `CopyResult`/`copyResult` | induction over Go types |

A property that is false of the faithful model is answered by a `_refuted` theorem with a concrete
witness, and the property in `properties.jsonl` is worded as the strongest version that does hold, saying
what fails.

## Not modelled

Whole parts of the code base without a model: the Zipkin and Jaeger exporters (OpenTelemetry's SDK v1.26 is taken at its documented
behaviour, random identifiers do not collide), the external servers and client libraries (Redis, memcached and RabbitMQ are taken at their documented behaviour; that go-redis v8.11.5 accepts a map[string]string in MSet is assumed; go-circuitbreaker and the MongoDB driver and server likewise), the mysql backend,
`runtime/core/backend` interfaces apart from `CopyResult`, and the examples apart from the services named above.

Inside the modelled parts:

* Text templates are modelled by their meaning (statements, variables, YAML entries), not their layout.
  Findings about layout are listed below but not proved.
* `float64` arithmetic in retries is exact arithmetic; wall-clock time is a number chosen by the
  environment; logging is left out.
* BSON encoding and freshly generated ObjectIDs are oracles (`cenv`, `uenv`); documents do not share storage.
* Memory-model effects beyond interleaving of the steps listed in each model are left out.
* Definitions that have properties but no build function panic when built; that panic is not modelled (`NS`).
* `protoc`, `thrift`, the wire formats and `encoding/json` are oracles or assumed faithful (C55-C58): proto3 strings must be
  UTF-8, a 32-bit float rounds, JSON is a pair of partial functions. Whether identifiers compile is an oracle.
* Go source (C59) starts at the syntax tree: `go/parser`, `go.mod` files and module directories are not modelled, and
  type expressions that the parser does not look into (literals, array lengths, type arguments) are opaque text.
* Cyclic IR graphs (C13), named slice types (C48), flag names with "-" or "=" (C14), and shell function names
  that clash with builtins (C45) are outside the models.

## Findings

Each has a `_refuted` theorem unless marked (unproved), which means: noticed while reading.

* C03-C04: properties set through an alias are lost; an alias cycle makes `GetDef` loop.
* C05-C06: a build function that gets itself is run twice; `Put` overrides; a failed alias is cached as nil and
  the next `Get` panics; `Instantiate` then `Get` (also of a proxy) leaves no edge; `Put` into a namespace
  that rejects the node never reaches the parent.
* C08: ports wrap to 0, and the search never ends when all are taken.
* C09: spaces survive; names collide.
* C10-C11, C49: adding a client-side modifier twice drops those in between; a namespace called "dst" takes over pointer
  names; a pointer created before its destination is not checked for uniqueness; `InstantiateDst` swallows an
  error.
* C12-C13: a node assignable to two registered types depends on map order; generators with the same clean name share
  a directory; shared nodes are listed twice.
* C14-C16: an empty flag counts as absent; re-entrant or concurrent run-time builds build twice; `Await` ignores
  grandchildren. (unproved) a redeclared flag panics.
* C17-C23: see the refuted theorems in `Filter_Props.v`, `Update_Props.v`, `Coll_Props.v`: integer bounds do not match
  floats, `$exists: false` and array literals do not mean what MongoDB's do, `$set`/`$unset` on arrays truncate
  what follows, a failing update leaves a half-updated document, ids need not exist or be unique; an unknown operator
  beside `$exists` is ignored instead of rejected.
* C25: concurrent increments are lost. C26: an item popped into an incompatible destination is lost. C28: a waiter is
  stranded after a failed build. C29: negative proportions are accepted. C31: an early `SetDefault` is overridden.
* C32-C35: no call at all for a non-positive number of tries; zero delay never ends; jitter with 1 ns panics; the rate
  budget is exceeded under concurrency.
* C36: no clients panics. C37: a late result can be mixed with the timeout error; the goroutine leaks. C46, C48: panics.
* C38, C50: a channel of receive-only channels is rendered as a send-only channel; ellipsis types are not
  named. (unproved) several callers pass a path or a short name where the full package name is expected, so their own package
  is imported.
* C39, C51, C52: generated modules with the same last path component share a directory; a failed module is remembered;
  failed go.mod updates are dropped; a service in two local modules copies only the first.
* C40: a constructor argument named like its package does not compile; literals are not escaped.
* C41, C53: files are not truncated; client pools, circuit breakers and retriers of one interface share code; gRPC and Thrift
  clients, and equally named interfaces, clash. (unproved) arguments named `ctx`, `err`, `ret0` collide with generated names.
* C42: an address bound twice depends on map order; variables collide. (unproved) volumes and commands
  are indented with tabs, which YAML rejects.
* C43: a container with no directly set variable gets no environment. (unproved) values are HTML-escaped.
* C44: ports wrap; a second bind of an address, or a name differing in punctuation only, has no variable of its own.
* C45: a process others depend on is started twice; a failed dependency makes its dependent report success.
* C02, C54: an option such as the return type sticks when a name is redefined; `BuildIR` and the command line ignore errors
  recorded with `AddError`; a port above 65535 is truncated.
* C55: maps never arrive; pointers crash; second names of a field declaration and embedded fields are lost; Thrift truncates ints.
* C59: one embedded interface drops every function and method of the package without an error; a method on a
  non-struct type makes the result depend on map order; a generic function makes its module unusable.
* C60: generic parameter types crash the comparison; func/struct/array literals are not compared; byte and uint8,
  any and interface{} differ.
* C61: a missing package gives nil without an error, and the caller dereferences it; an empty interface anywhere in
  the workflow modules can be picked as the service's interface.
* C62: a string argument equal to a defined name is replaced by that node.
* C63: modules parsed for one set bypass the redeclaration check of the next; directories are never parsed again, so
  generated code is seen as it was the first time; nested modules make package lookup depend on map order.
* C57-C58: Thrift and HTTP hide the service's error; HTTP may run a call twice; deadlines reach gRPC services only.
* C65: on Redis, Mget panics if any key is missing (`res.(string)` on nil), while the in-memory cache and memcached leave the
  destination alone; memcached's Delete of a missing key is an error; Incr of a missing key is 1 on Redis and an error on
  memcached; an `int` counter can be incremented on Redis and memcached but not in memory; an integer read into an
  `interface{}` comes back as float64; fewer values than keys is an error in memory and a panic on the others; an
  Mset of no keys is an error on Redis; an Mset with a repeated key keeps either value on memcached.
* C67: every process that has a RabbitMQ client consumes from the queue (`Consume` in the constructor, automatic
  acknowledgement), also one that only pushes: items handed to it are never popped. After a lost connection `Pop` spins, returning
  `(true, error)`.
* C68: integers and structs pushed to RabbitMQ come back as float64 and map, which `CopyResult` rejects: the item is lost.
* C69: `GetSpanContext` indexes `flag_bytes[0]` without a length check: a trace context with valid identifiers and no
  `TraceFlags` crashes the server.
* C70: with `InstrumentWithoutClientSpans` a failed call is recorded on the caller's server span, even if the caller handles it.
* C71: a restarted process counts from one again under the same name, so its entries get clocks smaller than those before the
  crash (GoVector truncates or continues the log file according to its configuration; the clock is new either way).
* C72: the client wrapper merges the response's baggage into a context it then drops, so calls in a row look concurrent and a
  handler's end is not after its calls.
* C73: when instantiating the server side of a service fails, `InstantiateDst` (pointer.go:246-248) drops the error; in this
  kind of deployment the process's own pass over its children meets it again, and the build fails as it should.
* C74: `MergeCarts` (cartservice.go:128-140) keeps pointers into a slice that `append` then moves: the session's quantity of
  an item both have is lost if a new item precedes it. Merging a cart with itself (Login with the user's own id as session)
  empties it. `AddItem` ignores a new price.
* C75: two AddItem calls for one customer can lose an item; retrying a failed AddItem or MergeCarts can add twice.
* C76: `NewOrder` (orderservice.go:110-202) deletes the cart of the customer, not the one it ordered from; accepts unknown customers,
  addresses and cards, because looking them up gives a blank entry without error; and drops items added meanwhile. Retrying it can order twice.
* C77: `PostShipping` queues before it records, so a failure in between leaves a message the queue master retries for ever;
  with mongodb (nosqldb.go:140 counts modified documents) so does a lost answer of `UpdateStatus`.
* C78: a golang process named `home`, `src`, `bin` … (a root directory of the golang image), one whose name starts with an
  underscore or has a space, and two names equal up to case generate without an error but give an image that cannot be built;
  names with equal clean forms (`a.b`, `a_b`) write into the same directory.
* C79: the reset interval does not end the block (the library's own backoff does); the failure rate is looked at only when a call
  fails; a panicking call is counted as a success. (unproved) no version of `go-circuitbreaker` is pinned, so `go mod tidy` takes the newest.
* C80: MongoDB's `Upsert` merges fields where the interface promises to replace the document; `UpdateOne`/`UpdateMany` count only
  documents that changed, so SockShop's `UpdateStatus` with the current status fails as "unknown shipment" there; an empty
  `InsertMany`, a duplicate or changed `_id`, `One` on `FindMany` and `All` on `FindOne` are errors only there; `ReplaceMany` is not implemented there.
* C81: with two services suiting one registry, which of them is tested depends on map order; a registration under the service's
  own name or in a file sorting before `blueprint_clients.go` (or `SetDefault`) makes the tests run against the local instance;
  grouped `var` declarations and renamed registry imports are missed; two test modules in directories of one name are an error;
  generic parameter types make generation panic.
* C82: two reservations at once, or a reservation and `CheckAvailability`, overbook a hotel; `MakeReservation` does not advance the
  stored first day, so that after a cache eviction the later nights of a stay are forgotten; negative and overflowing room numbers
  are accepted; parse errors of dates are ignored, and a stay without nights "succeeds"; every restart stores the initial reservation again.
* C83: `GetMachineID` is cut to three digits and times have outgrown their ten digits, so that ids repeat within sixteen milliseconds;
  the counter is cut to its first digit; containers all have machine id 0; before 1970 every call fails.
* C84: concurrent calls about one user lose followers; entries read back from the database after an eviction have id 0 (the stored
  field is `userid`, the decoded one `followerid`); `Follow` and `Unfollow` ignore errors of the cache's `Get` and then replace the
  list; ids above 2^53 (as those of C83) are rounded in queries.
- Adding a health check after OpenTelemetry, X-Trace or GoVector makes the compiler panic (slice bounds out of range), because the client wrapper strips the last argument of `Health`, which has none; an argument called `span`, `baggage`, `err`, `tp`, ... or without a name, or a service's own `Health` method, makes the generated code fail to compile; two services of one type with different modifiers in one module overwrite or skip each other's interface file (C85).
- The client node of a load balancer is initialised with the name of its handler (loadbalancer/wiring.go:58): in a process with both, the client is never declared, and consumers get the handler without the modifiers that were added to the balancer; a group of zero replicas makes the compiler panic (C86).
- Social network user service (C87): RegisterUserWithId checks and inserts in two steps, so two concurrent registrations of a name are both acknowledged and the second user can never log in; the user id is never checked although the interface says so; if socialGraphService.InsertUser fails, the account stays: it can log in, is not in the social graph and cannot be registered again.
- Social network home timelines (C88): the author's own timeline is not written although the interface says so; concurrent writes lose posts; retries duplicate them; ReadHomeTimeline with start behind the end returns the whole timeline.
- The sock shop's user service (C89) panics in Login for a card number of less than four characters, and for any user with cards when the database fails while they are fetched (`maskCC` on empty numbers). It accepts cards for unknown users and two users of the same name.
- The sock shop's catalogue (C90): a sock without tags is acknowledged but invisible to Get, List and Count (inner joins); AddSock with an existing id deletes first, so a failure half-way loses the sock; concurrent calls duplicate tags; the order is passed as a query argument, which orders by a constant; a negative page panics; tags are joined and split by commas.
- Post storage (C91): post ids made on machines with ids of 512 and more exceed 2^53. ReadPosts asks for them through float64 numbers printed with their shortest digits, so it silently leaves most of such posts out, while ReadPost finds them.
- User timelines (C92): ReadUserTimeline stores a []int64 in the cache under the key that both calls read as []PostInfo, so after an eviction, or a read beside a write, all calls for that user fail for good, while failing writes are still stored. It ignores start and stop.
- Links in posts (C93): ComposeText replaces links one after the other in the whole text, so http://x damages http://xy, and a link to the beginning of the short links' host damages short links; paths are not part of links, and links that occur twice are stored twice.
- Mentions (C94): names of nobody are silently dropped although the interface promises an error; how often and in which order users are mentioned depends on the cache. With the Redis backend Mget panics on a name that is not cached (C65).
- ComposePost (C95): the three writes run side by side, so timelines can show a post that is not stored yet, or never will be; nothing is taken back when one fails. The post's Timestamp is never set, and the creator is not checked to exist.
- Hotel rates and profiles (C96): the errors of reading a result are ignored, so one failed read is cached as no rates or an empty profile and answered from then on. Each start of an instance inserts all documents again, which doubles rates and found hotels. Unknown hotels give empty profiles; dates and locale are ignored.

## Testing the theorems

`seeded/LOG.jsonl` has one line per deliberately wrong program: the model definition edited (in a scratch copy), the
edit, the claim it breaks, and the theorems whose proof then no longer goes through. The harness recompiles everything that
depends on the edited file, replaces each proof that fails, and collects the property theorems that no longer have a
closed proof.

## Trusted base

* Coq 8.16.1's kernel and its `vm_compute` machine.
* The reading of the Go source recorded in the comments of the `_Model.v` files.
* The specifications in the `_Spec.v` files, which say what the English properties mean.
* `Print Assumptions` follows every theorem in the `_Props.v` files; each prints "Closed under the global
  context", i.e. no theorem uses an axiom. The whole development loads these axioms of Coq's standard library, which come
  with the library files std++ imports and which no theorem depends on: `Coq.ssr.ssrunder.Under_rel.{Over_rel,
  Under_rel_from_rel, over_rel, over_rel_done, Under_rel, Under_relE, under_rel_done}`.
* Libraries: Coq's standard library and std++ (no axioms).
