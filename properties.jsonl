{"id": "C01", "title": "A wiring-spec name is either a definition or an alias, never both", "statement": "After any sequence of Define, Alias, SetProperty and AddProperty calls on a fresh wiring spec, no name is at the same time listed by Defs() as a definition and reported by GetAlias() as an alias; whichever kind of call touched the name last decides which of the two it is.", "quantifier": "every finite sequence of spec-mutating calls, every name", "why_tests_cant": "The claim is an invariant over unboundedly long call histories with arbitrary name collisions; a test only samples a few histories.", "anchors": ["blueprint/pkg/wiring/wiring.go: wiringSpecImpl.getDef, Define, Alias, SetProperty, AddProperty, Defs, GetAlias"]}
{"id": "C02", "title": "Definitions are last-writer-wins and independent of each other", "statement": "For every call history, GetDef(n) for a defined n returns the build function and node type of the most recent Define(n) since the name was last aliased; its ProxyNode flag is that of the most recent such Define that passed options; its ReturnType is the one passed there or that call's node type, and a Define without options keeps the ReturnType already present (so it does not always equal the node type). Calls naming other names never change any of it.", "quantifier": "every call history, every pair of names", "why_tests_cant": "Needs a refinement argument against an abstract log of calls for all histories; tests fix a few.", "anchors": ["blueprint/pkg/wiring/wiring.go: Define, GetDef, getDef, Alias"]}
{"id": "C03", "title": "Properties accumulate in call order and survive redefinition", "statement": "The list read back by GetProperties(n,k) (k other than the reserved \"callsite\") equals the list of values passed to AddProperty(n,k,.) in call order since the last SetProperty(n,k,.) (whose value comes first) or since n was last made an alias; Define(n) does not lose them; GetProperty yields the value iff exactly one is present.", "quantifier": "every call history, name, key", "why_tests_cant": "Histories are unbounded and interleave Define/Alias/Set/Add in every order.", "anchors": ["blueprint/pkg/wiring/wiring.go: WiringDef.AddProperty, GetProperty, GetProperties, wiringSpecImpl.SetProperty, AddProperty, Define"]}
{"id": "C04", "title": "Alias resolution finds the end of the chain, and only an alias cycle defeats it", "statement": "For every spec, GetDef(n) either returns the definition at the end of the alias chain from n, or nothing when the chain ends at an undefined name; it terminates exactly when the chain from n does not run into a cycle.", "quantifier": "every spec reachable by calls, every name", "why_tests_cant": "Chain length is unbounded and non-termination is not observable by a finite test.", "anchors": ["blueprint/pkg/wiring/wiring.go: resolveAlias, GetDef, GetAlias, Alias"]}
{"id": "C05", "title": "A node is built at most once per namespace and every successful Get returns that same node", "statement": "While building the IR for any wiring spec whose build functions do not (transitively) ask for the node being built and do not call Put, within one namespace the build function of a name returns successfully at most once; every node that Get or Instantiate returns is the one so built by the definition the name stands for in the nearest namespace accepting it, so all aliases and inner namespaces leading there get the same node; and asking again for a name that was got returns the same node and has no other effect. (Without the guards it fails: a node that asks for itself is built again and callers get different nodes; Put replaces a node already handed out; an alias whose node failed to build caches nil, and asking again panics.)", "quantifier": "every wiring spec (arbitrary build functions using the namespace API), every namespace tree, every request order", "why_tests_cant": "Build functions are arbitrary recursive programs over the namespace API; the claim ranges over all of them.", "anchors": ["blueprint/pkg/wiring/namespace.go: namespaceImpl.get, Get, Instantiate", "blueprint/pkg/wiring/application.go: BuildApplicationIR"]}
{"id": "C06", "title": "Nodes live in the namespace that accepts them; outer nodes are recorded as edges at most once", "statement": "Getting a name leads to its definition in the nearest enclosing namespace that accepts the definition's node type, and is built there; a namespace builds and holds only nodes of definitions whose type it accepts, and never proxies; a namespace records an edge only to a node of a type it rejects, never to metadata or a proxy, and only for names asked for by Get; per namespace and node name there is at most one such record; and every node got there has one unless a node of the same name that is metadata, a proxy or instantiated was got there. (Findings: a node first instantiated, or first met through a proxy, and then got has no edge; Put into a rejecting namespace never reaches the parent.)", "quantifier": "every namespace nesting, every wiring spec, every request sequence", "why_tests_cant": "Depends on arbitrarily nested namespaces and interleaved requests.", "anchors": ["blueprint/pkg/wiring/namespace.go: namespaceImpl.get, Put"]}
{"id": "C07", "title": "Deferred work drains completely before BuildIR succeeds", "statement": "If BuildIR returns without error then every deferred function (including those deferred by other deferred functions) has run exactly once and succeeded, and every requested node was obtained from the root namespace; deferred functions run one at a time; one deferred to the back runs after everything waiting at that moment and one deferred to the front before it; requested nodes are instantiated in the reverse of the order they were listed; and BuildIR fails at the first function that fails, after which nothing runs.", "quantifier": "every list of requested nodes and every set of (recursively) deferred functions", "why_tests_cant": "Deferral is unbounded and self-extending.", "anchors": ["blueprint/pkg/wiring/application.go: BuildApplicationIR", "blueprint/pkg/wiring/namespace.go: Defer"]}
{"id": "C08", "title": "Port assignment gives distinct ports and preserves pre-assigned ones", "statement": "For every list of bind configs whose pre-assigned ports are distinct, if the search never passes 65535 then AssignPorts leaves every pre-assigned port unchanged, gives every other bind a non-zero port, all ports are pairwise distinct, and the returned lists partition the input; if two pre-assigned ports coincide it returns an error.", "quantifier": "every list of bind configs, any preferred ports", "why_tests_cant": "All port combinations and list lengths; wrap-around at 65535 is a corner no sampled test hits.", "anchors": ["blueprint/pkg/coreplugins/address/portassignment.go: AssignPorts"]}
{"id": "C09", "title": "Generated identifiers are legal and stable", "statement": "For every string, CleanName yields a string with no leading digit and with only ASCII letters, digits, underscore and space; it is idempotent, and EnvVar(name) is determined by CleanName and idempotent. Two different names can be mapped to the same identifier.", "quantifier": "every string", "why_tests_cant": "All strings; tests sample a handful.", "anchors": ["blueprint/pkg/blueprint/stringutil/name.go: CleanName", "plugins/linux/util.go: EnvVar, FuncName"]}
{"id": "C10", "title": "Pointer modifiers apply in order and always end at the original destination", "statement": "For every sequence of AddSrcModifier/AddDstModifier/AddAddrModifier/AddNodeTo calls on a pointer, interleaved with any other calls on the wiring spec that do not redefine the pointer's own names, the client side goes through exactly the client-side modifiers in the order they were added (each added once), each continuing at the name its call returned, and meets the server side at the last interface node (address, server-side modifier or destination); the server side starts at the modifier added last and goes through all of them, latest first, to the original destination (through the uniqueness check unless disabled). A pointer, its visibility requirement and each child added to a namespace stay recorded under their names throughout. What fails: adding a client-side modifier twice drops those in between; a namespace called src or dst takes over the pointer's names; a pointer created before its destination is defined is not checked.", "quantifier": "every sequence of modifier additions and other wiring spec calls", "why_tests_cant": "Unbounded histories of interleaved modifier additions.", "anchors": ["blueprint/pkg/coreplugins/pointer/pointer.go: CreatePointer, AddSrcModifier, AddDstModifier, AddAddrModifier", "blueprint/pkg/coreplugins/pointer/visibility.go: RequireUniqueness", "blueprint/pkg/coreplugins/namespaceutil/namespace.go: AddNodeTo"]}
{"id": "C11", "title": "A node required to be unique is reached from at most one namespace of the granularity", "statement": "If a wiring spec requires a node to be unique (RequireUniqueness, CreatePointer) up to some granularity, then in every run of BuildIR in which no node depends on itself, all successful gets of it through the alias lead to one namespace and one node within each namespace of that granularity; a get that would reach it from a second namespace gets an error, the check fails for no other reason than that or an error getting the node, and what it returns is the node itself.", "quantifier": "every spec, every set of requesting namespaces, all other build functions being arbitrary code", "why_tests_cant": "All request histories.", "anchors": ["blueprint/pkg/coreplugins/pointer/visibility.go: RequireUniqueness"]}
{"id": "C12", "title": "Every top-level node is built exactly once or the build fails", "statement": "For every set of registered default builders and every list of application children, artifact generation either returns an error or hands each node exactly once to a builder registered for a type it is assignable to, or, if there is none, to its own artifact generator; it succeeds exactly if the output directory was created anew, no call failed and every node has a builder or is a generator, so no node is silently dropped; the first failing call stops it. If no node is assignable to two registered types, each builder is called once with all its nodes, whatever the map order. (A node assignable to two types goes to whichever builder the map order brings first, and generators with the same clean name share a directory.)", "quantifier": "every history of registrations, every assignability relation, every list of nodes, every map iteration order, every pattern of failing calls", "why_tests_cant": "All builder sets, node lists, failures and Go map iteration orders.", "anchors": ["blueprint/pkg/ir/builders.go: RegisterDefaultNamespace, buildCompatibleNodes, buildArtifactGeneratorNodes, buildAll", "blueprint/pkg/blueprint/ioutil/ioutil.go: CreateNodeDir"]}
{"id": "C13", "title": "GetAllIRNodes lists every node of the IR tree once, parents before children", "statement": "For every IR tree the traversal lists the node at each place of the tree exactly once, parents before children and earlier children first; IR filters partition lists without loss or reordering; a visit tracker answers false exactly on the first visit of a name.", "quantifier": "every IR tree, every list and type predicate, every history of visits", "why_tests_cant": "All trees, lists and histories.", "anchors": ["blueprint/pkg/ir/ir.go: GetAllIRNodes", "blueprint/pkg/ir/irutil.go: Filter, Split, FilterNodes, Remove", "blueprint/pkg/ir/buildcontext.go: Visited"]}
{"id": "C14", "title": "Configuration precedence of generated processes: explicit > command line > environment", "statement": "For every program that builds a namespace, every command line and every environment: the value seen for a required or optional argument is the program's own last definition if there is one, else the non-empty command-line flag, else the non-empty environment variable; the build fails iff some required argument has none of these, and names exactly the missing ones; a missing optional argument fails only when it is used. Child namespaces take required arguments from the program or the enclosing namespaces and ignore flags and environment. Flags and environment are read only once per builder. (An explicitly empty flag counts as absent, and declaring a name twice in one process panics.)", "quantifier": "every program, command line, environment and map iteration order", "why_tests_cant": "All combinations and orders.", "anchors": ["runtime/plugins/golang/namespace.go: parseFlags, checkRequired, Build, BuildWithParent, Required, Optional, Set, Define"]}
{"id": "C15", "title": "Runtime namespaces build each node at most once and hand out the same instance", "statement": "For every set of definitions, any build functions and any interleaving of threads calling Get in which no build function is called while an earlier call of it is still in progress: a node is built successfully at most once and not rebuilt, all Gets return that same instance and none before it is built, a runnable node is started exactly once when built, and failures are not cached. Always, a Get is answered by the nearest enclosing namespace defining the name. (Without the guard this fails: a build function that gets its own name, or two threads getting one node at once, build and start it twice.)", "quantifier": "every definition set, every build function, every interleaving", "why_tests_cant": "Arbitrary recursive build functions, histories and schedules.", "anchors": ["runtime/plugins/golang/namespace.go: Namespace.Get"]}
{"id": "C16", "title": "Await returns exactly when every runnable started in the namespace or one level down has finished; cancellation reaches exactly the nested namespaces", "statement": "For every interleaving of Gets, goroutine completions and shutdowns over a namespace tree: Await on a namespace returns iff every node started in it has stopped and every node started in a direct child has stopped and signalled; the counter never goes negative. The context of a namespace ends iff it or an enclosing namespace was shut down or had a node fail while running. (Await does not wait for nodes two levels down.)", "quantifier": "every interleaving of starts, completions and shutdowns", "why_tests_cant": "All schedules.", "anchors": ["runtime/plugins/golang/namespace.go: Get, Await, Shutdown"]}
{"id": "C17", "title": "NoSQL filters mean what the query says", "statement": "For every document and every query built from field conditions on dotted paths, equality, $gt/$gte/$lt/$lte, $ne, $in, $all, $elemMatch, $regex, $not and $and/$or/$nor, the parsed filter accepts exactly the documents that satisfy the query under the reference semantics (path steps spread over arrays; a comparison holds only when an addressed value exists and has a comparable type). Proved to differ from MongoDB in three ways: integer bounds never match floats, $ne does not match documents lacking the field, and a negative array index panics. Unknown operators and malformed conditions are rejected when the query is parsed, except that conditions next to $exists are ignored.", "quantifier": "every query in the supported grammar, every document, every floating-point comparison and regular-expression engine", "why_tests_cant": "Infinite query/document space with nesting.", "anchors": ["runtime/plugins/simplenosqldb/query/parsefilter.go", "runtime/plugins/simplenosqldb/query/filter.go"]}
{"id": "C18", "title": "What $exists really tests", "statement": "For every field and document, {field: {$exists: false}} accepts exactly the documents whose field, looked up as a sub-document, lacks a key literally called \"$exists\"; therefore it accepts documents in which the field is present (the documented meaning is refuted). {field: {$exists: true}} is rejected as a parse error.", "quantifier": "every field name, every document", "why_tests_cant": "All documents.", "anchors": ["runtime/plugins/simplenosqldb/query/parsefilter.go: parseExistsOperators"]}
{"id": "C19", "title": "Array literals in a query match as prefixes", "statement": "For every array literal, {field: [v0..vn-1]} accepts exactly the documents whose field holds an array whose first n elements satisfy v0..vn-1 (any value at all when the literal is empty); exact array equality is refuted.", "quantifier": "every array literal and document", "why_tests_cant": "All arrays.", "anchors": ["runtime/plugins/simplenosqldb/query/parsefilter.go: parseArrayValues"]}
{"id": "C20", "title": "Updates touch only the addressed path", "statement": "For every document, path and update operator ($set, $push, $addToSet, $pull, $inc, $unset), after a successful update the addressed location has the operator's result and every location off the path is unchanged, provided any array positions in the path are at the end of their arrays (always so for paths of field names); an update that fails leaves what the completed updates before it produced. Refuted without the proviso: addressing an earlier array position drops the elements after it, even for $unset. Also refuted: update documents being atomic, $pull leaving absent fields absent, and dotted paths reaching into array members.", "quantifier": "every document, path, operator and operand; every BSON encoding of operands and every spare slice content", "why_tests_cant": "All documents and paths; aliasing and truncation corner cases.", "anchors": ["runtime/plugins/simplenosqldb/query/update.go"]}
{"id": "C21", "title": "$inc adds exactly, modulo the width of the stored integer type", "statement": "For every stored integer of type int8/int16/int32/int64/int and every amount, $inc succeeds and stores the machine sum in the same type (the exact sum when it fits); applying +a then -a restores the document exactly. Update documents with unknown operators or operands of the wrong shape are rejected.", "quantifier": "every document, path to an integer (array positions at the end), integer and amount", "why_tests_cant": "All 2^64 values.", "anchors": ["runtime/plugins/simplenosqldb/query/update.go: incint"]}
{"id": "C22", "title": "A NoSQL collection behaves as an ordered list of documents", "statement": "For every history of InsertOne/InsertMany/FindOne/FindMany/DeleteOne/DeleteMany/UpdateOne/UpdateMany/ReplaceOne/ReplaceMany/Upsert calls on a new collection, replies and contents are those of an ordered list of documents: inserts append (adding an _id when there is none), finds return the first or all matches in order, deletes remove exactly those, updates and replacements change exactly those in place, and reported counts are the true counts. Refuted: that ReplaceMany reports a malformed filter, that a failed replacement keeps the old document, that every document always has an _id, and that ids are unique.", "quantifier": "every operation history with queries and updates from the supported grammar", "why_tests_cant": "Unbounded histories.", "anchors": ["runtime/plugins/simplenosqldb/nosqldb.go"]}
{"id": "C23", "title": "Upsert is insert-or-replace and converges", "statement": "For every collection and query, Upsert replaces the first match or, when none matches, inserts exactly one document; the collection grows exactly when the call reports that nothing was replaced, and by one. If the document satisfies the query (for UpsertID: carries that _id) repeating the call replaces it and does not grow the collection; without the _id every UpsertID adds another copy (refutation).", "quantifier": "every collection, query and document", "why_tests_cant": "All states.", "anchors": ["runtime/plugins/simplenosqldb/nosqldb.go: Upsert, UpsertID"]}
{"id": "C24", "title": "The cache is a map", "statement": "For every sequential history of Put/Get/Mset/Mget/Delete/Incr, Get returns the most recently written value for the key or reports absence, and no operation affects other keys.", "quantifier": "every history, every key", "why_tests_cant": "Unbounded histories.", "anchors": ["runtime/plugins/simplecache/cache.go"]}
{"id": "C25", "title": "Counter increments: each adds one when serialised; under concurrency none is invented", "statement": "For every number of concurrent clients incrementing a cached counter, the final value lies between the initial value and the initial value plus the number of completed increments; increments that do not overlap are all counted. (Overlapping increments can be lost: the read and the write are separate steps. This failure is stated and proved.)", "quantifier": "every interleaving of the increments' reads and writes, any number of clients", "why_tests_cant": "Schedules.", "anchors": ["runtime/plugins/simplecache/cache.go: Incr"]}
{"id": "C26", "title": "The queue is a bounded FIFO: nothing lost, duplicated or reordered", "statement": "For every interleaving of pushes and pops (with cancellations), the sequence of items taken by Pop followed by the queue contents equals the sequence of successfully pushed items; at most the capacity is ever held; a push or pop reports failure for lack of room/items only if its context was cancelled, and then has no effect. (An item popped into a destination of another type is removed although the caller gets an error: stated and proved.)", "quantifier": "every interleaving of any number of producers/consumers", "why_tests_cant": "All schedules.", "anchors": ["runtime/plugins/simplequeue/queue.go"]}
{"id": "C27", "title": "The client pool never exceeds its limit and never gives one client to two callers", "statement": "For every interleaving of Pop and Push by any number of goroutines, at most maxClients clients exist, no client is held by two callers, Push never blocks, and every client is either idle or held.", "quantifier": "every interleaving, any number of goroutines", "why_tests_cant": "All schedules, all goroutine counts.", "anchors": ["runtime/plugins/clientpool/clientpool.go"]}
{"id": "C28", "title": "A blocked Pop can always be served while a client exists or is being built", "statement": "A Pop blocks only when the pool is at capacity; as long as no build fails, from every reachable state in which a Pop is blocked there is a continuation in which owners return their clients and the Pop is served; a returned client is taken by a waiter with its own steps alone. (If the build of the last client fails while a Pop waits, the Pop is stranded below capacity: stated and proved.)", "quantifier": "every interleaving, any number of goroutines, every capacity", "why_tests_cant": "Liveness over all schedules.", "anchors": ["runtime/plugins/clientpool/clientpool.go: Pop"]}
{"id": "C29", "title": "A valid workload dispatches requests in exactly the configured proportions", "statement": "For every set of APIs with non-negative proportions accepted by IsValid (they sum to 100), each of the 100 dispatch slots selects exactly one API and each API owns exactly its proportion of slots.", "quantifier": "every list of APIs and proportions", "why_tests_cant": "All proportion vectors.", "anchors": ["runtime/core/workload/workload.go: IsValid, AddAPI", "runtime/core/workload/engine.go: init_prop_map"]}
{"id": "C30", "title": "Open-loop statistics account for every issued request", "statement": "For every schedule, when RunOpenLoop returns every issued request has exactly one recorded statistic, and no statistic is recorded twice.", "quantifier": "every interleaving of request goroutines, collector and stop signal", "why_tests_cant": "All schedules.", "anchors": ["runtime/core/workload/engine.go: RunOpenLoop"]}
{"id": "C31", "title": "Client registry: first registration wins by default, explicit default otherwise, results cached", "statement": "For every sequence of Register/SetDefault/Get, Get invokes the build function selected at its first call and every later Get returns the same result without invoking any build function.", "quantifier": "every call history", "why_tests_cant": "Unbounded histories.", "anchors": ["runtime/core/registry/registry.go"]}
{"id": "C32", "title": "Retry wrappers return the first success and bound the attempts", "statement": "For every sequence of outcomes of the wrapped call, a client retried with Max > 0 makes between 1 and Max calls, numbered 1..k in the context, stops at the first success and returns it, and otherwise returns the last error. The fixed-delay variant makes the same calls and sleeps the delay after each failed one. With Max <= 0 the service is never called and success is reported.", "quantifier": "every outcome sequence, every Max", "why_tests_cant": "All outcome sequences.", "anchors": ["plugins/retries/codegen.go"]}
{"id": "C33", "title": "Exponential backoff doubles, stops at the limit, and terminates for positive delays", "statement": "For every positive starting delay and every limit up to 2^62 ns, every outcome sequence, jitter and cancellation, the waits are start, 2*start, 4*start, ... (with jitter: between half of that and that), each nominal wait is below the limit, the wrapper stops at the first success, at the first failure whose wait would reach the limit, or on cancellation, and it terminates within 63 attempts; with a zero starting delay and a permanently failing service it never terminates.", "quantifier": "every starting delay, limit, outcome sequence", "why_tests_cant": "All parameters; non-termination.", "anchors": ["plugins/retries/codegen.go"]}
{"id": "C34", "title": "Retry rate limiting never exceeds its budget", "statement": "For every rate, outcome sequence, non-decreasing clock, number of requests made one after the other, and window [a,b], the number of retries issued in the window is at most rate + rate*(b-a) seconds; each request makes between 1 and max(1,Max) calls and returns the first success. The documented readings (rate per second is a hard maximum, rate 0 is unlimited) and the bound under concurrent use do not hold.", "quantifier": "every rate, Max, clock, outcome sequence, window and number of requests", "why_tests_cant": "All timings.", "anchors": ["plugins/retries/codegen.go"]}
{"id": "C35", "title": "A retry token bucket bounds retries by successes", "statement": "For every request sequence, the cost of the retries made is bounded by the initial bucket plus the refills earned by successful retries, the bucket stays between min(1, capacity) and capacity, and a request makes at most one retry. Successful first tries refill nothing, so with refill <= cost the retries over a client's life are bounded by a constant and a drained bucket disables retries forever.", "quantifier": "every outcome sequence", "why_tests_cant": "Unbounded sequences.", "anchors": ["plugins/retries/codegen.go"]}
{"id": "C36", "title": "Round-robin load balancing is fair", "statement": "For every number N>0 of backends and every number k of requests, backend i receives either floor(k/N) or ceil(k/N) requests, and any N consecutive requests hit N distinct backends.", "quantifier": "every N, k, starting offset", "why_tests_cant": "All N and k.", "anchors": ["plugins/loadbalancer/codegen.go: pickClient"]}
{"id": "C37", "title": "A timed-out call returns after the deadline, with an error or the call's result", "statement": "For every schedule of the wrapped call, the timer and the caller: if the wrapper returns because the call completed, it returns exactly the call's result; it takes the timeout case only after the deadline, returns within a bounded number of its own steps then even if the call never returns, and the error it reports is the timeout error or the call's own. If the caller's two result variables are read together it returns the complete result or the timeout error; otherwise it may return a zero value with a nil error.", "quantifier": "every interleaving of the call goroutine and the timer", "why_tests_cant": "All schedules.", "anchors": ["plugins/timeouts/codegen.go"]}
{"id": "C38", "title": "Generated import names are unique and stable", "statement": "For every sequence of packages and types added to a generated file, distinct packages get distinct local names, each package is imported on one line and only if it was asked for, the file's own package never; adding a package again returns the same name, and earlier names never change.", "quantifier": "every sequence of added packages and types", "why_tests_cant": "All sequences with colliding base names.", "anchors": ["plugins/golang/gogen/imports.go: AddPackage, AddType, String"]}
{"id": "C39", "title": "Modules of a workspace have their own directories", "statement": "In every history of CreateModule and AddLocalModule calls on a workspace in which no call failed and no generated module was given the last path component of a directory already in use, two calls use the same directory exactly if they are for the same module, and the go.mod in a module's directory names that module. In every history, also with failures, go.work lists a module at most once, and creating a module the workspace already has is an error that changes nothing. (Without the proviso it fails: two generated modules with the same last path component silently share a directory, the second overwriting the first; and a local module rejected because its directory is taken is reported as present on the next try.)", "quantifier": "every history of calls with every outcome of the file system operations", "why_tests_cant": "Every set and order of modules.", "anchors": ["plugins/golang/gogen/workspacebuilder.go: CreateModule, AddLocalModule, GetLocalModule"]}
{"id": "C40", "title": "Generated namespaces contain what was asked for, and constructors get their arguments", "statement": "For every sequence of RequiredArg, OptionalArg, Instantiate, Declare and DeclareConstructor calls with names that need no escaping and no name both required and optional, running the generated file gives a run-time namespace builder with exactly: the first accepted declaration of each name, the last description of each argument, and the requested instantiations each once in the order of first request. A declaration is rejected exactly if its name is taken or its arguments do not fit the constructor in number or contain metadata. The build function generated for a constructor calls it with exactly the given arguments in order (literals as they are, nodes as Get returns them), and does not call it if one of them is not available. (Provided argument names do not hide what the generated code uses: a constructor with an argument named like its package yields code that does not compile; and literals with quotes, backslashes or newlines are not passed on as they are.)", "quantifier": "every call sequence, every constructor and argument list, every map order, every result of Get", "why_tests_cant": "All call sequences and argument lists.", "anchors": ["plugins/golang/gogen/namespacebuilder.go: RequiredArg, OptionalArg, Instantiate, Declare, DeclareConstructor, buildFuncTemplate, diFuncTemplate", "blueprint/pkg/ir/ir.go: IRValue.String", "runtime/plugins/golang/namespace.go: Define, Required, Optional, Instantiate"]}
{"id": "C41", "title": "A generated file contains the rendered template unless it had longer content", "statement": "For every sequence of template-to-file generations into any initial files, a file contains exactly the text rendered into it last if and only if neither its initial content nor any text rendered into it earlier was longer (otherwise the end of the longer text stays in the file); other files are not touched, and a failed generation changes no content.", "quantifier": "every initial content of the output directory, every sequence of renderings with failures", "why_tests_cant": "All contents and sequences.", "anchors": ["plugins/golang/gogen/template.go: ExecuteTemplateToFile", "plugins/dockercompose/dockergen/template.go", "plugins/linuxcontainer/linuxgen/template.go"]}
{"id": "C42", "title": "docker-compose wires local dials to the port the server is told to bind", "statement": "For every sequence of declarations that succeeds and every map iteration order, if processing succeeds then each dial of an address bound by an instance in the deployment receives an environment variable with a binding instance's hostname and the very port that instance is told to bind and exposes; every other dial, and every config node without a value, is passed through from the calling environment and nothing else is set or exposed. The file has one service per instance, two binds of one instance have different ports, and pre-assigned ports are kept. If no address is bound twice the file does not depend on map order; arguments that are not config nodes and clashing pre-assigned ports are errors. (Requires that the arguments of one instance have different environment variable names; it is refuted without that, and order independence is refuted for an address bound twice.)", "quantifier": "every sequence of declarations, every heap of bind configs, every two map iteration orders", "why_tests_cant": "Tests sample a few deployments; Go's map order is random, so a test sees one order per run.", "anchors": ["plugins/dockercompose/deploy.go: processArgNodes", "plugins/dockercompose/dockergen/dockercompose.go"]}
{"id": "C43", "title": "Kubernetes manifests resolve the address of every dial", "statement": "For every application of pods and every map iteration order, if generation succeeds then binds of one pod have different ports and are listed by the pod's service; a dial of an address bound in the same pod sees localhost and that port; for any other dial the config map holds the service name and port of a pod that binds the address, and a container that has at least one directly set variable sees it. Dials of addresses bound nowhere, config nodes without a value and other arguments are errors. (A container none of whose variables is set directly - a client that dials only other pods - sees no variable at all: the unconditional statement is refuted.)", "quantifier": "every application, every pod, every container, every map iteration order", "why_tests_cant": "All applications and iteration orders.", "anchors": ["plugins/kubernetes/ir.go: GenerateArtifacts", "plugins/kubernetes/kubepod/deploy.go: processArgNodes", "plugins/kubernetes/kubepod/deploygen/deployfile.go: kubernetesTemplate"]}
{"id": "C44", "title": "Generated .env files give bind and dial of one address the same port and different addresses different ports", "statement": "For every list of config nodes with at most one bind and one dial per address and different variable names, every initial port and every map order, the bind and dial variables of one address carry the same port, distinct addresses carry distinct ports as long as the range does not pass 65535, and .env and .local.env agree on ports. (Ports wrap to 0 past 65535; two binds with one address name leave the first without a variable; keys that differ in punctuation share a variable.)", "quantifier": "every list of nodes, every initial port, every map order", "why_tests_cant": "All node lists and map orders.", "anchors": ["plugins/environment/wiring.go: matchDialsToBinds, generateEnv"]}
{"id": "C45", "title": "run.sh demands exactly the variables that no process in the workspace provides, and starts processes after what they depend on", "statement": "For every sequence of declared run commands with different function names: the variables checked before start are exactly the declared dependencies that have no run function; if one is missing the script fails and starts nothing. Otherwise, if processes do not depend on each other, each is started exactly once, with every variable it depends on set, whatever other processes do; if they do, without cycles, and every process starts successfully, each process is started at least once and at most twice and never before what it depends on. A command's body is the text between its first and last brace, and an empty body is an error. (A process another one depends on may be started twice, and a failed dependency makes its dependent report success: both stronger statements are refuted.)", "quantifier": "every sequence of DeclareRunCommand, every environment, every behaviour of the process bodies", "why_tests_cant": "All sequences, dependency graphs and environments.", "anchors": ["plugins/linuxcontainer/linuxgen/run.sh.go", "plugins/linuxcontainer/linuxgen/runfunc.go", "plugins/linuxcontainer/linuxgen/template.go", "plugins/linuxcontainer/deploy.go"]}
{"id": "C46", "title": "Injected faults respect their configured probability bounds", "statement": "For every random draw, a probabilistic fault injector with percentage p fails a request, without reaching the service, exactly when the draw in [0,100) is below p: never for p <= 0, always for p >= 100, for p of the 100 draws in between. An injected delay lies in [0, max] milliseconds and the service is then called and its result returned.", "quantifier": "every random draw, probability and maximum", "why_tests_cant": "All draws.", "anchors": ["plugins/faultinjector/probabilistic/codegen.go", "plugins/faultinjector/delay/codegen.go", "plugins/latency/codegen.go"]}
{"id": "C47", "title": "Re-indentation preserves relative layout", "statement": "Indent prefixes every line of a text with the requested number of spaces and changes nothing else; indenting twice adds up. Reindent empties blank lines, expands tabs, and shifts all other lines by one common amount, so that the least indented line ends at the requested column and relative indentation is preserved.", "quantifier": "every text and every amount", "why_tests_cant": "Generated code relies on it for all templates; tests cover a few texts.", "anchors": ["blueprint/pkg/blueprint/stringutil/indent.go: Indent, Reindent"]}
{"id": "C48", "title": "Copying a result into a caller's destination preserves the data or reports an error", "statement": "For every source value and destination, copying a cached/queued value either leaves in the destination data equal to the source (possibly behind interfaces or pointers, or as the nil value of a nilable type) or returns an error and leaves the destination unchanged; it succeeds whenever the types agree; the only panics are for a nil source with a destination type that cannot be nil or an untyped nil destination.", "quantifier": "every value, every destination type", "why_tests_cant": "All Go types (pointers, interfaces, named types) and values.", "anchors": ["runtime/core/backend/reflect.go: CopyResult", "blueprint/pkg/wiring/reflect.go: copyResult"]}
{"id": "C49", "title": "Instantiating a namespace or the server side of a pointer gets everything or reports an error", "statement": "When a namespace is instantiated, all children added to it with AddNodeTo are got within it in order, or BuildIR fails at the first that cannot be. When a pointer is got, the server side of its address is instantiated exactly if it is needed and not there yet, or BuildIR fails, which it does only if the address cannot be got or has no server afterwards. What fails: an error from instantiating the server side is dropped, so BuildIR succeeds with an address that has no server.", "quantifier": "every list of children, every pointer, every outcome of the gets", "why_tests_cant": "All combinations of children and failures.", "anchors": ["blueprint/pkg/coreplugins/namespaceutil/namespace.go: InstantiateNamespace, instantiateNamespaceNodes", "blueprint/pkg/coreplugins/pointer/pointer.go: InstantiateDst"]}
{"id": "C50", "title": "The generated name of a type means that type", "statement": "For every type built from predeclared types, package types, pointers, slices, maps and channels (but no bidirectional channel of receive-only channels), and after any history of imports, the text that NameOf returns parses in exactly one way as a Go type and, with the file's final import declaration, means exactly that type; the text never changes later; Equals is type equality. (A channel of receive-only channels is rendered as a send-only channel, and the types of variadic parameters are neither imported nor named by their import name.)", "quantifier": "every type and every history of calls before and after", "why_tests_cant": "Types nest without bound and names depend on the history of imports.", "anchors": ["plugins/golang/gogen/imports.go: NameOf, Qualify, AddType", "plugins/golang/gocode/typename.go: String, Equals"]}
{"id": "C51", "title": "Modules of a finished workspace find each other", "statement": "For every workspace (as in C39) whose go.mod files can be read and written, after Finish go.work lists each module's directory once and nothing else, and each module's go.mod redirects every other module of the workspace to that module's directory, leaves its other replace directives and its requires as they were, and does not redirect itself. (Finish succeeds also when a go.mod could not be updated; then modules do not find each other.)", "quantifier": "every history of calls, every iteration order over the modules", "why_tests_cant": "All sets of modules and all map iteration orders.", "anchors": ["plugins/golang/gogen/workspacebuilder.go: Finish, updateModfile, GenerateGoWork"]}
{"id": "C52", "title": "Modules of used code are required or copied", "statement": "For every sequence of AddToModule calls on one module: each module that is not local is required at most once, with a version given for it, nothing else is required, and if all calls succeed every such module is required; a call fails only for a module without version. For every sequence of AddToWorkspace calls that succeed and that each have at most one local module, every local module is in the workspace. (A call for a service whose interface and implementation are in two local modules adds only the first.)", "quantifier": "every sequence of calls with every list of modules", "why_tests_cant": "All combinations of local and external modules.", "anchors": ["plugins/golang/helpers.go: AddToModule, AddToWorkspace", "plugins/workflow/workflowspec/service.go: AddToModule, AddToWorkspace", "plugins/golang/gogen/modulebuilder.go: Require"]}
{"id": "C53", "title": "Wrapper instances in a process have their own interface and parameters", "statement": "For every set of timeout, latency, circuit breaker, retry, client pool, gRPC client and Thrift client instances in one process, generated in any order and any number of times, each instance at run time wraps the interface and has the parameters that the wiring spec gave it, provided different interfaces have different names, circuit breakers, retriers and client pools of one interface have equal parameters, and no interface has both a gRPC and a Thrift client. (Each proviso is needed: client pools of two instances of a service send the second's calls to the first; circuit breakers and retriers use the parameters generated last; the Thrift client of an interface that also has a gRPC client is not generated; interfaces with the same name in different packages overwrite each other's wrappers.)", "quantifier": "every list of wrapper instances, every order", "why_tests_cant": "All combinations of instances in a process.", "anchors": ["plugins/timeouts/ir.go", "plugins/latency/ir.go", "plugins/circuitbreaker/ir.go", "plugins/circuitbreaker/codegen.go", "plugins/retries/ir.go", "plugins/retries/codegen.go", "plugins/clientpool/ir.go: GenerateFuncs", "plugins/grpc/ir_grpc_client.go: GenerateFuncs", "plugins/thrift/ir_thrift_client.go: GenerateFuncs"]}
{"id": "C54", "title": "The compiler command line generates artifacts only after every stage succeeded", "statement": "For every set of registered wiring specs, analysis passes and command line flags, MakeAndExecute generates artifacts iff an output directory and a spec name are given, the name is registered (the last registration under a name counts), the spec function returns no error, BuildIR returns no error and every analysis pass succeeds in registration order; they are generated into the given directory from the IR as the passes left it. The exit code is 0 iff generation succeeded too, 1 iff the flags were invalid, 2 otherwise. Err() returns all errors recorded with AddError in order; however, recorded errors do not stop the build (refuted), and a -port above 65535 is truncated rather than rejected (refuted).", "quantifier": "every list of spec options and passes, all flag values, every behaviour of spec functions, BuildIR, passes and GenerateArtifacts", "why_tests_cant": "Stage functions are arbitrary plugin code; a test fixes their outcomes and a few registrations.", "anchors": ["plugins/cmdbuilder/cmdbuilder.go: MakeAndExecute, MakeAndExecuteWithPasses, Add, ParseArgs, ValidateArgs, Build", "blueprint/pkg/wiring/wiring.go: AddError, Err, BuildIR"]}
{"id": "C55", "title": "Values sent through generated gRPC and Thrift code arrive unchanged", "statement": "For every method signature for which code can be generated and compiles, and for all values of its argument or result types: if the types consist of basic types, slices and structs with one named field per declaration, the receiver gets the sent values (nil and empty slices are not told apart; gRPC needs UTF-8 strings; Thrift needs int values that fit 32 bits, and otherwise truncates them modulo 2^32). Types holding pointers always crash the sender or the receiver; map contents never arrive; second names in a field declaration and embedded fields are silently lost (refuted). Without unmarshallable strings nothing else can happen: values are delivered or one side crashes.", "quantifier": "every Go package (finite set of struct declarations, recursive or not), every list of types over it, all values of unbounded depth and size", "why_tests_cant": "Marshalling code is generated per type; types and values are unbounded and recursive, and a test sees a few.", "anchors": ["plugins/grpc/grpccodegen/{protogen,marshallgen}.go", "plugins/thrift/thriftcodegen/{thriftgen,marshallgen}.go", "plugins/golang/goparser/parser.go: ParsedField"]}
{"id": "C56", "title": "Message generation for remote calls terminates and covers exactly the structs in use", "statement": "For every list of types and every (also recursive or mutually recursive) set of struct declarations, generating the IDL messages terminates; a message is generated only for structs reachable from the given types and, with one field per declaration, for every one of them.", "quantifier": "every Go package and every list of types, every prior generator state", "why_tests_cant": "Type graphs are arbitrary, may be cyclic and unboundedly deep; termination over all of them is not testable.", "anchors": ["plugins/grpc/grpccodegen/protogen.go: GetOrCreate, makeFieldList, getGRPCType", "plugins/thrift/thriftcodegen/thriftgen.go"]}
{"id": "C57", "title": "A remote call behaves like a local call", "statement": "On a working network and before the deadline, a call through a generated gRPC, Thrift or HTTP client makes the service run exactly once, on the caller's arguments, and the caller gets the service's results (up to the value conditions of C55; for HTTP, values that JSON encodes and decodes). If the service fails, a gRPC client gets the service's error (as a status), a Thrift client gets \"Response object is nil\" and an HTTP client \"StatusCode was 500\": clients of the latter two can never tell two service errors apart.", "quantifier": "every stateful service (reply depends on the whole history), all sendable signatures, all arguments, results and errors", "why_tests_cant": "The service, its signature and values are arbitrary; a test fixes all of them.", "anchors": ["plugins/grpc/grpccodegen/{clientgen,servergen}.go", "plugins/thrift/thriftcodegen/{clientgen,servergen}.go", "plugins/http/httpcodegen/{clientgen,servergen}.go"]}
{"id": "C58", "title": "A remote call that reports success happened, whatever the network does", "statement": "Whatever requests or responses are lost and whenever contexts expire: if a generated client returns no error, the service ran on the sent arguments and returned normally, and the returned values are its results as transmitted; a service that fails is never reported as success. gRPC and Thrift run the service at most once per call; HTTP (GET) may run it again, always with the same arguments. The service sees a deadline no later than the caller's and than the 1 s client timeout with gRPC, and none at all with Thrift and HTTP.", "quantifier": "every service, signature, argument list, network fault, resend count and deadline", "why_tests_cant": "Faults and deadlines strike at arbitrary points; a test provokes a few.", "anchors": ["plugins/grpc/grpccodegen/{clientgen,servergen}.go", "plugins/thrift/thriftcodegen/{clientgen,servergen}.go", "plugins/http/httpcodegen/{clientgen,servergen}.go"]}
{"id": "C59", "title": "Parsing a package finds exactly what its source declares", "statement": "For every package that the Go compiler accepts, whose interfaces embed nothing, whose methods belong to structs, whose functions are not generic, where no type hides a predeclared or package type, and whose files have at most one dot import and import packages under their own names: parsing succeeds in every order of map iteration and yields exactly the declared interfaces, structs, methods and functions, each with the parameters and results its signature stands for under Go's scoping rules. Outside these bounds it does not hold: an interface that embeds another silently removes all functions of the package and all methods of its structs, a method of a non-struct type makes the result depend on map order, a generic function makes the module unparseable, and undeclared names inside composite types go unnoticed.", "quantifier": "every set of source files (any number of files, imports, declarations; arbitrarily nested type expressions) and every order of map iteration", "why_tests_cant": "Source packages are unbounded and map iteration order is random; tests parse the example applications.", "anchors": ["plugins/golang/goparser/parser.go: Load, LoadStructsAndInterfaces, LoadFuncs, LoadImports, Parse, resolveType, parseFunc", "plugins/golang/gocode/typename.go", "plugins/golang/gocode/service.go"]}
{"id": "C60", "title": "A struct is accepted for an interface exactly if it has its methods", "statement": "For every struct and every interface without generic types, however parsed: the check terminates without a panic and says yes exactly if the struct declares each method of the interface with the same parameter and result types. With generic types it never says yes wrongly but may panic. Types are compared as parsed: function, struct and interface literals are all alike, array lengths are ignored, and byte/uint8, rune/int32 and any/interface{} are told apart.", "quantifier": "every pair of parsed packages, every struct, interface and order of map iteration", "why_tests_cant": "Signatures and types are arbitrarily many and deep, and the loop order is random.", "anchors": ["plugins/workflow/workflowspec/service.go: implements", "plugins/golang/gocode/service.go: Func.Equals", "plugins/golang/gocode/typename.go: Equals"]}
{"id": "C61", "title": "Looking up a workflow service gives a service for the requested type", "statement": "In every set of parsed modules and every order of map iteration, a service found for a type consists of an interface all of whose methods take a context first and return an error last, a struct that satisfies it, and a constructor that takes a context and returns the requested interface (or a pointer to the requested struct) and an error. If no interface mentions a generic type, a service is found whenever one exists, there is otherwise an error (or, if the package is not in the module, nil without an error), never a panic; and if only one service exists for the type the result does not depend on map order. If a struct satisfies several interfaces - always, if some interface has no methods - the choice is a matter of map order.", "quantifier": "all module sets, requested types, and orders of map iteration at each loop", "why_tests_cant": "Module sets are unbounded and Go randomises map order; ambiguity shows only in some runs.", "anchors": ["plugins/workflow/workflowspec/spec.go: get", "plugins/workflow/workflowspec/service.go"]}
{"id": "C62", "title": "Service constructors get the arguments named in the wiring spec", "statement": "Instantiating a workflow service succeeds exactly if there is one argument per constructor parameter after the context and every needed node can be built; a string parameter whose argument is not defined in the wiring spec gets that text, every other parameter the node with that name, in order. A string argument that happens to be the name of a definition is replaced by the node. Clients see exactly the methods of the service interface, each without its leading context and trailing error.", "quantifier": "every constructor, argument list, wiring spec and service interface", "why_tests_cant": "Parameter lists, names and wiring specs are arbitrary.", "anchors": ["plugins/workflow/wiring.go: Service", "plugins/golang/goparser/parser.go: ParsedInterface.ServiceInterface"]}
{"id": "C63", "title": "Module sets share what they parse, find packages in the nearest set, and keep what they have", "statement": "In every history of creating sets (with or without parent), adding modules, looking up packages and changes to the files: a directory is parsed at most once per compiler run and all sets that have it share that module; a set never loses a directory and a module never changes its name or packages; adding directories adds exactly these or, on an error, nothing, and fails exactly if a directory not seen before cannot be parsed or holds a module whose name the set has; a package is taken from the nearest set in the chain of parents that has it, or from the module the Go tool names, which is added to the last parent; if each set has the package in one module only, map order does not matter. What fails: a module parsed for another set, or given in the same call, is not checked for redeclaration, and then hides the other under its name; code written to a directory after it was parsed is never seen; nested modules make lookups depend on map order; marking a module local or not changes it for all sets; a directory in another spelling makes Add panic.", "quantifier": "every history of calls on any number of sets, every file system and changes to it, every order of map iteration", "why_tests_cant": "Histories, sets of directories and chains of parents are unbounded; the cache makes results depend on everything that happened before.", "anchors": ["plugins/golang/goparser/moduleset.go: New, Add, AddModule, AddModules, AddWorkspace, GetPackage"]}
{"id": "C64", "title": "A cache behind a network returns only what was written", "statement": "For the Redis and memcached caches: whatever calls clients make, in whatever order the server executes their commands, and whichever commands fail (before or after taking effect), a Get or an Mget that reports a value, or reports that the key does not exist, reflects a content which the earlier calls, judged only by their replies, may have left under that key: the value of the last acknowledged write, or of a later write that returned an error. After an acknowledged Put and until the next write of the key a Get decodes exactly that value's JSON text; on memcached it may also find the key dropped.", "quantifier": "all JSON codecs, histories of calls of any number of clients, fates of every command, goroutine orders inside Mset, evictions", "why_tests_cant": "Network failures that lose a reply after the write took effect, evictions and interleavings are not controllable in tests.", "anchors": ["runtime/plugins/redis/cache.go: Put, Get, Incr, Delete, Mget, Mset", "runtime/plugins/memcached/cache.go: Put, Get, Incr, Delete, Mget, Mset"]}
{"id": "C65", "title": "Exchanging the cache backend", "statement": "When nothing fails, the Redis cache gives, call by call, the same replies as the in-memory cache on every history in which: stored values have a JSON text that decodes like a copy into the destinations used; counters are int64 below the largest; Mget names only existing keys; Mset and Mget name at least one key and as many values as keys. The memcached cache does on every history in which in addition keys are legal and values fit, deleted and incremented keys exist, counters are not negative and an Mset repeats no key (but there Mget may name missing keys and no keys). Outside these conditions the backends differ: an Mget of a missing key never succeeds on Redis (it panics); Delete and Incr of a missing key are errors on memcached; and so on for each condition.", "quantifier": "all JSON codecs, all histories of calls, all orders of the goroutines of an Mset", "why_tests_cant": "Equivalence of implementations ranges over all histories; the repository's backend tests run a few calls each and need live servers.", "anchors": ["runtime/core/backend/cache.go: Cache", "runtime/plugins/redis/cache.go", "runtime/plugins/memcached/cache.go", "runtime/plugins/simplecache/cache.go"]}
{"id": "C66", "title": "Increments on a networked cache are counted", "statement": "For the Redis and memcached caches, while a key that holds a non-negative number is not written except by Incr: the acknowledged Incr calls of all clients return different numbers, in the order in which the server executed them; the counter advances by at least the number of acknowledged and at most the number of attempted Incr calls. If nothing fails every Incr is acknowledged (memcached: for legal keys). Unlike on the in-memory cache, no acknowledged increment is lost.", "quantifier": "all histories of calls of any number of clients, fates of every command, start values and numbers of increments below 2^63", "why_tests_cant": "Concurrent increments and lost replies need a quantification over interleavings and failures.", "anchors": ["runtime/plugins/redis/cache.go: Incr", "runtime/plugins/memcached/cache.go: Incr"]}
{"id": "C67", "title": "A RabbitMQ queue delivers each item at most once and in order", "statement": "For the RabbitMQ queue, with any number of client processes and callers, cancellations, lost messages and lost connections: every message that arrived at the broker is handed to exactly one client, in the order of arrival, and each client pops what it was handed in that order; what arrived was pushed, in the order of the pushes. With a single client and no failures the queue is first-in first-out and holds exactly what was pushed and not popped. Pop takes the first message of its own client's buffer at once, even if its context is cancelled, and gives up only if its context is cancelled. But a process that only pushes also consumes: a message handed to it stays there, and a Pop waiting in another process never receives it. After a lost connection every Pop and every Push reports success together with an error, for ever. Unless the network silently swallows a published message, every item whose Push reports no error arrives at the queue.", "quantifier": "all JSON codecs, numbers of clients and callers, schedules of pushes, deliveries, pops, cancellations, losses of messages and connections", "why_tests_cant": "The distribution of messages over several consuming processes, and losses, depend on schedules; the repository's test uses one client.", "anchors": ["runtime/plugins/rabbitmq/queue.go: NewRabbitMQ, Push, Pop", "runtime/core/backend/queue.go: Queue"]}
{"id": "C68", "title": "Which items a RabbitMQ queue can carry", "statement": "An item whose data JSON decoding into an interface{} keeps (nil-free values built from bool, float64, string, map[string]interface{} and slices) is received by a Pop into any variable that can hold it. Data of any other type is never received: a Pop into an integer or a struct variable never succeeds, and the item is gone from the queue although Push reported success and the in-memory queue delivers it.", "quantifier": "all JSON codecs whose decoding into interface{} produces only the documented types, all items, messages and destinations", "why_tests_cant": "The test pushes one string; the claim ranges over all item types and destinations.", "anchors": ["runtime/plugins/rabbitmq/queue.go: getBytes, decodeBytes, Pop", "runtime/core/backend/reflect.go: CopyResult"]}
{"id": "C69", "title": "A trace context reaches the server unchanged", "statement": "Whatever valid OpenTelemetry span context a client sends, the server decodes exactly that context (trace id, span id, flags, trace state, remote mark); an invalid one is rejected with an error. Whatever text arrives, a context that is accepted has a 16-byte trace id and an 8-byte span id, both non-zero, and a valid trace state. Decoding panics exactly for texts that have valid identifiers but no trace flags, so the claim that a server survives every text is false.", "quantifier": "all span contexts and all received texts", "why_tests_cant": "ids, flags and states are arbitrary byte strings; the panic needs a text no generated client sends", "anchors": ["runtime/core/backend/trace.go: GetSpanContext, traceCtx", "plugins/opentelemetry/ir_ot_client.go: clientSideTemplate"]}
{"id": "C70", "title": "The collected spans are the calls", "statement": "In an application instrumented with OpenTelemetry (each service with client spans, without, or not at all; each in-process or over a network that may lose requests and responses), the spans that reach the collector are exactly those of the calls made: one server span per handled call, one client span per call if wanted, each child of the span of the handler or client that made it, with its log statements and errors as events in order, all calls of a request in one trace and different requests in different traces, and no span stays open. The wrappers hand on the callee's and the network's errors. If all services are instrumented, where they run makes no difference to the spans, and a request whose caller was not sampled leaves none. Without client spans a failed call is recorded as an error of the caller's span; a service that is not instrumented and is reached over the network cuts the trace.", "quantifier": "all instrumentation and deployment choices, all programs of nested calls and log statements, all failures", "why_tests_cant": "call trees, deployments and failure patterns are unbounded", "anchors": ["plugins/opentelemetry/ir_ot_server.go: serverTemplate", "plugins/opentelemetry/ir_ot_client.go: clientSideTemplate", "plugins/opentelemetry/wiring.go: Instrument, InstrumentWithoutClientSpans, Logger", "runtime/plugins/opentelemetry/logger.go: OTTraceLogger"]}
{"id": "C71", "title": "GoVector clocks order events exactly as they happened", "statement": "With GoVector logging on every process, one log entry's vector clock is smaller than another's exactly if the first entry happened before the second, i.e. there is a chain of earlier entries of the same process, requests sent and received, and responses sent and received between them; entries that are not ordered are concurrent, no two entries carry the same clock, a process's own component numbers its entries 1, 2, 3, ..., and each completed call appears as request, start, response and return entries in increasing clock order. This holds for every interleaving of processes, calls, failures and crashes in which no process is started twice; after a restart a process counts from one again and later entries get smaller clocks than earlier ones.", "quantifier": "all numbers of processes, all interleavings of starts, crashes, local log messages, instrumented and uninstrumented requests, responses, lost and late responses", "why_tests_cant": "the claim is about every interleaving of concurrent requests over unboundedly many processes; a test sees one interleaving, and the order of entries there proves nothing about the clocks of others", "anchors": ["plugins/govector/ir_clientwrapper.go", "plugins/govector/ir_serverwrapper.go", "plugins/govector/wiring.go", "runtime/plugins/govector/log.go: GoVecLogger, GetSendCtx, UnpackReceiveCtx"]}
{"id": "C72", "title": "X-Trace: one connected trace per request", "statement": "If all services are instrumented with X-Trace, then a request from outside yields one trace: everything done for it (start and end of each handler and of each call, errors, the handlers' own log statements) is reported exactly once, under one task that is new, and all of it follows from one first event. A handler's events come after its start; a call's start comes after the start of the handler that makes it; a server's start comes directly after the client's call; and for a call that is answered the client's end comes after the server's end, and the chain client start, server start, server end, client end is unbroken, whichever contexts handlers use, and whether calls run in a row or at the same time, fail or get lost. The trace does not show that one call was made after another returned, or that a handler ended after its calls returned: the wrapper has no way to hand its context back to the handler.", "quantifier": "all trees of calls, all choices of contexts in handlers, all failures of handlers, lost requests and lost responses", "why_tests_cant": "the trees of calls and the ways to pass contexts are unbounded, and a trace server's picture of one run does not show which edges are guaranteed", "anchors": ["plugins/xtrace/ir_xtrace_server_wrapper.go: serverTemplate", "plugins/xtrace/ir_xtrace_client_wrapper.go: clientSideTemplate", "runtime/plugins/xtrace/xtrace.go: XTracerImpl", "runtime/plugins/xtrace/log.go: XTraceLogger"]}
{"id": "C73", "title": "The deployment built from a wiring spec is the one that was declared", "statement": "Take a wiring spec in which services (each with any client and server wrappers, and constructed with any other services and backends, circular use included) are deployed with gRPC and added to Go processes, or left inside the process that uses them. If services that are not deployed on their own do not use each other in a circle and none of them is used from two processes, then building the application for any list of processes terminates and succeeds. The application has exactly the processes that were requested or that are called, directly or not, from them. Each process contains, once each, exactly the services added to it or used in it without being deployed on their own, their server wrappers, the servers of the services added to it, and the client wrappers and gRPC clients of whatever these services use; and its configuration is exactly the bind address of each server in it and the dial address of each remote service it uses. Every service is constructed once. A service receives for each argument, in order, that argument's outermost client wrapper of its own process, from which the wrappers lead in order to the gRPC client or to the service itself; a gRPC client has the address that exactly one server, in the process the service was added to, binds, and that server leads through all server wrappers to the service. Without the condition on sharing the build fails (shown on an example).", "quantifier": "all wiring specs of that shape: any number of services, wrappers, arguments, processes and requested processes", "why_tests_cant": "Tests build a few sample applications; which nodes end up in which process depends on the call graph, on the order of lazy and deferred instantiation, and on cycles between processes.", "anchors": ["blueprint/pkg/wiring/application.go: BuildApplicationIR", "blueprint/pkg/wiring/namespace.go: Get, Instantiate, DeriveNamespace", "blueprint/pkg/coreplugins/pointer/pointer.go: CreatePointer, AddSrcModifier, AddDstModifier, InstantiateDst", "blueprint/pkg/coreplugins/pointer/visibility.go: RequireUniqueness", "blueprint/pkg/coreplugins/address/wiring.go: Define, Dial, Bind", "blueprint/pkg/coreplugins/namespaceutil/namespace.go: AddNodeTo, InstantiateNamespace", "plugins/goproc/wiring.go: CreateProcess, AddToProcess", "plugins/grpc/wiring.go: Deploy", "plugins/workflow/wiring.go: Service"]}
{"id": "C74", "title": "SockShop carts behave as one basket per customer when calls come one after the other", "statement": "For every sequence of CartService calls, each answer and the final carts are those of a shop that keeps, per customer, a map from item id to quantity and price: AddItem adds to the quantity and keeps the price of an item already there, UpdateItem sets quantity and price or removes the item if the quantity is not positive, RemoveItem and DeleteCart remove, GetItem of an absent item answers a blank item, and MergeCarts empties the session's cart into the customer's, adding quantities and taking the session's price. For MergeCarts this needs that the two carts differ and that the items both have come first in the session's cart: in general, an item both have is added up only if every item before it in the session's cart is also in the customer's cart, and otherwise the session's quantity is lost. Merging a cart with itself empties it.", "quantifier": "all sequences of calls, all customers, items, quantities and prices", "why_tests_cant": "The lost quantity depends on the order in which items were added to two carts, and only the contents after an arbitrary history settle what the next call answers.", "anchors": ["examples/sockshop/workflow/cart/cartservice.go: cartImpl.AddItem, MergeCarts, RemoveItem, UpdateItem, GetCart, GetItem, DeleteCart, findItem, removeItem"]}
{"id": "C75", "title": "SockShop carts under concurrency, failures and crashes", "statement": "Whatever the interleaving of CartService calls and whichever database operations fail, before or after taking effect: every customer has at most one cart, an item is listed at most once, no empty cart is stored, and quantities stay positive if only positive quantities are added. If no call starts while another call about the same customer is running, all answers are as if the calls ran one after the other. A call that fails or is interrupted did everything or nothing, and a call without error did everything; MergeCarts can also stop after the customer got the items and before the session's cart is deleted. DeleteCart, RemoveItem and UpdateItem can be retried after any failure. Concurrent calls about the same cart can lose an update, and retrying AddItem or MergeCarts can add twice.", "quantifier": "all calls, schedules, faults and crash points", "why_tests_cant": "Interleavings of read-modify-write calls and failure points cannot be enumerated by tests.", "anchors": ["examples/sockshop/workflow/cart/cartservice.go: cartImpl.AddItem, MergeCarts, RemoveItem, UpdateItem, DeleteCart", "runtime/plugins/simplenosqldb/nosqldb.go: Upsert, ReplaceOne, DeleteOne, DeleteMany, FindOne"]}
{"id": "C76", "title": "SockShop orders contain what was in the cart, are paid for, and have their shipment", "statement": "For every interleaving of NewOrder calls, cart and account changes and queue masters, and for every pattern of refused calls and lost answers: no two orders in the database have the same id; every order was asked for by exactly one NewOrder call with all four arguments given, holds what was in the cart named in the call at some moment during the call (never nothing), the address and card answered during the call, the total of those items plus shipping, authorised by the payment service, and its shipment is recorded under the same id for the same customer. An answered order is in the database; a call that failed although no answer was lost left no order. A call on its own with valid arguments places exactly the order of the cart, queues and records its shipment and deletes the customer's cart; no call changes another customer's cart, nor its own customer's before the order is stored. Not guaranteed (refuted): that the customer, address or card exists (unknown ids give blank entries without error); that the cart ordered is the one deleted (the customer's is, whatever the cart id); that items added while the order is placed survive; that a retry after an error does not order twice.", "quantifier": "all interleavings of any number of NewOrder calls, cart changes, account changes and queue-master steps, all fault patterns and all price arithmetic", "why_tests_cant": "the four concurrent fetches, the steps of other calls and the crash points interleave in unboundedly many ways; a test sees one schedule and no lost answers", "anchors": ["examples/sockshop/workflow/order/orderservice.go: NewOrder, calculateTotal", "examples/sockshop/workflow/payment/paymentservice.go: Authorise", "examples/sockshop/workflow/shipping/shippingservice.go: PostShipping", "examples/sockshop/workflow/cart/cartservice.go: GetCart, DeleteCart", "examples/sockshop/workflow/user/userdb.go, addressesdb.go, cardsdb.go"]}
{"id": "C77", "title": "SockShop shipments are shipped exactly once and none is forgotten", "statement": "In every reachable state a recorded shipment is 'awaiting shipment' or 'shipped', belongs to the customer of its NewOrder call and has a unique id; none is twice in the queue or with two queue masters; a shipped one stays shipped; and unless the answer of a queue Pop was lost, every recorded shipment that is not shipped is in the queue or in the hands of a queue master. If everything waiting is recorded and the database counts matched documents, then whatever order the queue masters work in, every step brings them closer to having shipped everything, they can always do a step until nothing is left, and then all shipments are shipped. Not guaranteed (refuted): NewOrder queues the shipment before recording it, so a call that fails in between leaves a message a queue master retries for ever, and a single queue master then ships nothing any more; with mongodb, which counts modified documents, one lost answer of UpdateStatus has the same effect.", "quantifier": "all histories of NewOrder calls and queue-master steps, any number of queue masters, all fault patterns", "why_tests_cant": "it is a statement about every interleaving and crash point and about termination of the queue masters from every reachable state", "anchors": ["examples/sockshop/workflow/shipping/shippingservice.go: PostShipping, UpdateStatus", "examples/sockshop/workflow/queuemaster/queuemaster.go: Run", "examples/sockshop/workflow/order/orderservice.go: NewOrder", "runtime/plugins/mongodb/nosqldb.go: UpdateOne", "runtime/plugins/simplenosqldb/nosqldb.go: UpdateOne"]}
{"id": "C78", "title": "Container images hold and start the container's own programs", "statement": "Generating the image of a container whose processes are golang processes with distinct names always succeeds. The image builds and every process finds its own program in it exactly if the process names give usable stage names (beginning with a letter, without spaces), none is 'src' or a root directory of the golang base image, and no two agree up to letter case and punctuation; other processes in the same container keep their own files. Running the container with the needed variables set starts the program of every process, each exactly once, in name order. A deployment of containers succeeds exactly if their clean names are distinct and each image can be generated, and then has one service per container, running the image made of that container's own processes. Names outside these conditions (home, src, _cart, 'cart proc', Cart with cart, a.b with a_b) are accepted by the generator but the image does not build or work.", "quantifier": "for every list of processes and of containers, all names, every set of root directories of the base images, all environment variables and process behaviours that unset no variables", "why_tests_cant": "tests build images for a few fixed names; which names collide in the directory, stage and function namespaces is a claim about all sets of names and all orders of generation", "anchors": ["plugins/linuxcontainer/deploy.go: generateArtifacts", "plugins/linuxcontainer/deploy_docker.go: AddContainerArtifacts, AddContainerInstance", "plugins/linuxcontainer/dockergen/dockerfile_.go: Dockerfile.Generate", "plugins/goproc/deploy_linux_.go: AddProcessArtifacts, AddProcessInstance", "plugins/goproc/linuxgen/dockerfile_buildcommands.go: GenerateDockerfileBuildCommands", "plugins/dockercompose/deploy.go: generateArtifacts"]}
{"id": "C79", "title": "The circuit breaker rejects calls only after too many failures and otherwise is transparent", "statement": "A call through a client with a circuit breaker is either rejected with ErrOpen without reaching the service, or reaches it exactly once and returns exactly what the service returned. Calls are rejected only after a stretch in which at least min_reqs calls ended and at least the configured fraction failed, those failures lying within one reset interval; if no call fails none is rejected. The first failure that makes the failures too many stops all calls until the library's backoff has passed; calls are rejected only within that backoff after a failed call and no call is let through in between; one failure of a test call is enough to stop calls again; once a call was let through and as long as none fails no call is rejected. Contrary to the documentation the interval does not end the block, the rate is checked only when a call fails, and a call that panics counts as a success, so a service that always panics is never cut off.", "quantifier": "for every configuration, every interleaving of any number of concurrent calls with the ticker and timer, all outcomes of the calls, all delays (bounded lateness of timers)", "why_tests_cant": "the claim ranges over all interleavings of concurrent calls, resets and timers, and all histories of outcomes; tests drive a few histories with real time", "anchors": ["plugins/circuitbreaker/codegen.go: clientTemplate, generateClient", "plugins/circuitbreaker/wiring.go: AddCircuitBreaker", "plugins/circuitbreaker/ir.go: CircuitBreakerClient"]}
{"id": "C80", "title": "Exchanging the in-memory NoSQL backend for MongoDB", "statement": "A history of calls on a NoSQL collection that keeps to the common part of the two backends gets the same replies from the in-memory backend as from MongoDB, without error or panic, and leaves the same documents in the same order (up to the order of fields inside a document, and to the _id that the in-memory backend drops when a document without one replaces another). The common part: inserted documents have distinct field names and new _ids, lists of documents to insert are not empty, filters and updates mean the same to both query languages on the documents there are and leave the _id, replacements have the old _id or none, the document of an upsert has all the fields of the document it replaces and those that the filter requires, FindOne results are read with One and FindMany results with All, no projections, no ReplaceMany. Counts of updates agree if every update changes the documents it finds. Outside this part the backends differ: MongoDB's Upsert merges instead of replacing, its counts leave out unchanged documents (so that SockShop's shipping service reports an unknown shipment when a status is set to the value it has), duplicate or changed _ids are refused only by MongoDB, and so on.", "quantifier": "every finite history of calls on a new collection, every server query and update language, every encoding and every supply of identifiers", "why_tests_cant": "The repository's tests of the interface run against the in-memory backend only, and any test runs finitely many histories; equality of the two backends is a statement about all of them.", "anchors": ["runtime/plugins/mongodb/nosqldb.go: MongoCollection, MongoCursor", "runtime/plugins/simplenosqldb/nosqldb.go: SimpleCollection, SimpleCursor", "runtime/core/backend/nosqldb.go: NoSQLCollection, NoSQLCursor", "examples/sockshop/workflow/shipping/shippingservice.go: UpdateStatus"]}
{"id": "C81", "title": "Generated tests exercise the compiled application through the developer's own registries", "statement": "For every set of test modules that Go accepts and the parser handles, every list of services to test and every map iteration order: the file gotests adds to a test package registers a client of a tested service, under the service's name, in exactly those registries of the package whose interface the service implements (its own interface, or one all of whose methods it has, so also when modifiers extended the interface); a file is generated exactly for packages with something to register, and their modules are copied to the workspace; generation does not panic, and succeeds if the services have Go interfaces and module directory names do not clash. When a test then asks such a registry for its service it gets a client of a suiting tested service (the one, if only one suits) provided the test's own init code is compiled after blueprint_clients.go, does not call SetDefault and does not register under the name of a tested service; a registry that no tested service suits behaves as before compilation. Shown false: that two suiting services give a deterministic choice; that local registrations are always overridden; that grouped or renamed registries are found; that registries are found in every order when a test file has a method on a non-struct type; that the registries of a package with an interface that embeds another one, or called ..._test, are found at all; that what is generated compiles (struct-typed registries); that two test modules in directories of the same name combine; that generic parameter types do not panic.", "quantifier": "all test modules, packages, files, registry variables and init statements; all services and interfaces; all map iteration orders", "why_tests_cant": "which client a test uses depends on the conjunction of parser, matching, code generation, Go's init order and the registry's default rule, over map iteration orders that a run samples only once", "anchors": ["plugins/gotests/ir.go: testLibrary.GenerateArtifacts", "plugins/gotests/findtests.go: findWorkflowServiceRegistries, serviceRegistries.Get", "plugins/gotests/codegen/blueprint_clients.go.go: ClientBuilder", "plugins/golang/gocode/service.go: ServiceInterface.Contains", "runtime/core/registry/registry.go: ServiceRegistry"]}
{"id": "C82", "title": "Hotel reservations never exceed the rooms of a hotel", "statement": "In the hotel example, for every history of MakeReservation and CheckAvailability calls in which calls about the same hotel do not overlap, dates are dates, room numbers are not negative, and either the cache loses nothing or stays are for one night: the rooms reserved for a night (initially and by calls answered with success) never exceed the rooms of the hotel, whatever cache and database calls fail or lose their answer, however calls about other hotels interleave, and however often the service is killed and restarted. Calls made one after another without failures are answered exactly: MakeReservation succeeds iff every night of the stay has enough rooms left, and CheckAvailability returns, in the order given, the hotels where it would (for stays of at least one night). Shown false: the limit for concurrent calls about one hotel, also if one of them is only CheckAvailability; the limit for longer stays when the cache loses an entry (later nights are stored with the first day and not found again); for negative and overflowing room numbers; when a cursor error is ignored; that a stay without nights is refused; that a date that is none is refused (every night since the year 1 and one night too many is reserved); that a failed call reserves nothing; that a restart changes nothing.", "quantifier": "all initial data, all histories of calls, all interleavings, failures, lost answers, crashes and cache evictions, all orders of map iteration, all dates and room numbers", "why_tests_cant": "the count is kept in two places that calls update in several steps; which schedules, failures and evictions keep them consistent is a statement about all of them", "anchors": ["examples/dsb_hotel/workflow/hotelreservation/ReservationService.go: ReservationServiceImpl.MakeReservation, CheckAvailability, initReservationDB", "examples/dsb_hotel/workflow/hotelreservation/DataModels.go: Reservation, HotelNumber"]}
{"id": "C83", "title": "Unique ids of posts and users collide exactly when machine, time window and counter digit agree", "statement": "In the social network example, for all sequences of calls to the unique id service (and of user registrations) on any machines, with clocks between November 2004 and 2527: two calls get the same id exactly if the ids of their machines are equal, they happen in the same aligned sixteen milliseconds, and the numbers of calls made just before in the same millisecond start with the same hexadecimal digit. So calls sixteen milliseconds or more apart, or on machines with different ids, get different ids, and the later one the larger one; every call is answered, with a number of at most sixty bits. The machine id is the last two bytes of the first interface that is up and has an address given by its maker. Shown false: that ids are unique: successive milliseconds nearly always give the same id, seventeen calls within a window always repeat one, a clock set back repeats ids, and all containers (whose addresses are local) have machine id 0; with clocks before 1970 every call fails. With times before November 2004, for which the scheme was made, only calls of the same millisecond can collide.", "quantifier": "all machines and interface lists, all sequences of clock readings, all pairs of calls of the same or different services", "why_tests_cant": "uniqueness is a statement about all pairs of calls ever made on any machine at any time; tests with a few calls on one machine rarely meet the colliding combinations", "anchors": ["examples/dsb_sn/workflow/socialnetwork/UniqueIdService.go: UniqueIdServiceImpl.ComposeUniqueId, getCounter", "examples/dsb_sn/workflow/socialnetwork/UserService.go: UserServiceImpl.RegisterUser", "examples/dsb_sn/workflow/socialnetwork/common.go: GetMachineID"]}
{"id": "C84", "title": "Followers and followees are those of the Follow and Unfollow calls, in order", "statement": "In the social network example, for every history of InsertUser, Follow, Unfollow, GetFollowers and GetFollowees calls in which calls about the same list do not overlap (others interleave freely, including the three goroutines of Follow and Unfollow), the cache and database work and lose nothing, and user ids are at most 2^53: every call is answered as the calls answered before require. GetFollowers and GetFollowees return exactly the users of the Follow calls without the later Unfollow calls, in order and with repetitions, and fail exactly for users that were neither inserted nor part of such a call; both directions agree; and the database has, of every user no call is under way about, the same lists since the user was inserted. Shown false: this for concurrent Follows of one user (one follower is lost) and for GetFollowers during a Follow (the list stays empty); after a cache eviction (followers are read back with id 0, or forgotten by the next Follow); when the cache refuses a Get (the error is ignored and the list replaced); that a failed Follow changes nothing or changes both sides; that users must exist to be followed; that following twice is following once; and for ids above 2^53, which queries round.", "quantifier": "all histories of calls, all interleavings of the goroutines of calls about different lists, all user ids up to 2^53", "why_tests_cant": "the lists are kept twice and updated in six separate steps; which interleavings, evictions and failures keep them right is a statement about all of them", "anchors": ["examples/dsb_sn/workflow/socialnetwork/SocialGraphService.go: SocialGraphServiceImpl.GetFollowers, GetFollowees, Follow, Unfollow, InsertUser"]}
{"id": "C85", "title": "Wrappers that change a service's interface can be stacked", "statement": "OpenTelemetry, X-Trace and GoVector instrumentation and a health check can be added to a service on top of each other and of any number of modifiers that keep the interface. The compiler then panics exactly if a health check was added after one of the context-passing modifiers; otherwise the client that stands for the service at its consumers has exactly the methods that the developer wrote, with the same arguments and results, plus Health if it was added (which consumers see only if they ask for that interface). All generated code compiles exactly if argument names are distinct, present, and none of the names the used wrappers reserve (nor ret0, ret1, ...), no modifier is used twice and no method is already called Health. A call through the whole stack then runs the service exactly once with the caller's arguments and gives the caller its results and its error, whatever contexts are passed along, and Health is answered without calling the service. Order of modifiers, argument names, unnamed arguments, an own Health method, and two differently modified services of one type in one module are thus all able to break a build.", "quantifier": "all lists of modifiers, all service interfaces, all service behaviours, all calls and all context values", "why_tests_cant": "Each wrapper is tested, if at all, alone on a few sample services; that the additions of the server wrappers and the removals of the client wrappers cancel for every order, every nesting depth and every interface needs an induction over stacks.", "anchors": ["plugins/opentelemetry/ir_ot_server.go: genInterface, serverTemplate", "plugins/opentelemetry/ir_ot_client.go: genInterface, clientSideTemplate", "plugins/xtrace/ir_xtrace_server_wrapper.go: genInterface, serverTemplate", "plugins/xtrace/ir_xtrace_client_wrapper.go: genInterface, clientSideTemplate", "plugins/govector/ir_serverwrapper.go: genInterface, serverTemplate", "plugins/govector/ir_clientwrapper.go: genInterface, clientTemplate", "plugins/healthchecker/ir.go: genInterface", "plugins/healthchecker/codegen.go: serverTemplate", "plugins/golang/gocode/service.go: CopyServiceInterface, AddMethod, AddArgument, AddRetVar", "plugins/golang/gogen/template.go: ArgVars, RetVars, RetVarsAndTypes"]}
{"id": "C86", "title": "A call to a replicated service reaches one replica, round robin, through all modifiers", "statement": "Replicate(name, n) gives n replicas and a balancer whose names are distinct, also from those of all other replicated groups; the compiler panics exactly if n is 0. If the balancer is deployed with RPC, the j-th call of a consumer passes all modifiers of the balancer in order, then all client and server modifiers of replica j mod n in order, and reaches the code of exactly that replica, whether the replicas themselves are local to the balancer or deployed with RPC. If the balancer runs in the consumer's process, calls also go round robin but none of them passes any of the balancer's own modifiers (retries, timeouts, health checks): its client node has the same name as its handler, so the consumer is handed the handler.", "quantifier": "all group names, all numbers of replicas, all lists of modifiers on the balancer and on each replica, all choices of RPC, all sequences of calls", "why_tests_cant": "Names, chains of wrappers and round robin have to work together for every number of replicas and every stack of modifiers; a missing wrapper is invisible in the results of calls that succeed.", "anchors": ["plugins/replication/wiring.go: Replicate", "plugins/loadbalancer/wiring.go: CreateLoadBalancer", "plugins/loadbalancer/ir_balancer.go: AddInstantiation, GenerateFuncs", "plugins/loadbalancer/codegen.go: lbServerTemplate", "plugins/workflow/wiring.go: Service", "plugins/workflow/ir_workflowservice.go: AddInstantiation", "plugins/goproc/deploy.go"]}
{"id": "C87", "title": "Accounts and logins of the social network's user service", "statement": "Whatever backend calls fail, lose their answer, are killed or have their cache entries evicted, and whatever else runs at the same time: Login gives a token only for the user name asked for, with the id and password of the registration that made the first stored account of that name, so all successful logins of a name agree on id and password, and names nobody registered never log in; ComposeCreatorWithUsername gives the id of the same account. If an account exists when the call starts and its backends work, Login succeeds exactly for the right password and the creator is found. Every call asks at most three backends. An acknowledged registration stored the user and put the id in the social graph; a name that has an account is never registered again; if no two calls register the same name at the same time, a name has at most one account and one acknowledged registration, a free name can be registered, and what was acknowledged is the account. False: two concurrent registrations of a name can both be acknowledged, and the second can then never log in; a taken user id is not refused (contrary to the documentation); a failed registration can leave an account that works but is not in the graph and can never be registered again.", "quantifier": "all histories of concurrent Login, ComposeCreatorWithUsername and RegisterUserWithId calls with any arguments, all backend failures, kills and cache evictions, all injective hash functions that are never empty", "why_tests_cant": "the claims range over all interleavings of backend calls, all failure points and all cache contents", "anchors": ["examples/dsb_sn/workflow/socialnetwork/UserService.go:UserServiceImpl.Login", "examples/dsb_sn/workflow/socialnetwork/UserService.go:UserServiceImpl.ComposeCreatorWithUsername", "examples/dsb_sn/workflow/socialnetwork/UserService.go:UserServiceImpl.RegisterUserWithId"]}
{"id": "C88", "title": "Home timelines of the social network", "statement": "Whatever backend calls fail, lose their answer or are killed, whatever the cache forgets and whatever runs at the same time, the home timeline of a user holds only posts that WriteHomeTimeline was called with while the author was followed by the user or the post mentioned them, at most once per call. If the cache forgets nothing and no call writes a timeline while another is between reading and writing it, every acknowledged write is on the timeline of every follower and every mentioned user exactly once, and timelines only grow at the end. A write whose backends work is acknowledged. ReadHomeTimeline answers with the posts from start to stop of the timeline as it was at some moment of the call, with nothing if start is negative or not below stop. False: two concurrent writes can both be acknowledged although a follower gets only one of the posts; the author does not get the post (contrary to the documentation); a write that failed half-way and is tried again delivers the post twice; a page that starts behind the end is the whole timeline.", "quantifier": "all histories of concurrent reads and writes with any arguments, all answers of the social graph, all orders of map iteration, all backend failures, kills and cache evictions", "why_tests_cant": "the claims range over all interleavings of cache calls, all failure points and all map iteration orders", "anchors": ["examples/dsb_sn/workflow/socialnetwork/HomeTimelineService.go:HomeTimelineServiceImpl.WriteHomeTimeline", "examples/dsb_sn/workflow/socialnetwork/HomeTimelineService.go:HomeTimelineServiceImpl.ReadHomeTimeline"]}
{"id": "C89", "title": "Accounts, cards and addresses of the sock shop", "statement": "Whatever database calls fail, lose their answer or are killed and whatever runs at the same time: who logs in gave the password with which the account they get was made, every address in the answer was given for that account, and so was every card, of which only the last four characters are shown; no card or address is ever listed by two users, and what a user lists was given for them. After an acknowledged deletion of a user, card or address, begun when the call that made it was over, it is gone for good, and no user lists it. While nothing is deleted and no answer to the insertion of a user is lost: an acknowledged new user is stored with all cards and addresses given, an acknowledged card or address posted for a user that was there is stored and listed, everything listed is stored, and a login with the right password during which nothing else happens returns all of it, if no other call makes a user of that name and all cards of the user have at least four characters. False: a user deletion that stops half-way leaves a user with cards that are gone, and so does a PostUser whose insertion lost its answer; posting for an unknown user is acknowledged; two users of the same name are both acknowledged and the second cannot log in; a card shorter than four characters is accepted and makes every later login crash; a database failure during login crashes it; a failed PostUser can leave cards nobody lists; a card deleted while it is being made can stay listed.", "quantifier": "all histories of concurrent Login, Register, PostUser, PostCard, PostAddress and Delete calls with any arguments, all database failures and kills, for login all injective hash functions that are never empty", "why_tests_cant": "the claims range over all interleavings of database calls, all failure points and all earlier histories", "anchors": ["examples/sockshop/workflow/user/userservice.go:userServiceImpl.Login", "examples/sockshop/workflow/user/userservice.go:Card.maskCC", "examples/sockshop/workflow/user/userdb.go:userStore.createUser", "examples/sockshop/workflow/user/userdb.go:userStore.createCard", "examples/sockshop/workflow/user/userdb.go:userStore.deleteUser", "examples/sockshop/workflow/user/userdb.go:userStore.deleteAttr", "examples/sockshop/workflow/user/cardsdb.go:cardStore.getCards", "examples/sockshop/workflow/user/addressesdb.go:addressStore.getAddresses"]}
{"id": "C90", "title": "The sock shop's catalogue", "statement": "Whatever statements the database refuses or loses the answer of, whatever calls are killed and whatever runs at the same time: after an acknowledged AddSock, begun when the other calls about that sock were over and with none begun since, the sock is stored with exactly the details and tags of the call, its id is the one asked for or the new one, and, if it has tags and no tag has a comma, Get answers it with each of its tags once; after an acknowledged DeleteSock under the same conditions it is gone with its tags. There is at most one sock of an id, and every stored sock and tag of a sock came from a call. An answer of List, Count, Get or Tags is what the call would get alone at some moment while it ran. List gives the stored socks that have one of the tags asked for (any tag if none is asked for), each once with all of its tags; Count is their number; the pages of a size, one after the other, are the whole list. Tags lists for good every tag of an acknowledged call, only tags of calls, and each once if calls that add tags do not overlap. False: a sock without tags is acknowledged but Get fails and List and Count leave it out; an update that fails loses the sock that was there; calls at the same time store a tag twice or mix the details of one with the tags of both; a tag with a comma comes back as two; the order asked for has no effect; a negative page or size panics.", "quantifier": "all histories of concurrent calls with any arguments, all failures and kills at any statement, databases that keep foreign keys and databases that do not, all page numbers and sizes", "why_tests_cant": "the claims range over all interleavings of statements, all failure points and all contents of the tables", "anchors": ["examples/sockshop/workflow/catalogue/catalogueservice.go:catalogueImpl.List", "examples/sockshop/workflow/catalogue/catalogueservice.go:catalogueImpl.Count", "examples/sockshop/workflow/catalogue/catalogueservice.go:catalogueImpl.Get", "examples/sockshop/workflow/catalogue/catalogueservice.go:catalogueImpl.Tags", "examples/sockshop/workflow/catalogue/catalogueservice.go:catalogueImpl.AddTags", "examples/sockshop/workflow/catalogue/catalogueservice.go:catalogueImpl.AddSock", "examples/sockshop/workflow/catalogue/catalogueservice.go:catalogueImpl.DeleteSock", "examples/sockshop/workflow/catalogue/catalogueservice.go:catalogueImpl.addTags", "examples/sockshop/workflow/catalogue/catalogueservice.go:cut"]}
{"id": "C91", "title": "Posts that are stored are read back, one by one and in bulk", "statement": "In the social network example's post storage, whatever calls to the cache and the database fail or lose their answers, whatever the cache drops and whatever runs at the same time: ReadPost answers only a post that was given to StorePost with the id asked for, and does not miss a post of which the storing was acknowledged before; ReadPosts answers only posts that were given to StorePost with ids that were asked for, misses none of which the storing was acknowledged before, and repeats none if none is asked for twice; the answers are the same whatever is in the cache. This holds for ids up to 2^53 if every post is stored once under an id of its own. The service for unique ids makes such ids on machines with ids below 512, among them all containers; those of other machines are at least 2^53. False: for the ids made on most machines, ReadPosts misses a stored post that ReadPost finds, since queries carry the shortest decimal digits of the nearest float64, and for other large ids it can answer a post that was not asked for; the order of the answer is not that of the request, and unknown ids are left out without an error; a StorePost made again after its answer was lost stores the post twice.", "quantifier": "all histories of concurrent StorePost, ReadPost and ReadPosts calls, all failures and lost answers of the cache and the database, all evictions, all ids", "why_tests_cant": "what is answered depends on which ids the cache has at each step, on interleavings and on the digits of the ids; the failing ids are sparse patterns of 64-bit numbers", "anchors": ["examples/dsb_sn/workflow/socialnetwork/PostStorageService.go:PostStorageServiceImpl.StorePost", "examples/dsb_sn/workflow/socialnetwork/PostStorageService.go:PostStorageServiceImpl.ReadPost", "examples/dsb_sn/workflow/socialnetwork/PostStorageService.go:PostStorageServiceImpl.ReadPosts", "examples/dsb_sn/workflow/socialnetwork/UniqueIdService.go:UniqueIdServiceImpl.ComposeUniqueId"]}
{"id": "C92", "title": "User timelines keep what is written", "statement": "In the social network example's user timelines, whatever calls to the cache and the database fail or lose their answers, whatever calls are killed, whatever the cache drops and whatever runs at the same time: ReadUserTimeline answers only ids of posts that were written for that user. If the writes for one user are made one after the other (and reading a database cursor does not fail), the database has one document of the user with the posts of all acknowledged writes, newest first, and possibly those of failed ones in their places. If all calls about one user are made one after the other and nothing fails, writes succeed and ReadUserTimeline answers all posts written for the user, oldest first, and fails if there are none. All this for numbers up to 2^53. When a timeline was dropped from the cache, the next ReadUserTimeline answers the newest posts from the database, but leaves a list of ids in the cache in place of posts; from then on, and as long as the cache keeps it, every ReadUserTimeline with a range that is not empty and every WriteUserTimeline for that user fails, although everything works. False: that start and stop select a part of the timeline, or that new posts come first; that this needs an eviction (a read beside a write is enough, and a post id above 2^53); that a failed write is not stored; that concurrent first writes, or one for which a cursor fails, are all read back; that a repeated write is stored once.", "quantifier": "all histories of concurrent ReadUserTimeline and WriteUserTimeline calls, all failures, lost answers and kills at any backend call, all evictions, all ranges", "why_tests_cant": "which calls fail after which eviction or overlap is a statement about all later histories; the order of stored posts depends on every interleaving and failure point", "anchors": ["examples/dsb_sn/workflow/socialnetwork/UserTimelineService.go:UserTimelineServiceImpl.ReadUserTimeline", "examples/dsb_sn/workflow/socialnetwork/UserTimelineService.go:UserTimelineServiceImpl.WriteUserTimeline", "runtime/core/backend/reflect.go:CopyResult"]}
{"id": "C93", "title": "Links in posts are exchanged for the short links stored for them, and nothing else in the text changes", "statement": "ComposeText of the social network example finds the links of a text (http:// or https:// and the longest run of allowed characters), which cut the text in exactly one way. When the call does not fail, one short link is stored for every occurrence of a link, in order, and the same list is returned; when it fails the text is returned as it was. If moreover no link is the beginning of another one or of the short links' host, and no link is followed by a colon, then in the returned text every link is replaced by a short link that is stored for exactly that link, and every other character is as before. Without these conditions this fails: http://x damages http://xy, a link to http://short damages short links, and a link with a second scheme behind it lets text change that is no link. Paths stay behind after the short link, a link that occurs twice is stored twice with one short link unused, and a call that fails can have stored links.", "quantifier": "all texts, all random strings of letters, all outcomes of the database call and of the mention service", "why_tests_cant": "The text is arbitrary, and successive replacements act on each other's results; a test tries a few texts with independent links.", "anchors": ["examples/dsb_sn/workflow/socialnetwork/TextService.go:TextServiceImpl.ComposeText", "examples/dsb_sn/workflow/socialnetwork/UrlShortenService.go:UrlShortenServiceImpl.ComposeUrls", "examples/dsb_sn/workflow/socialnetwork/UrlShortenService.go:UrlShortenServiceImpl.genRandomStr"]}
{"id": "C94", "title": "Mentions in posts are the registered users that the text names", "statement": "The names that ComposeText takes from a text are exactly the longest runs of letters, digits, - and _ after an @. Whatever the interleaving with other calls, failures and cache evictions, every user that ComposeUserMentions answers was registered with that name and id and is named in the text; every name in the text that was registered before the call is answered, with its id if names are registered once; nobody is answered twice if the text names nobody twice. GetUserId answers only ids that the name was registered with. A call for which cache and database work does not fail, unless it asks for the id of a name that was not registered before. What fails: names of nobody are no error although the interface says so; someone named twice is answered once or twice depending on the cache; the order depends on the cache too; mail addresses count as mentions.", "quantifier": "all texts, all sets of users, all histories of registrations, id lookups, mentions, failures, killed calls and evictions, all interleavings", "why_tests_cant": "The answer is assembled from cache and database, which change while the call runs; unit tests run one call on an empty or full cache.", "anchors": ["examples/dsb_sn/workflow/socialnetwork/UserMentionService.go:UserMentionServiceImpl.ComposeUserMentions", "examples/dsb_sn/workflow/socialnetwork/UserIdService.go:UserIDServiceImpl.GetUserId", "examples/dsb_sn/workflow/socialnetwork/TextService.go:TextServiceImpl.ComposeText"]}
{"id": "C95", "title": "An acknowledged post is stored and in the timelines", "statement": "When ComposePost of the social network example answers without error, a post is stored whose creator, request id, type, medias, text, mentions and links are those of this call and of the text service's answer to it; the id answered is the post's id and was given out by the id service; the author's user timeline has that id with the time of the call, and the home timelines got it with the ids of the users mentioned. Everything in storage and timelines comes from some call, with that call's own author and time. If the media lists have different lengths, or the text or id service fails, the answer is an error with the id -1 and there is no post of that call anywhere. If the id service gives out no id twice, no post is twice in storage or timelines. What fails: a call that fails may have made any subset of the three writes, and none is taken back; timelines can show a post before it is stored; the Timestamp of stored posts is always 0.", "quantifier": "all arguments, all answers of the services, all interleavings of concurrent calls, all failures, lost answers and killed calls", "why_tests_cant": "Three writes run concurrently and each can fail, lose its answer or be cut off by a crash at any point, while other calls do the same.", "anchors": ["examples/dsb_sn/workflow/socialnetwork/ComposePostService.go:ComposePostServiceImpl.ComposePost", "examples/dsb_sn/workflow/socialnetwork/MediaService.go:MediaServiceImpl.ComposeMedia", "examples/dsb_sn/workflow/socialnetwork/UserService.go:UserServiceImpl.ComposeCreatorWithUserId"]}
{"id": "C96", "title": "Rates and profiles of hotels are those inserted", "statement": "What GetRates and GetProfiles of the hotel example answer are documents that were inserted, for the hotels asked for and in their order; GetProfiles may have an empty profile in the place of one. If the documents are inserted before the calls and the database's results can be read, GetRates answers exactly all rates of each hotel and GetProfiles exactly the first profile of each hotel, with an empty one for hotels that are not there, however calls fail, are killed and interleave and whatever the cache drops; then a search has exactly the hotels near by that have rates. A call fails only if a call to its cache or database did. What fails: a result that could not be read once is cached as no rates or an empty profile, so later calls answer wrongly without an error; each start of an instance inserts its documents again, so that rates and hotels found are doubled; an unknown hotel gives an empty profile and no error; dates and locale are not looked at.", "quantifier": "all documents, all lists of hotel ids, all interleavings of concurrent calls, all failures, lost answers, killed calls and evictions", "why_tests_cant": "Cache and database calls of concurrent requests interleave and fail at every point, and a wrong entry in the cache shows only in later calls.", "anchors": ["examples/dsb_hotel/workflow/hotelreservation/RateService.go:RateServiceImpl.GetRates", "examples/dsb_hotel/workflow/hotelreservation/ProfileService.go:ProfileServiceImpl.GetProfiles", "examples/dsb_hotel/workflow/hotelreservation/SearchService.go:SearchServiceImpl.Nearby"]}
