(** * Model of writing generated files, and of the wrapper classes that plugins generate into a module *)
From stdpp Require Export strings gmap list.
From Coq Require Export Ascii.
Set Default Proof Using "Type".

(** ** plugins/golang/gogen/template.go:46-59, plugins/dockercompose/dockergen/template.go:21-34, and the same functions of
    linuxcontainer/linuxgen and kubernetes/kubetemplate: the file is opened (created if missing) without truncating it, the
    template is rendered, and the result is written at the start of the file.  [code]: the rendered template, or [None] if
    rendering fails.  [opens]: the file can be opened; writing succeeds then. *)
Notation text := (list ascii).
Definition overwrite (old code : text) : text := code ++ drop (length code) old.
Definition template_to_file (fs : gmap string text) (path : string) (opens : bool) (code : option text) : gmap string text * bool :=
  if opens then
    let old := default [] (fs !! path) in
    match code with
    | Some c => (<[path := overwrite old c]> fs, true)
    | None => (<[path := old]> fs, false)
    end
  else (fs, false).
Fixpoint template_runs (fs : gmap string text) (ws : list (string * bool * option text)) : gmap string text :=
  match ws with [] => fs | (p, o, c) :: r => template_runs (template_to_file fs p o c).1 r end.

(** ** Wrapper classes

    A service interface (gocode/service.go:30-37): package, name, and base name, which interfaces derived from it share. *)
Record iface := Iface { if_pkg : string; if_name : string; if_base : string }.
Global Instance iface_eq_dec : EqDecision iface. Proof. solve_decision. Defined.

(** An instance of a wrapper in a module, with its name, the interface it wraps and its parameters. *)
Inductive inst :=
| Timeout (name : string) (i : iface) (duration : string)           (* timeouts/ir.go *)
| Latency (name : string) (i : iface) (duration : string)           (* latency/ir.go *)
| CircuitBreaker (name : string) (i : iface) (settings : string)    (* circuitbreaker/ir.go: min_reqs, failure rate and interval *)
| Retrier (name : string) (i : iface) (max : string)                (* retries/ir.go:50-103 *)
| ClientPool (name : string) (i : iface) (client : string) (n : string)  (* clientpool/ir.go *)
| GrpcClient (name : string) (i : iface) (addr : string)            (* grpc/ir_grpc_client.go *)
| ThriftClient (name : string) (i : iface) (addr : string).         (* thrift/ir_thrift_client.go *)
Global Instance inst_eq_dec : EqDecision inst. Proof. solve_decision. Defined.
Definition inst_name (w : inst) : string :=
  match w with Timeout n _ _ | Latency n _ _ | CircuitBreaker n _ _ | Retrier n _ _ | ClientPool n _ _ _ | GrpcClient n _ _ | ThriftClient n _ _ => n end.
Definition inst_iface (w : inst) : iface :=
  match w with Timeout _ i _ | Latency _ i _ | CircuitBreaker _ i _ | Retrier _ i _ | ClientPool _ i _ _ | GrpcClient _ i _ | ThriftClient _ i _ => i end.

(** What GenerateFuncs checks with Visited before generating: timeouts/ir.go:69, latency/ir.go:68, circuitbreaker/ir.go:65,
    retries/ir.go:61, clientpool/ir.go:73, grpc/ir_grpc_client.go:78, thrift/ir_thrift_client.go:73. *)
Definition guard_key (w : inst) : string :=
  match w with
  | Timeout n _ _ | Latency n _ _ | CircuitBreaker n _ _ | Retrier n _ _ => n +:+ ".generateFuncs"
  | ClientPool _ i _ _ => if_name i +:+ "_ClientPool"
  | GrpcClient _ i _ => if_name i +:+ ".grpc.client"
  | ThriftClient _ i _ => if_name i +:+ ".grpc.client"
  end.
(** The file that the class is in: package, base name, and the rest of the class name (timeouts/codegen.go:23-29,
    latency/codegen.go:23-29, circuitbreaker/codegen.go:22-32, retries/codegen.go:23-24 and 116-118, clientpool/ir.go:146-152,
    grpccodegen/clientgen.go:23-34, thriftcodegen/clientgen.go:27-42).  File names of one package differ if their parts do. *)
Definition file (w : inst) : string * string * string :=
  match w with
  | Timeout _ i _ => ("timeouts", if_base i, "_TimeoutClient")
  | Latency _ i _ => ("latencyinjector", if_base i, "_LatencyInjector")
  | CircuitBreaker _ i _ => ("cb", if_base i, "_CircuitBreakerClient")
  | Retrier _ i _ => ("retries", if_base i, "_RetrierClient")
  | ClientPool _ i _ _ => ("pool", if_base i, "_pool")
  | GrpcClient _ i _ => ("grpc", if_base i, "_GRPCClient")
  | ThriftClient _ i _ => ("thrift", if_base i, "_ThriftClient")
  end.
(** What of the instance is written into the file: the interface, and for some the parameters as constants
    (circuitbreaker/codegen.go:60-66, retries/codegen.go:155, clientpool/ir.go:191-208). *)
Definition baked (w : inst) : iface * list string :=
  match w with
  | Timeout _ i _ | Latency _ i _ | GrpcClient _ i _ | ThriftClient _ i _ => (i, [])
  | CircuitBreaker _ i s => (i, [s])
  | Retrier _ i m => (i, [m])
  | ClientPool _ i c n => (i, [c; n])
  end.
(** What its constructor call passes besides the wrapped node (timeouts/ir.go:104, latency/ir.go:103, circuitbreaker/ir.go:98,
    retries/ir.go:94, clientpool/ir.go:180-182, grpc/ir_grpc_client.go:121, thrift/ir_thrift_client.go:113). *)
Definition passed (w : inst) : list string :=
  match w with
  | Timeout _ _ d | Latency _ _ d => [d]
  | CircuitBreaker _ _ _ | Retrier _ _ _ | ClientPool _ _ _ _ => []
  | GrpcClient _ _ a | ThriftClient _ _ a => [a]
  end.

(** A module under construction: what was visited, and the files.  A file that is written again is taken to be replaced
    (see C41 for when it is). *)
Record module := Module { visited : gset string; files : gmap (string * string * string) (iface * list string) }.
Definition empty_module : module := Module ∅ ∅.
Definition generate_funcs (m : module) (w : inst) : module :=
  if bool_decide (guard_key w ∈ visited m) then m
  else Module ({[guard_key w]} ∪ visited m) (<[file w := baked w]> (files m)).
Definition generate_all (ws : list inst) : module := fold_left generate_funcs ws empty_module.

(** What an instance of a running process wraps and with which parameters: the class is the one in the file, with the
    parameters in it or passed to it; [None]: there is no such class. *)
Definition behaves (m : module) (w : inst) : option (iface * list string) :=
  match files m !! file w with Some (i, ps) => Some (i, ps ++ passed w) | None => None end.
