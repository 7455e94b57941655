(** * Model of replicated services: plugins/replication, plugins/loadbalancer, and the Go processes they end up in

    Modelled: the names and nodes of the replicas and the balancer, which of them are instantiated in which process, and the way
    of a call through the instances.  Simplifications: the nodes of a process are given in the order in which the wiring builds them
    (a node after what it wraps: Pointer and NS); what a modifier does to a call is not modelled, only that it is
    passed; modifiers pass on each call once; consumers are in one process (others see the same balancer if it is deployed with RPC;
    if not, a second process is refused, see Unique); calls come one after the other in the order in which
    the balancer's lock is taken (as in LB). *)
From Verif Require Export LB_Model.
From stdpp Require Export strings gmap pretty.
From stdpp Require Export list.
Open Scope string_scope.
Open Scope list_scope.

(** ** Names *)
(** replication/wiring.go:41-43 *)
Definition replica_name (g : string) (i : nat) : string := g +:+ "_" +:+ pretty i.
Definition replica_names (g : string) (n : nat) : list string := replica_name g <$> seq 0 n.
(** loadbalancer/wiring.go:30 *)
Definition lb_name (g : string) : string := g +:+ "_lb".
(** The nodes of modifiers and RPC clients: e.g. circuitbreaker/wiring.go:23, healthchecker/wiring.go:38, grpc/wiring.go:78 *)
Definition sub (s m : string) : string := s +:+ "." +:+ m.

(** ** Nodes *)
(** What the generated code of a node does when it is called *)
Inductive code :=
  | Impl (* the developer's service: workflow/ir_workflowservice.go:76-84 *)
  | Forward (w : string) (* the wrapped instance itself: workflow/ir_workflowservice.go:91-123, loadbalancer/ir_balancer.go:161-184 *)
  | Wrap (m : string) (w : string) (* a modifier, then the wrapped instance *)
  | Dial (s : string) (* an RPC client: calls the server of the service [s], in its own process *)
  | Balance (ws : list string). (* loadbalancer/codegen.go:44-86 with the instances of ir_balancer.go:106-135 *)
(** Name(), by which instances are declared and looked up *)
Record node := Node { n_name : string; n_code : code }.

(** How a service is deployed: its client-side modifiers and its server-side modifiers, each in the order of the calls in the
    wiring spec, and whether RPC is deployed last, with the server in a process of its own *)
Record deployed := Deployed { d_client : list string; d_server : list string; d_rpc : bool }.

(** Nodes that wrap each other, from the inside out; the name of the outermost *)
Fixpoint wraps (s under : string) (ms : list string) : list node :=
  match ms with [] => [] | m :: ms => Node (sub s m) (Wrap m under) :: wraps s (sub s m) ms end.
Definition outermost (s under : string) (ms : list string) : string := match last ms with Some m => sub s m | None => under end.

(** The server side: the handler, whose node has the name of the service (workflow/wiring.go:75, loadbalancer/wiring.go:36),
    and the server-side modifiers; each later one wraps the ones before (AddDstModifier, coreplugins/pointer/pointer.go:179-192) *)
Definition server_nodes (s : string) (c : code) (d : deployed) : list node := Node s c :: wraps s s (d_server d).
Definition server_top (s : string) (d : deployed) : string := outermost s s (d_server d).
(** The client side in the process of a consumer, where [server] are the nodes there if RPC is not used.  Each later modifier is wrapped
    by the ones before (AddSrcModifier, pointer.go:160-167); the client node was added first (workflow/wiring.go:105-113,
    loadbalancer/wiring.go:55-62).  [client] is its name *)
Definition client_nodes (client s : string) (server : list node) (d : deployed) : list node :=
  let '(inner, under) := if d_rpc d then ([Node (sub s "grpc_client") (Dial s)], sub s "grpc_client") else (server, server_top s d) in
  inner ++ wraps s under (reverse (d_client d)) ++ [Node client (Forward (outermost s under (reverse (d_client d))))].
(** A replica: a workflow service, whose client node is called service.client (workflow/wiring.go:105-109) *)
Definition replica_client (s : string) : string := sub s "client".
Definition replica_nodes (s : string) (d : deployed) : list node := client_nodes (replica_client s) s (server_nodes s Impl d) d.
(** The replicas' nodes next to the balancer, which gets their clients (loadbalancer/wiring.go:40-48); [ds i] is the deployment of
    the i-th *)
Definition replicas (g : string) (n : nat) (ds : nat → deployed) : list node :=
  concat ((λ i, replica_nodes (replica_name g i) (ds i)) <$> seq 0 n).
Definition balance (g : string) (n : nat) : code := Balance (replica_client <$> replica_names g n).
Definition lb_server (g : string) (n : nat) (d : deployed) (ds : nat → deployed) : list node :=
  replicas g n ds ++ server_nodes (lb_name g) (balance g n) d.
(** The nodes in the process of a consumer of the balancer.  The client node is initialised with the balancer's name, not with
    its own: loadbalancer/wiring.go:58 *)
Definition consumer_nodes (g : string) (n : nat) (d : deployed) (ds : nat → deployed) : list node :=
  client_nodes (lb_name g) (lb_name g) (lb_server g n d ds) d.

(** ** Generated processes *)
(** goproc/deploy.go:87-94: AddInstantiation of each node; only the first one of a name is declared (builder.Visited:
    workflow/ir_workflowservice.go:78, 93, loadbalancer/ir_balancer.go:107, 162) *)
Definition instances (ns : list node) : gmap string code :=
  foldl (λ m x, match m !! n_name x with Some _ => m | None => <[n_name x := n_code x]> m end) ∅ ns.
(** goproc/deploy.go:70-76 and ir_balancer.go:137-153: the balancer's code is generated from the interface of its first argument.  None:
    the compiler panics (index out of range) *)
Definition generate (g : string) (n : nat) : option unit := match replica_names g n with [] => None | _ :: _ => Some () end.

(** The processes: the consumer's, and one for each service that is deployed with RPC *)
Inductive proc := Consumer | Of (s : string).
Global Instance proc_eq_dec : EqDecision proc.
Proof. solve_decision. Defined.
Definition index_of (g s : string) (n : nat) : option nat := fst <$> list_find (λ i, replica_name g i = s) (seq 0 n).
Definition processes (g : string) (n : nat) (d : deployed) (ds : nat → deployed) (p : proc) : gmap string code :=
  match p with
  | Consumer => instances (consumer_nodes g n d ds)
  | Of s =>
      if decide (s = lb_name g) then instances (lb_server g n d ds)
      else match index_of g s n with Some i => instances (server_nodes s Impl (ds i)) | None => ∅ end
  end.
(** The instance that a service's RPC server wraps: ptr.AddAddrModifier's result (grpc/wiring.go:106-110) *)
Definition served (g : string) (n : nat) (d : deployed) (ds : nat → deployed) (s : string) : string :=
  if decide (s = lb_name g) then server_top s d else match index_of g s n with Some i => server_top s (ds i) | None => s end.

(** ** Calls *)
(** What a call passes: modifiers of a service, and at last the code of a replica *)
Inductive hop := Through (m : string) | Reached (s : string).
Section run.
  Context (procs : proc → gmap string code) (entry : string → string).

  (** A call of the instance [x] in process [p], with the balancer before and after (loadbalancer/codegen.go:76-84).
      Get builds the instance of a name at most once (RunNS) *)
  Inductive call : proc → string → balancer string → list hop → balancer string → Prop :=
    | call_impl p x b : procs p !! x = Some Impl → call p x b [Reached x] b
    | call_forward p x w b l b' : procs p !! x = Some (Forward w) → call p w b l b' → call p x b l b'
    | call_wrap p x m w b l b' : procs p !! x = Some (Wrap m w) → call p w b l b' → call p x b (Through m :: l) b'
    | call_dial p x s b l b' : procs p !! x = Some (Dial s) → call (Of s) (entry s) b l b' → call p x b l b'
    | call_balance p x ws b w b1 l b' : procs p !! x = Some (Balance ws) → lb_clients b = ws → pick_client b = Some (w, b1) →
        call p w b1 l b' → call p x b l b'.
  (** A number of calls *)
  Inductive calls (p : proc) (x : string) : balancer string → list (list hop) → Prop :=
    | calls_nil b : calls p x b []
    | calls_cons b l b' ls : call p x b l b' → calls p x b' ls → calls p x b (l :: ls).
End run.
(** The calls of a consumer, who has an instance of the balancer's client node: the constructor's argument is looked up under that node's
    name (golang/gogen/namespacebuilder.go:150-158) *)
Definition consumer_calls (g : string) (n : nat) (d : deployed) (ds : nat → deployed) (ls : list (list hop)) : Prop :=
  calls (processes g n d ds) (served g n d ds) Consumer (lb_name g) (new_balancer (replica_client <$> replica_names g n)) ls.
