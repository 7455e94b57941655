(** * Model of building a deployment: services with client and server modifiers, deployed with gRPC in
    Go processes, together with backends and services that stay inside the process that uses them

    A wiring spec made of workflow.Service (plugins/workflow/wiring.go), wrapper plugins (retries, tracing,
    ...), simple backends (plugins/simple/wiring.go), grpc.Deploy (plugins/grpc/wiring.go) and
    goproc.CreateProcess / Deploy (plugins/goproc/wiring.go) is built by BuildApplicationIR
    (blueprint/pkg/wiring/application.go), with the namespaces of blueprint/pkg/wiring/namespace.go and the
    build functions of these plugins and of the pointer, address and namespaceutil core plugins.

    Simplifications: names are kept structured ([Server 3] instead of "c.grpc_server"), so names made
    from different services do not clash (what happens when they do is C09's and C47's business); the types
    that copyResult (namespace.go:322-330) checks always match; a constructor's string arguments are left
    out.  *)
From stdpp Require Export gmap list option.
Set Default Proof Using "Type".

(** The names of the wiring definitions and aliases for service [i] or process [q]. *)
Inductive nm :=
| Svc (i : nat)              (* the pointer itself, "s"              pointer.go:126 *)
| SrcHead (i : nat)          (* alias "s.src"                        pointer.go:117 *)
| Src (i k : nat)            (* the k-th client modifier, e.g. "s.client" (workflow/wiring.go:105) *)
| SrcNext (i k : nat)        (* alias "<modifier>.ptr.src.next"      pointer.go:162 *)
| RpcClient (i : nat)        (* "s.grpc_client"                      grpc/wiring.go:78 *)
| RpcNext (i : nat)          (* alias "s.grpc_client.ptr.src.next"   pointer.go:162 *)
| Addr (i : nat)             (* "s.grpc.addr"                        grpc/wiring.go:80 *)
| Dial (i : nat)             (* "s.grpc.dial_addr"                   address/wiring.go:113-115 *)
| Bind (i : nat)             (* "s.grpc.bind_addr"                   address/wiring.go:109-111 *)
| Server (i : nat)           (* "s.grpc_server"                      grpc/wiring.go:79 *)
| Dst (i k : nat)            (* the k-th server modifier, innermost first *)
| DstName (i : nat)          (* alias "s.dst"                        pointer.go:108 *)
| Check (i : nat)            (* "s.handler.uniqueness_check"         visibility.go:57 *)
| Vis (i : nat)              (* "s.handler.visibility"               visibility.go:48 *)
| Handler (i : nat)          (* "s.handler" (or "s.backend")         workflow/wiring.go:71 *)
| Enter (i : nat)            (* "s.<process>"                        namespaceutil/namespace.go:57 *)
| Proc (q : nat)             (* the process                          goproc/wiring.go:120 *)
| Metric (q : nat)           (* "<process>.stdoutmetriccollector"    goproc/wiring.go:198 *)
| Logger (q : nat).          (* "<process>.logger"                   goproc/wiring.go:209 *)
Global Instance nm_eq_dec : EqDecision nm.
Proof. solve_decision. Defined.
(* for the finite maps *)
Definition nm_enc (n : nm) : nat * nat * nat :=
  match n with
  | Svc i => (0, i, 0) | SrcHead i => (1, i, 0) | Src i k => (2, i, k) | SrcNext i k => (3, i, k)
  | RpcClient i => (4, i, 0) | RpcNext i => (5, i, 0) | Addr i => (6, i, 0) | Dial i => (7, i, 0)
  | Bind i => (8, i, 0) | Server i => (9, i, 0) | Dst i k => (10, i, k) | DstName i => (11, i, 0)
  | Check i => (12, i, 0) | Vis i => (13, i, 0) | Handler i => (14, i, 0) | Enter i => (15, i, 0)
  | Proc i => (16, i, 0) | Metric i => (17, i, 0) | Logger i => (18, i, 0) end.
Definition nm_dec (x : nat * nat * nat) : nm :=
  match x with
  | (0, i, _) => Svc i | (1, i, _) => SrcHead i | (2, i, k) => Src i k | (3, i, k) => SrcNext i k
  | (4, i, _) => RpcClient i | (5, i, _) => RpcNext i | (6, i, _) => Addr i | (7, i, _) => Dial i
  | (8, i, _) => Bind i | (9, i, _) => Server i | (10, i, k) => Dst i k | (11, i, _) => DstName i
  | (12, i, _) => Check i | (13, i, _) => Vis i | (14, i, _) => Handler i | (15, i, _) => Enter i
  | (16, i, _) => Proc i | (17, i, _) => Metric i | (_, i, _) => Logger i end.
Global Program Instance nm_countable : Countable nm := inj_countable' nm_enc nm_dec _.
Next Obligation. by intros []. Qed.

(** What the wiring spec declares. *)
Record cfg := Cfg {
  c_args : nat → list nat;       (* the services and backends a service is constructed with *)
  c_nsrc : nat → nat;            (* how many client modifiers it has; a workflow service has at least one *)
  c_ndst : nat → nat;            (* how many server modifiers *)
  c_remote : nat → bool;         (* whether it is deployed with gRPC and added to a process *)
  c_home : nat → nat;            (* ... and to which process *)
  c_children : nat → list nat }. (* the services added to a process, in order *)

(** After all modifiers are in place: what heads the server side (pointer.go:184-190; the gRPC server and the
    modifier that enters the process come on top of it, below). *)
Definition dst_below (i k : nat) : nm := match k with 0 => DstName i | S k' => Dst i k' end.
Definition dst_head (c : cfg) (i : nat) : nm := dst_below i (c_ndst c i).
(** pointer.go:119, 186-189, 212: the interface between the two sides; entering a process does not change it
    (namespaceutil/namespace.go:58). *)
Definition iface (c : cfg) (i : nat) : nm := if c_remote c i then Addr i else dst_head c i.
(** pointer.go:221-246: dstModifiers[0]. *)
Definition dst_modifier0 (c : cfg) (i : nat) : nm := if c_remote c i then Enter i else dst_head c i.
(** What is behind the first [k] client modifiers: AddSrcModifier redirects the previous tail
    (pointer.go:160-167); gRPC is applied after the others (grpc/wiring.go:68-71). *)
Definition src_at (c : cfg) (i k : nat) : nm :=
  if decide (k < c_nsrc c i) then Src i k else if c_remote c i then RpcClient i else iface c i.

(** Aliases. *)
Definition alias (c : cfg) (n : nm) : option nm :=
  match n with
  | SrcHead i => Some (src_at c i 0)
  | SrcNext i k => Some (src_at c i (S k))
  | RpcNext i => Some (iface c i)
  | DstName i => Some (Check i)
  | _ => None end.
(** wiring.go:230-246: GetDef follows aliases to the end (here, at most two: C03). *)
Definition resolve (c : cfg) (n : nm) : nm :=
  match alias c n with
  | None => n
  | Some m => match alias c m with None => m | Some m' => m' end end.

(** goproc/wiring.go:222-225: a process accepts golang nodes.  The definitions of addresses and of their
    configs have type &ir.ApplicationNode{} (address/wiring.go:14-20), and so has the uniqueness metadata
    (pointer.go:84-86); a process is no golang.Node (goproc/wiring.go:119), and the modifier that enters it
    has its type (namespaceutil/namespace.go:69-70). *)
Definition golang (n : nm) : bool :=
  match n with Addr _ | Dial _ | Bind _ | Vis _ | Enter _ | Proc _ => false | _ => true end.
(** The application namespace, or a process. *)
Definition space := option nat.
(** application.go:65-67. *)
Definition accepts (p : space) (n : nm) : bool := match p with None => true | Some _ => golang n end.
(** address.Address and visibilityMetadata are ir.IRMetadata (address/ir.go:48, visibility.go:12-20). *)
Definition is_meta (n : nm) : bool := match n with Addr _ | Vis _ => true | _ => false end.
(** namespaceutil/namespace.go:62. *)
Definition is_proxy (n : nm) : bool := match n with Enter _ => true | _ => false end.

(** An IR node is known by the namespace and the definition that made it. *)
Definition ref : Type := space * nm.

(** namespace.go:95-110 (see the handlers: goproc/wiring.go:228-237, application.go:75-78). *)
Record nspace := Nspace {
  seen : gmap nm ref;
  added : gset nm;
  nodes : list ref;    (* Process.Nodes, ApplicationNode.Children *)
  edges : list ref }.  (* Process.Edges *)

(** A deferred function. *)
Inductive job :=
| JRoot (n : nm)                 (* application.go:41-45 *)
| JChildren (q : nat)            (* namespaceutil/namespace.go:110-112 *)
| JDst (p : space) (i : nat).    (* pointer.go:129-131 *)

Record st := St {
  spaces : gmap space nspace;
  queue : list job;
  served : gmap nat ref;         (* Address.Server, when not nil (address/wiring.go:104) *)
  unique : gset nat;             (* visibilityMetadata.node is not nil (visibility.go:69) *)
  heap : gmap ref (list ref) }.  (* what a node holds *)

(** A call's result: a node, an error, or it did not return within the steps allowed. *)
Inductive res := Ok (r : ref) (s : st) | Err (s : st) | Out.
Definition andthen (x : res) (k : ref → st → res) : res :=
  match x with Ok r s => k r s | Err s => Err s | Out => Out end.

Definition set_spaces (f : gmap space nspace → gmap space nspace) (s : st) : st :=
  St (f (spaces s)) (queue s) (served s) (unique s) (heap s).
Definition set_queue (f : list job → list job) (s : st) : st :=
  St (spaces s) (f (queue s)) (served s) (unique s) (heap s).
Definition serve (i : nat) (r : ref) (s : st) : st :=
  St (spaces s) (queue s) (<[i := r]> (served s)) (unique s) (heap s).
Definition claim (i : nat) (s : st) : st :=
  St (spaces s) (queue s) (served s) ({[i]} ∪ unique s) (heap s).
Definition alloc (r : ref) (holds : list ref) (s : st) : st :=
  St (spaces s) (queue s) (served s) (unique s) (<[r := holds]> (heap s)).
Definition defer_front (j : job) : st → st := set_queue (λ q, j :: q).
Definition defer_back (j : job) : st → st := set_queue (λ q, q ++ [j]).

(** namespace.go:177, 206, 230. *)
Definition see (p : space) (n : nm) (r : ref) : st → st :=
  set_spaces (alter (λ x, Nspace (<[n := r]> (seen x)) (added x) (nodes x) (edges x)) p).
(** namespace.go:199-205 *)
Definition got_edge (n : nm) (edge : bool) (r : ref) (x : nspace) : nspace :=
  if decide (r.2 ∈ added x) then x
  else Nspace (seen x) ({[r.2]} ∪ added x) (nodes x)
              (if negb (is_meta r.2) && edge && negb (is_proxy n) then edges x ++ [r] else edges x).
(** namespace.go:223-228 *)
Definition got_node (n : nm) (r : ref) (x : nspace) : nspace :=
  if decide (r.2 ∈ added x) then x
  else Nspace (seen x) ({[r.2]} ∪ added x) (if is_proxy n then nodes x else nodes x ++ [r]) (edges x).

(** Getting several nodes in turn, from [p]. *)
Fixpoint getl (g : space → nm → bool → st → res) (p : space) (ns : list nm) (s : st)
    (k : list ref → st → res) : res :=
  match ns with
  | [] => k [] s
  | n :: ns' => andthen (g p n true s) (λ r s1, getl g p ns' s1 (λ rs, k (r :: rs))) end.

(** A new node that holds the nodes in [rs]. *)
Definition make (p : space) (n : nm) (rs : list ref) (s : st) : res := Ok (p, n) (alloc (p, n) rs s).
(** visibility.go:64: md.node is not nil. *)
Definition claimed (i : nat) (s : st) : bool := bool_decide (i ∈ unique s).
(** namespace.go:293-296: DeriveNamespace; only the application derives. *)
Definition derive (q : nat) (s : st) : option st :=
  match spaces s !! Some q with
  | Some _ => None
  | None => Some (set_spaces (insert (Some q) (Nspace ∅ ∅ [] [])) s) end.

(** The build functions; [g] is the namespaces' get. *)
Definition build (c : cfg) (g : space → nm → bool → st → res) (p : space) (n : nm) (s : st) : res :=
  match n with
  (* pointer.go:126-136 *)
  | Svc i => g p (SrcHead i) true (defer_back (JDst p i) s)
  (* a client wrapper: workflow/wiring.go:107-113, retries/wiring.go and the like *)
  | Src i k => getl g p [SrcNext i k] s (make p n)
  (* grpc/wiring.go:97-103 and address/wiring.go:69-83 *)
  | RpcClient i => getl g p [RpcNext i; Dial i] s (make p n)
  (* address/wiring.go:42-60 *)
  | Addr _ | Dial _ | Bind _ => make p n [] s
  (* grpc/wiring.go:107-121 and address/wiring.go:93-107: the server wraps the next node, then binds *)
  | Server i =>
      getl g p [dst_head c i; Addr i; Bind i] s (λ rs s1, make p n rs (serve i (p, n) s1))
  (* a server wrapper *)
  | Dst i k => getl g p [dst_below i k] s (make p n)
  (* visibility.go:58-71 *)
  | Check i =>
      andthen (g p (Vis i) true s) (λ _ s1,
        if claimed i s1 then Err s1
        else andthen (g p (Handler i) true s1) (λ r s2, Ok r (claim i s2)))
  (* visibility.go:49-55 *)
  | Vis _ => make p n [] s
  (* workflow/wiring.go:72-99 (a backend: simple/wiring.go:104-106, without arguments) *)
  | Handler i => getl g p (Svc <$> c_args c i) s (make p n)
  (* namespaceutil/namespace.go:70-87 *)
  | Enter i =>
      andthen (g p (Proc (c_home c i)) true s) (λ _ s1,
        match spaces s1 !! Some (c_home c i) with
        | None => Err s1
        | Some _ => g (Some (c_home c i)) (Server i) false s1 end)
  (* goproc/wiring.go:120-146 and namespaceutil/namespace.go:103-115 *)
  | Proc q =>
      match derive q s with
      | None => Err s
      | Some s1 => getl g (Some q) [Metric q; Logger q] (defer_front (JChildren q) s1) (make p n) end
  (* goproc/wiring.go:199-203, 210-212 *)
  | Metric _ | Logger _ => make p n [] s
  (* aliases have no definition of their own *)
  | SrcHead _ | SrcNext _ _ | RpcNext _ | DstName _ => Err s
  end.

(** namespace.go:154-232.  [fuel] bounds the nesting of the calls. *)
Fixpoint get (c : cfg) (fuel : nat) (p : space) (n : nm) (edge : bool) (s : st) : res :=
  match fuel with
  | 0 => Out
  | S f =>
    match spaces s !! p with
    | None => Err s
    | Some x =>
      match seen x !! n with
      | Some r => Ok r s
      | None =>
        if decide (resolve c n ≠ n) then
          andthen (get c f p (resolve c n) edge s) (λ r s1, Ok r (see p n r s1))
        else if accepts p n then
          andthen (build c (get c f) p n s)
            (λ r s1, Ok r (see p n r (set_spaces (alter (got_node n r) p) s1)))
        else
          andthen (get c f None n edge s)
            (λ r s1, Ok r (see p n r (set_spaces (alter (got_edge n edge r) p) s1)))
      end
    end
  end.

(** What a deferred function does. *)
Definition run_job (c : cfg) (fuel : nat) (j : job) (s : st) : res :=
  let done := λ (_ : list ref) s1, Ok (None, Proc 0) s1 in
  match j with
  | JRoot n => getl (get c fuel) None [n] s done
  (* namespaceutil/namespace.go:120-136 *)
  | JChildren q => getl (get c fuel) (Some q) (Server <$> c_children c q) s done
  (* pointer.go:221-256; when instantiating the server side fails, 246-248 return the nil error of the Get
     before *)
  | JDst p i =>
      andthen (get c fuel p (iface c i) true s) (λ r s1,
        match r.2 with
        | Addr _ =>
            match served s1 !! i with
            | Some _ => Ok r s1
            | None =>
                match get c fuel p (dst_modifier0 c i) false s1 with
                | Ok _ s2 => if served s2 !! i then Ok r s2 else Err s2
                | Err s2 => Ok r s2
                | Out => Out end end
        | _ => Ok r s1 end)
  end.

(** application.go:48-56; [steps] bounds the number of deferred functions. *)
Fixpoint run (c : cfg) (fuel steps : nat) (s : st) : res :=
  match queue s with
  | [] => Ok (None, Proc 0) s
  | j :: q =>
    match steps with
    | 0 => Out
    | S k => andthen (run_job c fuel j (set_queue (λ _, q) s)) (λ _ s1, run c fuel k s1) end end.

(** application.go:18-47: the requested nodes are queued in front, one after the other. *)
Definition start (roots : list nm) : st :=
  St {[None := Nspace ∅ ∅ [] []]} (JRoot <$> rev roots) ∅ ∅ ∅.
Definition build_app (c : cfg) (roots : list nm) (fuel : nat) : res := run c fuel fuel (start roots).
