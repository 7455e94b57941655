(** * Model of stacks of wrappers that change a service's interface: the interfaces and the code generated by
      plugins/opentelemetry, plugins/xtrace, plugins/govector and plugins/healthchecker, on top of each other

    Simplifications: types are names; a method's context argument and error result are not listed (as in
    gocode.Func after goparser/parser.go:708-722) but the error is passed on; Go slices are lists (the interfaces share
    backing arrays, but every interface of a stack writes the same value to the same position); what a wrapper
    does to spans, baggage and clocks is not modelled here (see Trace, XTrace and GoVec): the extra values are
    arbitrary.  Wrappers that keep the interface (retries, timeouts, latency, RPC clients and servers, …) stand as [Plain];
    their code is modelled elsewhere (Retry, Timeout, Rpc, …) and left out here: they are taken to pass on each call once. *)
From stdpp Require Export strings gmap pretty.
From stdpp Require Export list.
Open Scope string_scope.
Open Scope list_scope.

(** ** Interfaces *)
Definition ty := string.
(** gocode.Func: gocode/service.go:14-19.  Results have no names: the generated code names them itself *)
Record func := Func { f_args : list (string * ty); f_rets : list ty }.
(** gocode.ServiceInterface: gocode/service.go:22-28 *)
Record iface := Iface { i_base : string; i_name : string; i_methods : gmap string func }.

(** The modifiers that a wiring spec applies to a service *)
Inductive modifier := OT | XTr | GoVec | Health | Plain.
Global Instance modifier_eq_dec : EqDecision modifier.
Proof. solve_decision. Defined.

(** Func.AddArgument, Func.AddRetVar: gocode/service.go:88-94 *)
Definition add_argument (x : string) (t : ty) (f : func) : func := Func (f_args f ++ [(x, t)]) (f_rets f).
Definition add_ret (t : ty) (f : func) : func := Func (f_args f) (f_rets f ++ [t]).

(** What is added to the arguments and results of every method: opentelemetry/ir_ot_server.go:66-69,
    xtrace/ir_xtrace_server_wrapper.go:69-73, govector/ir_serverwrapper.go:62-66 *)
Definition extend (m : modifier) (f : func) : func :=
  match m with
  | OT => add_argument "traceCtx" "string" f
  | XTr => add_ret "string" (add_argument "baggage" "string" f)
  | GoVec => add_ret "[]byte" (add_argument "govecctx" "[]byte" f)
  | Health | Plain => f
  end.
(** genInterface of the server wrappers: the above and healthchecker/ir.go:56-71.  [Plain] wrappers return the wrapped
    interface (e.g. retries/ir.go GetInterface).  The package of the interface is a function of the plugin alone. *)
Definition server_iface (m : modifier) (i : iface) : iface :=
  match m with
  | OT => Iface (i_base i) (i_base i +:+ "_OTServerWrapperInterface") (extend OT <$> i_methods i)
  | XTr => Iface (i_base i) (i_base i +:+ "_XTraceServerWrapperInterface") (extend XTr <$> i_methods i)
  | GoVec => Iface (i_base i) (i_base i +:+ "_GoVecServerWrapperInterface") (extend GoVec <$> i_methods i)
  | Health => Iface (i_base i) (i_base i +:+ "_HealthChecker") (<["Health" := Func [] ["string"]]> (i_methods i))
  | Plain => i
  end.

(** l[:len(l)-1], which panics for an empty list *)
Fixpoint cut_last {A} (l : list A) : option (list A) :=
  match l with
  | [] => None
  | [x] => Some []
  | x :: l' => cons x <$> cut_last l'
  end.
(** The loop bodies of the client wrappers' genInterface: opentelemetry/ir_ot_client.go:56-59,
    xtrace/ir_xtrace_client_wrapper.go:69-73, govector/ir_clientwrapper.go:59-63 *)
Definition shrink (m : modifier) (f : func) : option func :=
  match m with
  | OT => a ← cut_last (f_args f); Some (Func a (f_rets f))
  | XTr | GoVec => a ← cut_last (f_args f); r ← cut_last (f_rets f); Some (Func a r)
  | Health | Plain => Some f
  end.
(** All of a map's values, or nothing if one of them is missing: a panic in any round of the loop is one of the compiler *)
Definition all_some {A} (m : gmap string (option A)) : option (gmap string A) :=
  if decide (map_Forall (λ _ o, is_Some o) m) then Some (omap id m) else None.
(** genInterface of the client wrappers (same files, lines 46-61, 59-75, 50-65).  The health checker has no
    client side.  None: the compiler panics. *)
Definition client_iface (m : modifier) (i : iface) : option iface :=
  match m with
  | OT => ms ← all_some (shrink OT <$> i_methods i); Some (Iface (i_base i) (i_base i +:+ "_OTClientWrapperInterface") ms)
  | XTr => ms ← all_some (shrink XTr <$> i_methods i); Some (Iface (i_base i) (i_base i +:+ "_XTraceClientWrapperInterface") ms)
  | GoVec => ms ← all_some (shrink GoVec <$> i_methods i); Some (Iface (i_base i) (i_base i +:+ "_GoVecClientWrapperInterface") ms)
  | Health | Plain => Some i
  end.

(** The server side of a service after applying modifiers in this order: each wraps what was there before
    (AddDstModifier, coreplugins/pointer/pointer.go:179-192) *)
Definition server_side (mods : list modifier) (i : iface) : iface := foldl (λ j m, server_iface m j) i mods.
(** The client side: the first modifier applied is the outermost (AddSrcModifier, pointer.go:160-167).
    An RPC client in between has the interface of the wrapped server (grpc/ir_grpc_client.go:48-62) *)
Definition client_side (mods : list modifier) (j : iface) : option iface := foldr (λ m o, o ≫= client_iface m) (Some j) mods.
(** The interface that a service depending on this one gets *)
Definition consumer_iface (mods : list modifier) (i : iface) : option iface := client_side mods (server_side mods i).

(** ** Generated code *)
(** A value with its type *)
Record val := Val { v_ty : ty; v_data : nat }.
(** An expression passed to the wrapped service: a variable, or the wrapper's own extra value of this type *)
Inductive expr := EVar (x : string) | EExtra (t : ty).
Inductive code :=
  | Assign (callee : string) (args : list expr) (lhs : list string) (own : list (string * ty))
    (* lhs, err = handler.Client.callee(ctx, args); then the results in [own] are set by the wrapper; return *)
  | Return (callee : string) (args : list expr) (* return handler.Service.callee(ctx, args) *)
  | Const (vs : list val). (* return vs, nil *)
(** A generated method, without receiver, ctx and err *)
Record method := Method {
  g_params : list (string * ty);
  g_results : list (string * ty);   (* names "" for unnamed ones *)
  g_named : bool;                    (* results, including err, have names *)
  g_vars : list (string * ty);       (* variables declared in the method's outermost block *)
  g_uses : list string;              (* packages and predeclared identifiers its body needs *)
  g_code : code }.

(** gogen/template.go:158-170 RetVars, 207-219 RetVarsAndTypes: ret0, ret1, … *)
Definition ret_name (k : nat) : string := "ret" +:+ pretty k.
Definition ret_names (f : func) : list string := ret_name <$> seq 0 (length (f_rets f)).
Definition ret_vars (f : func) : list (string * ty) := zip (ret_names f) (f_rets f).
(** ArgVars: gogen/template.go:119-128 *)
Definition arg_vars (f : func) : list expr := EVar ∘ fst <$> f_args f.

(** The method of the server wrapper for a method [f] of the wrapped interface:
    opentelemetry/ir_ot_server.go:247-266, xtrace/ir_xtrace_server_wrapper.go:223-242, govector/ir_serverwrapper.go:194-201,
    healthchecker/codegen.go:85-89 *)
Definition server_method (m : modifier) (name : string) (f : func) : method :=
  match m with
  | OT => Method (f_args f ++ [("traceCtx", "string")]) (ret_vars f) true
      [("tp", "trace.TracerProvider"); ("tr", "trace.Tracer"); ("span", "trace.Span")] ["backend"; "trace"; "nil"]
      (Assign name (arg_vars f) (ret_names f) [])
  | XTr => Method (f_args f ++ [("baggage", "string")]) (ret_vars f ++ [("ret_baggage", "string")]) true
      [("ret_baggage_raw", "tracingplane.BaggageContext")] ["tracingplane"; "nil"]
      (Assign name (arg_vars f) (ret_names f) [("ret_baggage", "string")])
  | GoVec => Method (f_args f ++ [("govecctx", "[]byte")]) (ret_vars f ++ [("govecret", "[]byte")]) true
      [] []
      (Assign name (arg_vars f) (ret_names f) [("govecret", "[]byte")])
  | Health | Plain => Method (f_args f) (pair "" <$> f_rets f) false [] [] (Return name (arg_vars f))
  end.
(** The client wrapper's method for a method [f] of its own interface: opentelemetry/ir_ot_client.go:195-211 (tp and tr only
    with client spans), xtrace/ir_xtrace_client_wrapper.go:195-209, govector/ir_clientwrapper.go:184-192 *)
Definition client_method (m : modifier) (name : string) (f : func) : method :=
  match m with
  | OT => Method (f_args f) (ret_vars f) true
      [("span", "trace.Span"); ("tp", "trace.TracerProvider"); ("tr", "trace.Tracer"); ("trace_ctx", "[]byte")] ["trace"; "string"; "nil"]
      (Assign name (arg_vars f ++ [EExtra "string"]) (ret_names f) [])
  | XTr => Method (f_args f) (ret_vars f) true
      [("baggage_raw", "tracingplane.BaggageContext"); ("baggage", "string"); ("ret_baggage", "string"); ("ret_baggage_raw", "tracingplane.BaggageContext")]
      ["tracingplane"; "string"; "nil"]
      (Assign name (arg_vars f ++ [EExtra "string"]) (ret_names f ++ ["ret_baggage"]) [])
  | GoVec => Method (f_args f) (ret_vars f) true
      [("govec_bytes", "[]byte"); ("govec_ret", "[]byte")] ["byte"]
      (Assign name (arg_vars f ++ [EExtra "[]byte"]) (ret_names f ++ ["govec_ret"]) [])
  | Health | Plain => Method (f_args f) (pair "" <$> f_rets f) false [] [] (Return name (arg_vars f))
  end.

(** A generated struct: its methods, the interface type of its field for what it wraps, and the interface of what the
    generated instantiation code passes for that field.  The methods are a list, since a template can write two of the same
    name *)
Record struct := Struct { s_methods : list (string * method); s_field : gmap string func; s_given : gmap string func }.
(** The server wrappers write one method for each of the wrapped interface (templates above: range .Service.Methods); the
    health checker adds one more (healthchecker/codegen.go:90-92).  v_data 0 stands for "Healthy" *)
Definition healthy : val := Val "string" 0.
Definition server_struct (m : modifier) (i : iface) : struct :=
  Struct (map (λ '(n, f), (n, server_method m n f)) (map_to_list (i_methods i)) ++
    match m with Health => [("Health", Method [] [("", "string")] false [] [] (Const [healthy]))] | _ => [] end) (i_methods i) (i_methods i).
(** The client wrappers write one method for each of their own interface (range .Impl.Methods); their field has the type of
    the server wrapper's interface (ServerIfaceName), whatever they wrap *)
Definition client_struct (m : modifier) (own server wrapped : iface) : struct :=
  Struct (map (λ '(n, f), (n, client_method m n f)) (map_to_list (i_methods own))) (i_methods server) (i_methods wrapped).

(** *** What the Go compiler checks *)
(** The variables that can be read by the generated call and the return *)
Definition scope (g : method) : list (string * ty) := g_params g ++ (if g_named g then g_results g else []) ++ g_vars g.
Definition lookup_ty (x : string) (l : list (string * ty)) : option ty := snd <$> List.find (λ p, bool_decide (p.1 = x)) l.
Definition expr_ty (g : method) (e : expr) : option ty :=
  match e with EVar x => lookup_ty x (scope g) | EExtra t => Some t end.
(** Receiver, parameters, results and variables of the outermost block are all in one scope *)
Definition declared (g : method) : list string :=
  "handler" :: "ctx" :: (g_params g).*1 ++ (if g_named g then (g_results g).*1 ++ ["err"] else []) ++ (g_vars g).*1.
Definition code_ok (g : method) (w : gmap string func) : Prop :=
  match g_code g with
  | Assign c es lhs own => ∃ f, w !! c = Some f ∧ mapM (expr_ty g) es = Some ((f_args f).*2) ∧
      mapM (λ x, lookup_ty x (scope g)) lhs = Some (f_rets f) ∧ Forall (λ p, lookup_ty p.1 (scope g) = Some p.2) own
  | Return c es => ∃ f, w !! c = Some f ∧ mapM (expr_ty g) es = Some ((f_args f).*2) ∧ f_rets f = (g_results g).*2
  | Const vs => v_ty <$> vs = (g_results g).*2
  end.
(** Names of parameters must be usable as variables, and must not hide what the body needs *)
Definition method_ok (w : gmap string func) (g : method) : Prop :=
  NoDup (declared g) ∧ Forall (λ p, p.1 ≠ "" ∧ p.1 ≠ "_" ∧ p.1 ∉ g_uses g) (g_params g) ∧ code_ok g w.
Definition method_type (g : method) : list ty * list ty := ((g_params g).*2, (g_results g).*2).
Definition func_type (f : func) : list ty * list ty := ((f_args f).*2, f_rets f).
Definition struct_ok (s : struct) : Prop :=
  NoDup (s_methods s).*1 ∧ Forall (λ p, method_ok (s_field s) p.2) (s_methods s) ∧
  ∀ n f, s_field s !! n = Some f → ∃ f', s_given s !! n = Some f' ∧ func_type f' = func_type f.

(** A struct implements an interface: it has the methods with these types.  The DI container passes it as the constructor's
    argument only then (gogen/namespacebuilder.go:193-199: n.Get into a variable of this interface type) *)
Definition implements (s : struct) (i : gmap string func) : Prop :=
  ∀ n f, i !! n = Some f → ∃ g, (n, g) ∈ s_methods s ∧ method_type g = func_type f.

(** The structs generated for a service: server side from the inside out … *)
Fixpoint server_structs (mods : list modifier) (i : iface) : list struct :=
  match mods with
  | [] => []
  | Plain :: ms => server_structs ms i
  | m :: ms => server_struct m i :: server_structs ms (server_iface m i)
  end.
(** … and client side, from the outside in *)
Fixpoint client_structs (mods : list modifier) (i : iface) : option (list struct) :=
  match mods with
  | [] => Some []
  | m :: ms =>
      l ← client_structs ms (server_iface m i);
      match m with
      | Health | Plain => Some l
      | _ => w ← client_side ms (server_side ms (server_iface m i)); own ← client_iface m w;
             Some (client_struct m own (server_iface m i) w :: l)
      end
  end.

(** *** Running it *)
(** An object answers calls: the calls of the original service that happened, the results, and whether an
    error was returned.  None: a call that no compiled program makes *)
Definition object := string → list val → option (list (string * list val) * (list val * bool)).
Section run.
  Context (extra : string → list val → ty → nat). (* the extra values, from whatever the wrapper is doing *)

  Definition lookup_val (x : string) (env : list (string * val)) : option val := snd <$> List.find (λ p, bool_decide (p.1 = x)) env.
  Definition eval (n : string) (args : list val) (env : list (string * val)) (e : expr) : option val :=
    match e with EVar x => lookup_val x env | EExtra t => Some (Val t (extra n args t)) end.
  Definition run_method (o : object) (n : string) (g : method) (args : list val) : option (list (string * list val) * (list val * bool)) :=
    if decide (v_ty <$> args = (g_params g).*2) then
      let env := zip (g_params g).*1 args in
      match g_code g with
      | Assign c es lhs own =>
          vs ← mapM (eval n args env) es;
          '(log, (rs, err)) ← o c vs;
          let env' := map (λ p, (p.1, Val p.2 (extra n args p.2))) own ++ zip lhs rs ++ env in
          out ← mapM (λ x, lookup_val x env') (g_results g).*1;
          Some (log, (out, err))
      | Return c es => vs ← mapM (eval n args env) es; o c vs
      | Const vs => Some ([], (vs, false))
      end
    else None.
  (** An instance of a generated struct around an object *)
  Definition instance (s : struct) (o : object) : object := λ n args,
    '(_, g) ← List.find (λ p, bool_decide (p.1 = n)) (s_methods s); run_method o n g args.
  (** The object that a consumer of the service calls *)
  Definition deploy (mods : list modifier) (i : iface) (o : object) : option object :=
    let srv := foldl (λ o s, instance s o) o (server_structs mods i) in
    l ← client_structs mods i;
    Some (foldr instance srv l).
End run.

(** *** Files *)
(** The file, in the package of the plugin, with the interface and code of a server wrapper (outputFile in
    generateServerHandler and generateClientSideInterfaces), and the interface type in it *)
Definition server_file (m : modifier) (i : iface) : string * gmap string func :=
  (i_name (server_iface m i) +:+ ".go", i_methods (server_iface m i)).
(** The files of the server wrappers of a service *)
Fixpoint server_files (mods : list modifier) (i : iface) : list (modifier * (string * gmap string func)) :=
  match mods with
  | [] => []
  | Plain :: ms => server_files ms i
  | m :: ms => (m, server_file m i) :: server_files ms (server_iface m i)
  end.
