(** * Model of tracing with OpenTelemetry: plugins/opentelemetry (the generated client and server wrappers),
      runtime/core/backend/trace.go, runtime/plugins/opentelemetry/logger.go

    The OpenTelemetry SDK (v1.26) is taken at its documented behaviour, with the default sampler ParentBased(AlwaysSample)
    that NewJaegerTracer, NewZipkinTracer and NewStdoutTracer leave in place.  encoding/json, the grammar of trace states
    and the SDK's random identifiers are given by a [tracer].  Spans are listed in the order in which they end; batching
    and export are not modelled.  The calls made by one handler are made one after the other. *)
From Coq Require Export Ascii String.
From stdpp Require Export gmap list strings.
Set Default Proof Using "Type".
Open Scope string_scope.
Open Scope list_scope.

(** Bytes, and texts as lists of bytes *)
Notation bytes := (list ascii).

(** ** Hexadecimal notation *)
Definition hex_digit (n : nat) : ascii := ascii_of_nat (if decide (n < 10) then 48 + n else 87 + n).
(** encoding/hex.EncodeToString *)
Definition hex : bytes → bytes := flat_map (λ b, [hex_digit (nat_of_ascii b / 16); hex_digit (nat_of_ascii b mod 16)]).
Definition unhex_digit (c : ascii) : option nat :=
  let n := nat_of_ascii c in
  if decide (48 ≤ n ≤ 57) then Some (n - 48)
  else if decide (97 ≤ n ≤ 102) then Some (n - 87)
  else if decide (65 ≤ n ≤ 70) then Some (n - 55)
  else None.
(** encoding/hex.DecodeString *)
Fixpoint unhex (t : bytes) : option bytes :=
  match t with
  | [] => Some []
  | c :: d :: t =>
      match unhex_digit c, unhex_digit d, unhex t with
      | Some x, Some y, Some b => Some (ascii_of_nat (16 * x + y) :: b)
      | _, _, _ => None
      end
  | [_] => None
  end.
(** The digits trace.TraceIDFromHex and trace.SpanIDFromHex admit *)
Definition lower_hex (c : ascii) : bool :=
  let n := nat_of_ascii c in bool_decide (48 ≤ n ≤ 57) || bool_decide (97 ≤ n ≤ 102).
(** IsValid of trace.TraceID and trace.SpanID: some byte is not zero *)
Definition nonzero (b : bytes) : bool := existsb (λ a, negb (Ascii.eqb a zero)) b.
(** trace.TraceIDFromHex (16 bytes) and trace.SpanIDFromHex (8 bytes) *)
Definition id_from_hex (len : nat) (t : bytes) : option bytes :=
  if bool_decide (length t = 2 * len) && forallb lower_hex t
  then match unhex t with Some b => if nonzero b then Some b else None | None => None end
  else None.

(** ** Span contexts *)
(** trace.SpanContext *)
Record sc := SC { sc_trace : bytes; sc_span : bytes; sc_flags : ascii; sc_state : bytes; sc_remote : bool }.
(** trace.SpanContext{} *)
Definition sc_zero : sc := SC (replicate 16 zero) (replicate 8 zero) zero [] false.
(** SpanContext.IsValid *)
Definition sc_valid (c : sc) : bool := nonzero (sc_trace c) && nonzero (sc_span c).
(** SpanContext.IsSampled, and the flags with the sampled bit set or cleared *)
Definition sampled (f : ascii) : bool := match f with Ascii b _ _ _ _ _ _ _ => b end.
Definition set_sampled (s : bool) (f : ascii) : ascii :=
  match f with Ascii _ b c d e g h i => Ascii s b c d e g h i end.

(** backend/trace.go:18-31 *)
Record tctx := TCtx { t_trace : bytes; t_span : bytes; t_flags : bytes; t_state : bytes; t_remote : bool }.

(** [enc] is json.Marshal of a trace.SpanContextConfig whose identifiers and flags are written as hexadecimal text, [dec] is
    json.Unmarshal into a traceCtx; [ts_ok] holds of the texts trace.ParseTraceState accepts (a TraceState is identified
    with its text); [new_tid] and [new_sid] are the SDK's random identifiers, the argument counts the spans started. *)
Record tracer := Tracer {
  enc : tctx → bytes;
  dec : bytes → option tctx;
  ts_ok : bytes → bool;
  new_tid : nat → bytes;
  new_sid : nat → bytes }.

Inductive result (A : Type) := Ok (a : A) | Err | Panic.
Arguments Ok {A} a.
Arguments Err {A}.
Arguments Panic {A}.

(** The levels of backend/log.go:11-16 *)
Inductive level := Debug | Info | Warn | Error.
(** Events of a span: log statements (opentelemetry/logger.go) and RecordError *)
Inductive event := EvLog (l : level) (msg : string) | EvErr.
Record span := Span { s_name : string; s_sc : sc; s_parent : sc; s_events : list event }.
(** What a context.Context carries: the current span's context, and whether the span records (and not a remote or
    non-recording span) *)
Record ctx := Ctx { c_sc : sc; c_rec : bool }.
(** context.Background *)
Definition background : ctx := Ctx sc_zero false.
(** The process(es): how many spans were started, the recording spans that have not ended, the ended ones (oldest first) *)
Record st := St { st_next : nat; st_open : gmap bytes span; st_done : list span; st_crash : bool }.
Definition st_init : st := St 0 ∅ [] false.

(** How the network treats a request *)
Inductive net := Delivered | RequestLost | ResponseLost.
(** What a handler does with the context it receives: log statements, and calls of other services.  A call lists what the
    callee does, and whether the callee returns an error. *)
Inductive act :=
  | Log (l : level) (msg : string)
  | Call (svc meth : string) (n : net) (body : list act) (fails : bool).
(** The application: for each service, whether it is instrumented (None: no; [Some gen]: yes, [gen] says whether with client
    spans; wiring.go:64-128), whether it is reached over the network, and the names its interface goes by *)
Record cfg := Cfg { inst : string → option bool; remote : string → bool; iface : string → string; base : string → string }.

Section tracer.
Context (T : tracer).

(** SpanContext.MarshalJSON *)
Definition marshal (c : sc) : bytes :=
  enc T (TCtx (hex (sc_trace c)) (hex (sc_span c)) (hex [sc_flags c]) (sc_state c) (sc_remote c)).
(** GetSpanContext: backend/trace.go:34-58; [flag_bytes[0]] panics when TraceFlags is empty *)
Definition get_span_context (t : bytes) : result sc :=
  match dec T t with
  | None => Err
  | Some c =>
      match id_from_hex 16 (t_trace c) with
      | None => Err
      | Some tid =>
          match id_from_hex 8 (t_span c) with
          | None => Err
          | Some sid =>
              match unhex (t_flags c) with
              | None => Err
              | Some [] => Panic
              | Some (f :: _) => if ts_ok T (t_state c) then Ok (SC tid sid f (t_state c) (t_remote c)) else Err
              end
          end
      end
  end.

(** tracer.Start with the default sampler: a child of the context's span, or a new trace *)
Definition start (x : ctx) (name : string) (s : st) : ctx * st :=
  let p := c_sc x in
  let smp := if sc_valid p then sampled (sc_flags p) else true in
  let c := SC (if nonzero (sc_trace p) then sc_trace p else new_tid T (st_next s)) (new_sid T (st_next s))
              (set_sampled smp (sc_flags p)) (sc_state p) false in
  (Ctx c smp,
   St (S (st_next s)) (if smp then <[sc_span c := Span name c p []]> (st_open s) else st_open s) (st_done s) (st_crash s)).
(** span.AddEvent and span.RecordError on the context's span: nothing if it does not record *)
Definition add_event (x : ctx) (e : event) (s : st) : st :=
  if c_rec x
  then St (st_next s) (alter (λ p, Span (s_name p) (s_sc p) (s_parent p) (s_events p ++ [e])) (sc_span (c_sc x)) (st_open s))
          (st_done s) (st_crash s)
  else s.
(** span.End *)
Definition finish (x : ctx) (s : st) : st :=
  match st_open s !! sc_span (c_sc x) with
  | Some p => if c_rec x then St (st_next s) (delete (sc_span (c_sc x)) (st_open s)) (st_done s ++ [p]) (st_crash s) else s
  | None => s
  end.

(** The generated server wrapper: ir_ot_server.go:248-264.  A failed GetSpanContext leaves an empty configuration behind;
    ContextWithRemoteSpanContext marks the context remote. *)
Definition server_wrapper (C : cfg) (svc meth : string) (handler : ctx → st → st * bool) (x : ctx) (t : bytes) (s : st)
    : st * bool :=
  match (if decide (t = []) then Ok x
         else match get_span_context t with
              | Ok c => Ok (Ctx (SC (sc_trace c) (sc_span c) (sc_flags c) (sc_state c) true) false)
              | Err => Ok (Ctx (SC (sc_trace sc_zero) (sc_span sc_zero) (sc_flags sc_zero) (sc_state sc_zero) true) false)
              | Panic => Panic
              end) with
  | Ok x =>
      let '(x, s) := start x (iface C svc ++ "Server_" ++ meth) s in
      let '(s, err) := handler x s in
      let s := if err : bool then add_event x EvErr s else s in
      (finish x s, err)
  | _ => (St (st_next s) (st_open s) (st_done s) true, true)
  end.
(** The generated client wrapper: ir_ot_client.go:199-213 *)
Definition client_wrapper (C : cfg) (gen : bool) (svc meth : string) (next : ctx → bytes → st → st * bool) (x : ctx) (s : st)
    : st * bool :=
  let '(x, s) := if gen then start x (base C svc ++ "Client_" ++ meth) s else (x, s) in
  let '(s, err) := next x (marshal (c_sc x)) s in
  let s := if err : bool then add_event x EvErr s else s in
  (if gen then finish x s else s, err).
(** The transport between client and server.  A network does not carry the context; plain calls do, and get through. *)
Definition transport (C : cfg) (svc : string) (n : net) (callee : ctx → st → st * bool) (x : ctx) (s : st) : st * bool :=
  if remote C svc
  then match n with
       | Delivered => callee background s
       | RequestLost => (s, true)
       | ResponseLost => ((callee background s).1, true)
       end
  else callee x s.

(** One step of a handler (see [act]); the result tells whether it is an error *)
Fixpoint run (C : cfg) (a : act) (x : ctx) (s : st) : st * bool :=
  match a with
  | Log l m => (add_event x (EvLog l m) s, false)
  | Call svc meth n body fails =>
      let handler x s :=
        ((fix go (l : list act) (s : st) := match l with [] => s | a :: l => go l (run C a x s).1 end) body s, fails) in
      match inst C svc with
      | None => transport C svc n handler x s
      | Some gen =>
          client_wrapper C gen svc meth
            (λ x t, transport C svc n (λ x, server_wrapper C svc meth handler x t) x) x s
      end
  end.
Definition run_all (C : cfg) (l : list act) (x : ctx) (s : st) : st := foldl (λ s a, (run C a x s).1) s l.
End tracer.
