(** * Specification of wrapper stacks *)
From Verif Require Export WrapStack_Model.

(** Modifiers that pass a context to the other side *)
Definition passes_context (m : modifier) : Prop := m = OT ∨ m = XTr ∨ m = GoVec.
(** A health check was added after such a modifier *)
Definition health_too_late (mods : list modifier) : Prop :=
  ∃ l1 m l2 l3, mods = l1 ++ m :: l2 ++ Health :: l3 ∧ passes_context m.

(** The methods that the service and the modifiers promise to a consumer *)
Definition promised (mods : list modifier) (ms : gmap string func) : gmap string func :=
  if decide (Health ∈ mods) then <["Health" := Func [] ["string"]]> ms else ms.

(** Names that an argument of a method cannot have when the modifier is used *)
Definition reserved (m : modifier) : list string :=
  match m with
  | OT => ["traceCtx"; "tp"; "tr"; "span"; "trace_ctx"; "err"; "backend"; "trace"; "string"; "nil"]
  | XTr => ["baggage"; "ret_baggage"; "ret_baggage_raw"; "baggage_raw"; "err"; "tracingplane"; "string"; "nil"]
  | GoVec => ["govecctx"; "govecret"; "govec_bytes"; "govec_ret"; "err"; "byte"]
  | Health | Plain => []
  end ++ [""; "_"; "handler"; "ctx"].
Definition arg_names (f : func) : list string := (f_args f).*1.
(** Arguments have different names (as in any Go interface that gives names to its arguments) … *)
Definition named_args (i : iface) : Prop := ∀ n f, i_methods i !! n = Some f → NoDup (arg_names f).
(** … and are not called ret0, ret1, … *)
Definition no_ret_args (i : iface) : Prop := ∀ n f k, i_methods i !! n = Some f → "ret" +:+ pretty (k : nat) ∉ arg_names f.
(** … nor by a name that one of the modifiers uses *)
Definition free_names (mods : list modifier) (i : iface) : Prop :=
  ∀ n f m x, i_methods i !! n = Some f → m ∈ mods → m ≠ Plain → x ∈ arg_names f → x ∉ reserved m.
(** No modifier but those that keep the interface is applied twice *)
Definition once (mods : list modifier) : Prop := NoDup (filter (λ m, m ≠ Plain) mods).
(** No method is called like the one added *)
Definition health_free (mods : list modifier) (i : iface) : Prop := Health ∈ mods → i_methods i !! "Health" = None.

(** The Go compiler accepts all the code generated for the service *)
Definition compiles (mods : list modifier) (i : iface) : Prop :=
  Forall struct_ok (server_structs mods i) ∧ ∃ l, client_structs mods i = Some l ∧ Forall struct_ok l.

(** A call with arguments of the right types *)
Definition typed (f : func) (args : list val) : Prop := v_ty <$> args = (f_args f).*2.
(** The service as its developer wrote it: it answers each call by itself *)
Definition service (i : iface) (h : string → list val → list val * bool) : object := λ n args,
  match i_methods i !! n with
  | Some f => if decide (v_ty <$> args = (f_args f).*2) then Some ([(n, args)], h n args) else None
  | None => None
  end.
Definition well_typed (i : iface) (h : string → list val → list val * bool) : Prop :=
  ∀ n f args, i_methods i !! n = Some f → typed f args → v_ty <$> (h n args).1 = f_rets f.
