(** * Model of generated namespaces, plugins/golang/gogen/namespacebuilder.go

    A namespace builder collects arguments, instantiations and declarations, and renders them to a Go file.  The file is
    modelled by its statements, with every string literal in it kept as source text; what the statements do is modelled
    below, including what makes the Go compiler reject them. *)
From stdpp Require Export strings gmap list.
From Coq Require Export Ascii.
Set Default Proof Using "Type".

Definition dquote : ascii := Eval compute in ascii_of_nat 34.
Definition newline : ascii := Eval compute in ascii_of_nat 10.
Definition backslash : ascii := Eval compute in ascii_of_nat 92.

(** ir.go:53-55 (IRValue.String), and the quotes around names in the templates (namespacebuilder.go:154, 254-280) *)
Definition quote (s : string) : string := String dquote (s +:+ String dquote "").

(** The Go language specification, interpreted string literals.  Of the escapes only the one-letter ones are here, others
    are rejected, as is nothing else (source files are taken to be valid UTF-8). *)
Definition unescape (c : ascii) : option ascii :=
  if bool_decide (c = "n"%char) then Some newline else
  if bool_decide (c = "t"%char) then Some (ascii_of_nat 9) else
  if bool_decide (c = "r"%char) then Some (ascii_of_nat 13) else
  if bool_decide (c = backslash) then Some backslash else
  if bool_decide (c = dquote) then Some dquote else None.
Fixpoint lit_rest (s : string) : option string :=
  match s with
  | EmptyString => None
  | String c r =>
      if bool_decide (c = dquote) then (if bool_decide (r = "") then Some "" else None) else
      if bool_decide (c = newline) then None else
      if bool_decide (c = backslash) then
        match r with
        | String e r' => match unescape e with Some c' => String c' <$> lit_rest r' | None => None end
        | EmptyString => None
        end
      else String c <$> lit_rest r
  end.
Definition go_string (src : string) : option string :=
  match src with String c r => if bool_decide (c = dquote) then lit_rest r else None | EmptyString => None end.

(** An argument node of a constructor (177-201): metadata, a literal value, or another node, with the identifier that the
    rendered type of the variable starts with (the import name of the interface's package, or "string"). *)
Inductive garg := GMeta (name : string) | GValue (v : string) | GNode (name tyid : string).
(** A constructor: the import name of its package, its name, the names of its arguments, the first being the context. *)
Record ctor := Ctor { c_pkg : string; c_name : string; c_args : list string }.
(** A rendered build function (150-160): variables to declare and Get, and the call. *)
Inductive expr := ELit (src : string) | EVar (x : string).
Record body := Body { b_gets : list (string * string * string); b_pkg : string; b_ctor : string; b_exprs : list expr }.
Inductive bsrc := Gen (b : body) | Raw (code : string).

(** 20-33 *)
Record nsb := Nsb { declarations : gmap string bsrc; required : gmap string string; optional : gmap string string; instantiations : list string }.
Definition new_nsb : nsb := Nsb ∅ ∅ ∅ [].
(** 104-107 *)
Definition required_arg (b : nsb) (n d : string) : nsb := Nsb (declarations b) (<[n := d]> (required b)) (optional b) (instantiations b).
(** 109-112 *)
Definition optional_arg (b : nsb) (n d : string) : nsb := Nsb (declarations b) (required b) (<[n := d]> (optional b)) (instantiations b).
(** 114-122 *)
Definition instantiate (b : nsb) (n : string) : nsb :=
  if bool_decide (n ∈ instantiations b) then b else Nsb (declarations b) (required b) (optional b) (instantiations b ++ [n]).
(** 124-131 *)
Definition declare (b : nsb) (n : string) (src : bsrc) : nsb * bool :=
  match declarations b !! n with
  | Some _ => (b, false)
  | None => (Nsb (<[n := src]> (declarations b)) (required b) (optional b) (instantiations b), true)
  end.
(** 177-201: the loop over the arguments; [None] for a metadata node *)
Fixpoint ctor_args (vars : list string) (args : list garg) : option (list (string * string * string) * list expr) :=
  match vars, args with
  | x :: vars, a :: args =>
      match a with
      | GMeta _ => None
      | GValue v => match ctor_args vars args with Some (g, e) => Some (g, ELit (quote v) :: e) | None => None end
      | GNode n t => match ctor_args vars args with Some (g, e) => Some ((x, t, quote n) :: g, EVar x :: e) | None => None end
      end
  | _, _ => Some ([], [])
  end.
(** 161-209 *)
Definition ctor_body (c : ctor) (args : list garg) : option body :=
  if bool_decide (length (c_args c) = S (length args)) then
    match ctor_args (tail (c_args c)) args with
    | Some (g, e) => Some (Body g (c_pkg c) (c_name c) e)
    | None => None
    end
  else None.
Definition declare_constructor (b : nsb) (n : string) (c : ctor) (args : list garg) : nsb * bool :=
  match ctor_body c args with Some d => declare b n (Gen d) | None => (b, false) end.

Inductive bop := ORequired (n d : string) | OOptional (n d : string) | OInst (n : string) | ODecl (n code : string) | OCtor (n : string) (c : ctor) (args : list garg).
Definition bstep (b : nsb) (o : bop) : nsb * bool :=
  match o with
  | ORequired n d => (required_arg b n d, true)
  | OOptional n d => (optional_arg b n d, true)
  | OInst n => (instantiate b n, true)
  | ODecl n code => declare b n (Raw code)
  | OCtor n c args => declare_constructor b n c args
  end.
Fixpoint brun (b : nsb) (os : list bop) : nsb * list bool :=
  match os with
  | [] => (b, [])
  | o :: r => let '(b1, x) := bstep b o in let '(b2, xs) := brun b1 r in (b2, x :: xs)
  end.

(** 252-282: the statements of the generated file.  Maps are rendered in the order of their keys; here in any order. *)
Inductive stmt := SRequired (n d : string) | SOptional (n d : string) | SInstantiate (n : string) | SDefine (n : string) (b : bsrc).
Definition render (rs os : list (string * string)) (is : list string) (ds : list (string * bsrc)) : list stmt :=
  ((λ nd, SRequired (quote nd.1) (quote nd.2)) <$> rs) ++ ((λ nd, SOptional (quote nd.1) (quote nd.2)) <$> os) ++
  ((λ n, SInstantiate (quote n)) <$> is) ++ ((λ nd, SDefine (quote nd.1) nd.2) <$> ds).

(** ** Running the generated file: runtime/plugins/golang/namespace.go *)
Record rbuilder := RB { rb_required : gmap string string; rb_optional : gmap string string; rb_inst : list string; rb_defs : gmap string bsrc; rb_flags : gset string }.
Definition new_rb : rbuilder := RB ∅ ∅ [] ∅ ∅.
(** 129-135, 172-201.  [None]: the file does not compile, or a command line flag is declared twice, which panics. *)
Definition exec (b : rbuilder) (s : stmt) : option rbuilder :=
  match s with
  | SRequired n d =>
      n ← go_string n; d ← go_string d;
      if bool_decide (n ∈ rb_flags b) then None else Some (RB (<[n := d]> (rb_required b)) (rb_optional b) (rb_inst b) (rb_defs b) ({[n]} ∪ rb_flags b))
  | SOptional n d =>
      n ← go_string n; d ← go_string d;
      if bool_decide (n ∈ rb_flags b) then None else Some (RB (rb_required b) (<[n := d]> (rb_optional b)) (rb_inst b) (rb_defs b) ({[n]} ∪ rb_flags b))
  | SInstantiate n => n ← go_string n; Some (RB (rb_required b) (rb_optional b) (rb_inst b ++ [n]) (rb_defs b) (rb_flags b))
  | SDefine n src => n ← go_string n; Some (RB (rb_required b) (rb_optional b) (rb_inst b) (<[n := src]> (rb_defs b)) (rb_flags b))
  end.
Fixpoint execs (b : rbuilder) (ss : list stmt) : option rbuilder :=
  match ss with [] => Some b | s :: r => match exec b s with Some b' => execs b' r | None => None end end.

(** What the Go compiler checks of a build function: no variable is declared twice or named like the parameter or the
    blank identifier, and no variable hides the predeclared nil, a package that a later type is from, or that of the
    constructor. *)
Fixpoint decls_ok (declared : list string) (gets : list (string * string * string)) : option (list string) :=
  match gets with
  | [] => Some declared
  | (x, t, n) :: r =>
      if bool_decide (x ∉ declared ∧ x ≠ "n" ∧ x ≠ "_" ∧ x ≠ "nil" ∧ t ∉ declared ∧ is_Some (go_string n)) then decls_ok (x :: declared) r else None
  end.
Definition compiles (b : body) : bool :=
  match decls_ok [] (b_gets b) with
  | Some declared => bool_decide (b_pkg b ∉ declared) && forallb (λ e, match e with ELit s => bool_decide (is_Some (go_string s)) | EVar x => bool_decide (x ∈ declared) end) (b_exprs b)
  | None => false
  end.

(** Running a build function, given what Get returns *)
Inductive val := VStr (s : string) | VInst (i : nat).
Inductive outcome := Called (ctor : string) (args : list val) | Failed | Rejected.
Fixpoint run_gets (get : string → option val) (env : gmap string val) (gets : list (string * string * string)) : option (gmap string val) :=
  match gets with
  | [] => Some env
  | (x, _, n) :: r => n ← go_string n; v ← get n; run_gets get (<[x := v]> env) r
  end.
Definition eval (env : gmap string val) (e : expr) : option val := match e with ELit s => VStr <$> go_string s | EVar x => env !! x end.
Definition run_body (get : string → option val) (b : body) : outcome :=
  if compiles b then
    match run_gets get ∅ (b_gets b) with
    | Some env => match mapM (eval env) (b_exprs b) with Some vs => Called (b_ctor b) vs | None => Failed end
    | None => Failed
    end
  else Rejected.
