(** * Model of workflow services: plugins/workflow/workflowspec/{service,spec}.go, plugins/workflow/wiring.go *)
From Verif Require Export GoSrc_Model.
Set Default Proof Using "Type".

(** The order in which Go's map iteration delivers the entries of a map: any order, possibly another one at
    each loop (they are numbered) and for each map. *)
Record order := Order { ord : ∀ A : Type, nat → list A → list A }.
Definition entries {A} (o : order) (site : nat) (m : gmap string A) : list (string * A) := ord o _ site (map_to_list m).

(** goparser/moduleset.go:13-17: modules by name, each with its packages by name *)
Notation modset := (gmap string (gmap string package)).
(** A declaration found in a package: the package's name, its own name, and what it is. *)
Record found (A : Type) := Found { fd_pkg : string; fd_name : string; fd_val : A }.
Arguments Found {A} _ _ _. Arguments fd_pkg {A} _. Arguments fd_name {A} _. Arguments fd_val {A} _.
Notation methods := (gmap string gofunc).

(** service.go:199-210.  [None]: comparing two types panics. *)
Fixpoint implements_loop (s : methods) (l : list (string * gofunc)) : option bool :=
  match l with
  | [] => Some true
  | (n, f) :: l =>
      match s !! n with
      | None => Some false
      | Some g => match func_equals f g with Some true => implements_loop s l | r => r end
      end
  end.
Definition implements (o : order) (s i : methods) : option bool := implements_loop s (entries o 0 i).

(** service.go:140-160 *)
Definition is_context (t : ty) : bool := bool_decide (t = TUser "context" "Context").
Definition is_error (t : ty) : bool := bool_decide (t = TBasic "error").
Definition valid_method (f : gofunc) : bool :=
  match fn_args f, last (fn_rets f) with
  | (_, a) :: _, Some (_, r) => is_context a && is_error r
  | _, _ => false
  end.
Definition valid_iface (o : order) (i : methods) : bool := forallb (λ nf, valid_method nf.2) (entries o 1 i).

(** The loops of service.go:165-240 over the modules, packages and entries, collecting what [keep] accepts;
    [None] if it panics. *)
Fixpoint collect {A} (keep : found A → option bool) (l : list (found A)) : option (list (found A)) :=
  match l with
  | [] => Some []
  | x :: l =>
      match keep x with
      | None => None
      | Some b => match collect keep l with Some r => Some (if b then x :: r else r) | None => None end
      end
  end.
Definition everything {A} (o : order) (site : nat) (part : package → gmap string A) (ms : modset) : list (found A) :=
  entries o site ms ≫= λ '(_, m), entries o (site + 1) m ≫= λ '(_, p), (λ '(n, x), Found (pk_name p) n x) <$> entries o (site + 2) (part p).

(** service.go:165-177 *)
Definition find_ifaces (o : order) (ms : modset) (s : methods) : option (list (found methods)) :=
  collect (λ i, implements o s (fd_val i)) (everything o 10 pk_ifaces ms).
(** service.go:182-194 *)
Definition find_structs (o : order) (ms : modset) (i : methods) : option (list (found methods)) :=
  collect (λ s, implements o (fd_val s) i) (everything o 20 pk_structs ms).

(** service.go:245-269 *)
Definition valid_constructor (f : gofunc) : bool :=
  match fn_args f, fn_rets f with
  | (_, a) :: _, [_; (_, e)] => is_context a && is_error e
  | _, _ => false
  end.
(** service.go:271-289, 291-315.  The types compared are user types, which [reflect.DeepEqual] compares by
    package and name. *)
Definition constructs_iface (pkg n : string) (f : gofunc) : bool :=
  valid_constructor f && match fn_rets f with (_, r) :: _ => bool_decide (r = TUser pkg n) | [] => false end.
Definition constructs_struct (pkg n : string) (f : gofunc) : bool :=
  valid_constructor f && match fn_rets f with (_, r) :: _ => bool_decide (r = TPtr (TUser pkg n)) | [] => false end.
(** service.go:212-224, 226-238 *)
Definition find_constructors (o : order) (ms : modset) (p : gofunc → bool) : list (found gofunc) :=
  filter (λ f, p (fd_val f) = true) (everything o 30 pk_funcs ms).

(** service.go:15-24 *)
Record service := Service { sv_iface : found methods; sv_constructor : found gofunc; sv_struct : found methods }.
(** A lookup gives a service or an error, or nil with no error, or panics. *)
Inductive lookup_result := LService (s : service) | LError | LNil | LPanic.

(** service.go:57-101 *)
Definition service_from_struct (o : order) (ms : modset) (s : found methods) : lookup_result :=
  match find_ifaces o ms (fd_val s) with
  | None => LPanic
  | Some ifaces =>
      match filter (λ i, valid_iface o (fd_val i) = true) ifaces,
            find_constructors o ms (constructs_struct (fd_pkg s) (fd_name s)) with
      | i :: _, c :: _ => LService (Service i c s)
      | _, _ => LError
      end
  end.
(** service.go:103-132 *)
Definition service_from_iface (o : order) (ms : modset) (i : found methods) : lookup_result :=
  if valid_iface o (fd_val i) then
    match find_constructors o ms (constructs_iface (fd_pkg i) (fd_name i)) with
    | [] => LError
    | c :: _ =>
        match find_structs o ms (fd_val i) with
        | None => LPanic
        | Some [] => LError
        | Some (s :: _) => LService (Service i c s)
        end
    end
  else LError.
(** spec.go:66-88, after the module has been parsed and added to the module set [ms] *)
Definition get_service (o : order) (ms : modset) (m pkg n : string) : lookup_result :=
  match ms !! m with
  | None => LError
  | Some pkgs =>
      match pkgs !! pkg with
      | None => LNil
      | Some p =>
          match pk_ifaces p !! n with
          | Some i => service_from_iface o ms (Found (pk_name p) n i)
          | None =>
              match pk_structs p !! n with
              | Some s => service_from_struct o ms (Found (pk_name p) n s)
              | None => LError
              end
          end
      end
  end.

(** goparser/parser.go:708-722: the interface that clients see, without the context and the error *)
Definition client_func (f : gofunc) : gofunc := Func (fn_name f) (tail (fn_args f)) (removelast (fn_rets f)).
Definition client_iface (i : methods) : methods := client_func <$> i.

(** wiring.go:79-98: the nodes passed to the constructor.  [defined] says which names the wiring spec
    defines; [get] is [namespace.Get], which gives the same node each time within a namespace (C05) and is
    taken as a function here. *)
Section args.
  Context {N : Type} (defined : string → bool) (get : string → option N).
  Inductive arg := AValue (v : string) | ANode (x : N).
  Fixpoint arg_nodes (ps : list (string * ty)) (args : list string) : option (list arg) :=
    match ps, args with
    | (_, t) :: ps, a :: args =>
        match (if bool_decide (t = TBasic "string") && negb (defined a) then Some (AValue a) else ANode <$> get a) with
        | Some x => match arg_nodes ps args with Some r => Some (x :: r) | None => None end
        | None => None
        end
    | _, _ => Some []
    end.
  Definition service_args (c : gofunc) (args : list string) : option (list arg) :=
    let ps := tail (fn_args c) in
    if bool_decide (length ps = length args) then arg_nodes ps args else None.
End args.
Arguments AValue {N} _. Arguments ANode {N} _.
