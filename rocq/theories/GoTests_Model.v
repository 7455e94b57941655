(** * Model of the gotests plugin: plugins/gotests/{findtests,ir}.go, plugins/gotests/codegen/blueprint_clients.go.go

    Source files are syntax trees as in [GoSrc_Model], with the package-level vars and the bodies of init
    functions added; the client registry that the tests use is the one of [Registry_Model].  Which interface
    a name stands for in the workflow spec is an oracle.  Modules that the parser rejects, log messages and
    the generated client library itself are not modelled. *)
From Verif Require Export GoSrc_Model Registry_Model Registry_Spec.
From stdpp Require Export list.
Set Default Proof Using "Type".
Open Scope string_scope.
Open Scope list_scope.

(** ** Test source *)

(** An initial value: [x.sel[T](...)], or anything else. *)
Inductive vexpr := VCall (x sel : string) (T : expr) | VOther.
(** A var declaration: [var n1, n2 = v1, v2]. *)
Record varspec := VarSpec { vs_names : list string; vs_values : list vexpr }.
(** A statement of an init function about a registry variable: Register of a local instance, numbered, under a
    name, or SetDefault. *)
Inductive iop := IRegister (var name : string) (k : nat) | ISetDefault (var name : string).
Record tfile := TFile { tf_src : file; tf_vars : list varspec; tf_init : list iop }.
(** A directory of Go files with one package clause.  [tp_files] is in the order in which the go tool gives the
    files to the compiler; [tp_order1] and [tp_order2] are the orders in which Go's map iteration happens to
    deliver them to the two loops of the parser. *)
Record tpackage := TPackage {
  tp_name : string; tp_short : string;
  tp_files : list tfile; tp_order1 : list tfile; tp_order2 : list tfile }.
(** A module: its path, the last part of its source directory, its packages. *)
Record tmodule := TModule { tm_path : string; tm_dir : string; tm_packages : list tpackage }.

(** ** Finding registries *)

(** parser.go:595-618: a var is kept under its first name *)
Definition load_vars (f : tfile) (vars : gmap string (tfile * list vexpr)) : gmap string (tfile * list vexpr) :=
  foldl (λ m v, match vs_names v with x :: _ => <[x := (f, vs_values v)]> m | [] => m end) vars (tf_vars f).
(** parser.go:263-276: functions and vars, file by file; a function error ends the loop *)
Fixpoint load_funcs_vars (fs : list tfile) (l : loaded) (vars : gmap string (tfile * list vexpr))
  : loaded * gmap string (tfile * list vexpr) :=
  match fs with
  | [] => (l, vars)
  | f :: fs =>
      let '(l, ok) := load_funcs (tf_src f) (f_decls (tf_src f)) l in
      if ok then load_funcs_vars fs l (load_vars f vars) else (l, vars)
  end.
(** parser.go:227-279; the error is dropped by the caller (parser.go:216) *)
Definition load_test_package (p : tpackage) : loaded * gmap string (tfile * list vexpr) :=
  let '(l, ok) := over_files load_types (map tf_src (tp_order1 p)) empty_loaded in
  if ok then load_funcs_vars (tp_order2 p) l ∅ else (l, ∅).

(** findtests.go:106-126: the type parameter of a registry call *)
Definition registry_call (vs : list vexpr) : option expr :=
  match vs with
  | [VCall x sel T] => if bool_decide (x = "registry") && bool_decide (sel = "NewServiceRegistry") then Some T else None
  | _ => None
  end.

(** What [GetServiceByName] finds under a package and name (workflowspec/spec.go:67-88): the methods, in the
    order of a Go map iteration, of the interface found; for a struct it is the interface the struct
    implements.  [None] is an error. *)
Record found_iface := FoundIface { fi_is_struct : bool; fi_methods : list (string * gofunc) }.
Definition lookup_iface := string → string → option found_iface.

(** findtests.go:16-21, with the module and package of the var *)
Record freg := FReg { fr_mod : tmodule; fr_pkg : tpackage; fr_var : string; fr_type : ty; fr_iface : option found_iface }.

(** strings.HasSuffix(name, "_test") *)
Fixpoint rev_string (s acc : string) : string :=
  match s with EmptyString => acc | String c s => rev_string s (String c acc) end.
Definition has_suffix (suf s : string) : bool := String.prefix (rev_string suf "") (rev_string s "").

(** findtests.go:64-87, 97-104: one var of a package *)
Definition found_var (L : lookup_iface) (m : tmodule) (p : tpackage) (l : loaded) (v : string * (tfile * list vexpr)) : list freg :=
  match registry_call v.2.2 with
  | Some T =>
      let t := resolve (tp_name p) (ld_types l) (tf_src v.2.1) [] T in
      [FReg m p v.1 t match t with TUser pk n => L pk n | _ => None end]
  | None => []
  end.
(** findtests.go:61-63; parser.go:184-188: packages whose name ends in _test are ignored *)
Definition found_package (L : lookup_iface) (m : tmodule) (p : tpackage) : list freg :=
  if has_suffix "_test" (tp_short p) then []
  else let '(l, vars) := load_test_package p in flat_map (found_var L m p l) (map_to_list vars).
(** findtests.go:53-95.  The loops are over Go maps: the theorems take any permutation of this list. *)
Definition found (L : lookup_iface) (ms : list tmodule) : list freg :=
  flat_map (λ m, flat_map (found_package L m) (tm_packages m)) ms.

(** ** Matching *)

(** A service to test (ir.go:27, 144-149): the name given in the wiring spec, the node the library instantiates
    for it, and its Go interface; [None] where it has none. *)
Record siface := SIface { si_pkg : string; si_name : string; si_methods : gmap string gofunc }.
Record tservice := TService { ts_name : string; ts_node : string; ts_iface : option siface }.

(** service.go:151-166, the loop *)
Fixpoint contains_all (i : gmap string gofunc) (j : list (string * gofunc)) : option bool :=
  match j with
  | [] => Some true
  | (n, f) :: j =>
      match i !! n with
      | None => Some false
      | Some g => andp (func_equals f g) (contains_all i j)
      end
  end.
(** findtests.go:27-39, the test for one registry *)
Definition reg_matches (i : siface) (r : freg) : option bool :=
  match ty_equals (TUser (si_pkg i) (si_name i)) (fr_type r) with
  | Some false => match fr_iface r with Some j => contains_all (si_methods i) (fi_methods j) | None => Some false end
  | b => b
  end.

(** ** Generating *)

(** golang/gogen/workspacebuilder.go:23-29: module path to directory, and directory to module path *)
Record workspace := Workspace { ws_dirs : gmap string string; ws_modules : gmap string string }.
(** workspacebuilder.go:101-146; [None] is an error.  Copying the files is assumed to succeed. *)
Definition add_local_module (w : workspace) (dir path : string) : option workspace :=
  match ws_dirs w !! path with
  | Some d => if bool_decide (d = dir) then Some w else None
  | None =>
      match ws_modules w !! dir with
      | Some q => if bool_decide (q = path) then Some (Workspace (<[path := dir]> (ws_dirs w)) (ws_modules w)) else None
      | None => Some (Workspace (<[path := dir]> (ws_dirs w)) (<[dir := path]> (ws_modules w)))
      end
  end.

(** codegen/blueprint_clients.go.go:32-37 *)
Record registration := Registration { rg_var : string; rg_client : string; rg_node : string; rg_type : ty; rg_struct : bool }.
(** ir.go:138, 164-177: the workspace and, per package, the registrations of its generated file.  Outcomes: an
    error, or a nil dereference while comparing types. *)
Inductive outcome (A : Type) := Done (a : A) | Error | Panic.
Arguments Done {A}. Arguments Error {A}. Arguments Panic {A}.
Definition gstate := (workspace * gmap string (list registration))%type.

(** ir.go:159-178: one matching registry *)
Definition add_client (s : tservice) (r : freg) (st : gstate) : outcome gstate :=
  let '(w, b) := st in
  let reg := Registration (fr_var r) (ts_name s) (ts_node s) (fr_type r)
               (match fr_iface r with Some j => fi_is_struct j | None => false end) in
  match b !! tp_name (fr_pkg r) with
  | Some rs => Done (w, <[tp_name (fr_pkg r) := rs ++ [reg]]> b)
  | None =>
      match add_local_module w (tm_dir (fr_mod r)) (tm_path (fr_mod r)) with
      | Some w => Done (w, <[tp_name (fr_pkg r) := [reg]]> b)
      | None => Error
      end
  end.
(** ir.go:151-178: the registries of one service.  The matches are all found before any is added. *)
Fixpoint matching (i : siface) (rs : list freg) : option (list freg) :=
  match rs with
  | [] => Some []
  | r :: rs =>
      match reg_matches i r with
      | None => None
      | Some b => match matching i rs with Some ms => Some (if b then r :: ms else ms) | None => None end
      end
  end.
Fixpoint add_clients (s : tservice) (rs : list freg) (st : gstate) : outcome gstate :=
  match rs with
  | [] => Done st
  | r :: rs => match add_client s r st with Done st => add_clients s rs st | o => o end
  end.
(** ir.go:144-179: the services, in the order of a Go map iteration *)
Fixpoint gen_services (rs : list freg) (ss : list tservice) (st : gstate) : outcome gstate :=
  match ss with
  | [] => Done st
  | s :: ss =>
      match ts_iface s with
      | None => Error
      | Some i =>
          match matching i rs with
          | None => Panic
          | Some ms => match add_clients s ms st with Done st => gen_services rs ss st | o => o end
          end
      end
  end.
(** ir.go:131-187: the workspace and what the generated files register, per package; [w] is the workspace with the
    modules of the application in it. *)
Definition generate (w : workspace) (rs : list freg) (ss : list tservice) : outcome gstate := gen_services rs ss (w, ∅).

(** codegen/blueprint_clients.go.go:86-111: the template returns nil for the client, which only compiles when the
    type is not a struct. *)
Definition compiles (rs : list registration) : bool := forallb (λ r, negb (rg_struct r)) rs.

(** ** Running the tests *)

(** What a test gets from a registry: the k-th local instance, or a client of a node of the application. *)
Inductive source := SLocal (k : nat) | SClient (node : string).
Inductive vop := VRegister (name : string) (s : source) | VDefault (name : string).

(** The statements of init functions about one registry variable *)
Definition local_ops (x : string) (is : list iop) : list vop :=
  omap (λ i, match i with
             | IRegister y n k => if bool_decide (x = y) then Some (VRegister n (SLocal k)) else None
             | ISetDefault y n => if bool_decide (x = y) then Some (VDefault n) else None
             end) is.
Definition client_ops (x : string) (rs : list registration) : list vop :=
  omap (λ r, if bool_decide (x = rg_var r) then Some (VRegister (rg_client r) (SClient (rg_node r))) else None) rs.

(** The go tool compiles the files of a package in the order of their names, _test.go files last, and init
    functions run in that order: this is whether a file comes before blueprint_clients.go. *)
Definition clients_file : string := "blueprint_clients.go".
Definition before_clients (f : tfile) : bool :=
  negb (has_suffix "_test.go" (f_name (tf_src f))) && bool_decide (String.compare (f_name (tf_src f)) clients_file = Lt).
(** The statements about [x] in the order they run; a file called blueprint_clients.go is overwritten. *)
Definition package_ops (x : string) (p : tpackage) (rs : list registration) : list vop :=
  flat_map (λ f, local_ops x (tf_init f)) (filter before_clients (tp_files p)) ++
  client_ops x rs ++
  flat_map (λ f, local_ops x (tf_init f))
    (filter (λ f, negb (before_clients f) && bool_decide (f_name (tf_src f) ≠ clients_file)) (tp_files p)).
(** The same before compilation: the tests as the developer runs them *)
Definition original_ops (x : string) (p : tpackage) : list vop :=
  flat_map (λ f, local_ops x (tf_init f)) (tp_files p).

(** The registry given these statements and then Get: the i-th statement registers build function i. *)
Definition to_rops (ops : list vop) : list rop :=
  imap (λ i o, match o with VRegister n _ => ORegister n i | VDefault n => OSetDefault n end) ops.
(** What Get builds; [None] when it returns an error without building anything *)
Definition used (ops : list vop) : option source :=
  match invoked (λ f _, RClient f) (to_rops ops ++ [OGet]) with
  | [i] => match ops !! i with Some (VRegister _ s) => Some s | _ => None end
  | _ => None
  end.
