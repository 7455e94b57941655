(** * What the gotests plugin should do *)
From Coq Require Export Sorted.
From Verif Require Export GoTests_Model GoSrc_Spec.
From stdpp Require Export list.
Set Default Proof Using "Type".

(** ** Test code *)

(** A name with a suffix *)
Definition ends_in (suf s : string) : Prop := ∃ a, s = (a +:+ suf)%string.
Definition sources (p : tpackage) : list file := map tf_src (tp_files p).
Definition registry_value (T : expr) : vexpr := VCall "registry" "NewServiceRegistry" T.

(** A package that Go accepts and the parser handles (see [acceptable]), not called ..._test; no var is declared
    twice, a var initialised by one registry call is a single variable with a name, and the type parameter
    means something. *)
Definition test_package (W : world) (p : tpackage) : Prop :=
  acceptable W (tp_name p) (sources p) ∧ tp_order1 p ≡ₚ tp_files p ∧ tp_order2 p ≡ₚ tp_files p ∧
  ¬ ends_in "_test" (tp_short p) ∧
  (∀ f v f' v' x, f ∈ tp_files p → v ∈ tf_vars f → f' ∈ tp_files p → v' ∈ tf_vars f' →
     x ∈ vs_names v → x ∈ vs_names v' → x ≠ "_" → f = f' ∧ v = v') ∧
  (∀ f v T, f ∈ tp_files p → v ∈ tf_vars f → vs_values v = [registry_value T] →
     ∃ x t, vs_names v = [x] ∧ x ≠ "_" ∧ denotes W (tp_name p) (sources p) (tf_src f) [] T t).

(** The modules: package names are unique. *)
Definition test_modules (W : world) (ms : list tmodule) : Prop :=
  (∀ m p, m ∈ ms → p ∈ tm_packages m → test_package W p) ∧
  (∀ m p m' p', m ∈ ms → p ∈ tm_packages m → m' ∈ ms → p' ∈ tm_packages m' → tp_name p = tp_name p' → m = m' ∧ p = p').

(** Package [p] of module [m] declares [var x = registry.NewServiceRegistry[T](...)] where T means [t]. *)
Definition declares_registry (W : world) (ms : list tmodule) (m : tmodule) (p : tpackage) (x : string) (t : ty) : Prop :=
  m ∈ ms ∧ p ∈ tm_packages m ∧
  ∃ f T, f ∈ tp_files p ∧ VarSpec [x] [registry_value T] ∈ tf_vars f ∧ denotes W (tp_name p) (sources p) (tf_src f) [] T t.

(** ** Which services a registry can hold *)

Definition same_signature (f g : gofunc) : Prop :=
  fn_name f = fn_name g ∧ (fn_args f).*2 = (fn_args g).*2 ∧ (fn_rets f).*2 = (fn_rets g).*2.
(** A service with interface [i] suits a registry of [t]: [t] is that interface, or one all of whose methods
    the service has. *)
Definition suits (L : lookup_iface) (i : siface) (t : ty) : Prop :=
  t = TUser (si_pkg i) (si_name i) ∨
  ∃ pk n j, t = TUser pk n ∧ L pk n = Some j ∧
    ∀ m f, (m, f) ∈ fi_methods j → ∃ g, si_methods i !! m = Some g ∧ same_signature f g.

(** A type all of whose parts were resolved *)
Fixpoint resolved (t : ty) : Prop :=
  match t with
  | TNil => False
  | TSlice t | TEllipsis t | TPtr t | TChan t | TRecv t | TSend t => resolved t
  | TMap k v | TGeneric k v => resolved k ∧ resolved v
  | _ => True
  end.
Definition resolved_ifaces (L : lookup_iface) : Prop :=
  ∀ pk n j m f, L pk n = Some j → (m, f) ∈ fi_methods j → ∀ x t, (x, t) ∈ fn_args f ++ fn_rets f → resolved t.

(** Services to test: they have Go interfaces. *)
Definition suiting (L : lookup_iface) (ss : list tservice) (t : ty) (s : tservice) : Prop :=
  s ∈ ss ∧ ∃ i, ts_iface s = Some i ∧ suits L i t.

(** ** The workspace *)

(** The modules with tests can be copied: two of them, or one and a module already there, do not have the same
    directory name. *)
Definition no_clash (w : workspace) (ms : list tmodule) : Prop :=
  (∀ m, m ∈ ms → (ws_dirs w !! tm_path m = None ∨ ws_dirs w !! tm_path m = Some (tm_dir m)) ∧
     (ws_modules w !! tm_dir m = None ∨ ws_modules w !! tm_dir m = Some (tm_path m))) ∧
  (∀ m m', m ∈ ms → m' ∈ ms → tm_dir m = tm_dir m' ↔ tm_path m = tm_path m').

(** What the generated file of package [pk] registers *)
Definition file_of (b : gmap string (list registration)) (pk : string) : list registration :=
  match b !! pk with Some l => l | None => [] end.

(** ** Running *)

Definition is_test_file (f : tfile) : Prop := ends_in "_test.go" (f_name (tf_src f)).
(** The go tool compiles a file before blueprint_clients.go: it is no _test.go file and its name comes first. *)
Definition runs_first (f : tfile) : Prop :=
  ¬ is_test_file f ∧ String.compare (f_name (tf_src f)) "blueprint_clients.go" = Lt.
Definition about (x : string) (o : iop) : Prop := (∃ n k, o = IRegister x n k) ∨ (∃ n, o = ISetDefault x n).
(** The init code of package [p] about [x] leaves the choice to blueprint_clients.go: it is all in files that
    come after it, does not call SetDefault, and does not register under the name of a service being tested. *)
Definition defers (p : tpackage) (x : string) (ss : list tservice) : Prop :=
  ∀ f o, f ∈ tp_files p → o ∈ tf_init f → about x o →
    ¬ runs_first f ∧ ∃ n k, o = IRegister x n k ∧ n ∉ ts_name <$> ss.

(** The order in which the go tool gives files to the compiler: by name, _test.go files last. *)
Definition name_lt (f g : tfile) : Prop := String.compare (f_name (tf_src f)) (f_name (tf_src g)) = Lt.
Definition go_order (fs : list tfile) : Prop :=
  ∃ l1 l2, fs = l1 ++ l2 ∧ (∀ f, f ∈ l1 → ¬ is_test_file f) ∧ (∀ f, f ∈ l2 → is_test_file f) ∧
    StronglySorted name_lt l1 ∧ StronglySorted name_lt l2.

(** ** Setting of the theorems: test modules, the registries found in them and the services to test, in the order in
    which Go's map iterations happen to deliver them. *)
Definition setting (W : world) (L : lookup_iface) (ms : list tmodule) (rs : list freg) (ss : list tservice) : Prop :=
  test_modules W ms ∧ resolved_ifaces L ∧ rs ≡ₚ found L ms ∧ NoDup (ts_name <$> ss).
(** What a test gets from the registry [x] of package [p] after compilation, and before. *)
Definition tested (st : gstate) (p : tpackage) (x : string) : option source :=
  used (package_ops x p (file_of st.2 (tp_name p))).
Definition tested_locally (p : tpackage) (x : string) : option source := used (original_ops x p).
