(** * Model of the Go source parser: plugins/golang/goparser/parser.go, plugins/golang/gocode/{typename,service}.go

    Source files are abstract syntax trees, as go/parser delivers them; go/parser itself, go.mod files and
    the file system are not modelled. *)
From stdpp Require Export gmap strings list fin_maps.
From Coq Require Export Ascii.
Set Default Proof Using "Type".
Open Scope string_scope.
Open Scope list_scope.

(** typename.go:13-17, 128-258.  [TNil] is the nil value of the Go interface type [TypeName], which stands
    inside other types where a part could not be resolved. *)
Inductive ty :=
| TBasic (n : string) | TUser (pkg n : string)
| TSlice (t : ty) | TEllipsis (t : ty) | TPtr (t : ty) | TMap (k v : ty)
| TChan (t : ty) | TRecv (t : ty) | TSend (t : ty)
| TIface | TAny | TFunc | TStruct
| TGeneric (base param : ty) | TParam (n : string)
| TNil.
Global Instance ty_eq_dec : EqDecision ty.
Proof. solve_decision. Defined.

(** a && b where evaluating either may panic *)
Definition andp (a b : option bool) : option bool :=
  match a with Some true => b | _ => a end.

(** typename.go:342-493.  [None] is a nil dereference: a method call on a nil [TypeName]. *)
Fixpoint ty_equals (t o : ty) {struct t} : option bool :=
  match t with
  | TNil => None
  | TBasic n => Some match o with TBasic m => bool_decide (n = m) | _ => false end
  | TUser p n => Some match o with TUser q m => bool_decide (p = q) && bool_decide (n = m) | _ => false end
  | TSlice t => match o with TSlice o => ty_equals t o | _ => Some false end
  | TEllipsis t => match o with TEllipsis o => ty_equals t o | _ => Some false end
  | TPtr t => match o with TPtr o => ty_equals t o | _ => Some false end
  | TMap k v => match o with TMap j w => andp (ty_equals k j) (ty_equals v w) | _ => Some false end
  | TChan t => match o with TChan o => ty_equals t o | _ => Some false end
  | TRecv t => match o with TRecv o => ty_equals t o | _ => Some false end
  | TSend t => match o with TSend o => ty_equals t o | _ => Some false end
  | TIface => Some match o with TIface => true | _ => false end
  | TAny => Some match o with TAny => true | _ => false end
  | TFunc => Some match o with TFunc => true | _ => false end
  | TStruct => Some match o with TStruct => true | _ => false end
  | TGeneric b p => match o with TGeneric c q => andp (ty_equals b c) (ty_equals p q) | _ => Some false end
  | TParam n => Some match o with TParam m => bool_decide (n = m) | _ => false end
  end.

(** service.go:14-25; goparser/parser.go:92-98.  Names and types of arguments and return values. *)
Record gofunc := Func { fn_name : string; fn_args : list (string * ty); fn_rets : list (string * ty) }.
Global Instance gofunc_eq_dec : EqDecision gofunc.
Proof. solve_decision. Defined.

(** service.go:100-113 *)
Fixpoint same_types (a b : list (string * ty)) : option bool :=
  match a, b with
  | [], [] => Some true
  | (_, t) :: a, (_, u) :: b => andp (ty_equals t u) (same_types a b)
  | _, _ => Some false
  end.
(** len(a) != len(b) is tested before the types. *)
Definition same_types_checked (a b : list (string * ty)) : option bool :=
  if bool_decide (length a = length b) then same_types a b else Some false.

(** service.go:115-117 *)
Definition func_equals (f g : gofunc) : option bool :=
  andp (Some (bool_decide (fn_name f = fn_name g)))
    (andp (same_types_checked (fn_args f) (fn_args g)) (same_types_checked (fn_rets f) (fn_rets g))).

(** ** Source *)

(** Type expressions of go/ast.  The length of an array, the contents of func, interface and struct type
    literals and type arguments are source text that the parser does not look at. *)
Inductive chan_dir := CBoth | CSend | CRecv.
Inductive expr :=
| EIdent (n : string)
| EArray (len : string) (e : expr)
| EMap (k v : expr)
| EInterface (src : string)
| ESelector (x : expr) (sel : string)
| EStar (e : expr)
| EEllipsis (e : expr)
| EChan (d : chan_dir) (e : expr)
| EFunc (src : string)
| EStruct (src : string)
| EIndex (x : expr) (args : string)
| EOther (src : string).    (* anything else, such as a parenthesised type *)

(** A parameter or result list: each entry has the names sharing the type, or none. *)
Notation fields := (list (list string * expr)).
(** The type parameters are in the syntax tree, but the parser does not look at them. *)
Record signature := Sig { sg_tparams : list string; sg_params : fields; sg_results : fields }.

(** An element of an interface type: a method or an embedded type. *)
Inductive member := MMethod (n : string) (s : signature) | MEmbedded (e : expr).
Inductive type_body :=
| BInterface (ms : list member)
| BStruct (fs : list expr)    (* one type per field declaration *)
| BOther.
Inductive decl :=
| DType (n : string) (tparams : list string) (b : type_body)
| DFunc (recv : option expr) (n : string) (s : signature)
| DOther.
(** Imports are (name, path) with the name optional. *)
Record file := File { f_name : string; f_imports : list (option string * string); f_decls : list decl }.

(** ** Loading *)

(** strings.Split(pkg, "/")[len-1] *)
Fixpoint last_from (cur s : string) : string :=
  match s with
  | EmptyString => cur
  | String c r => if bool_decide (c = "/"%char) then last_from "" r else last_from (cur +:+ String c "") r
  end.
(** parser.go:468-480: the name a package is imported as *)
Definition imported_as (i : option string * string) : string :=
  match i.1 with Some n => n | None => last_from "" i.2 end.
(** parser.go:459-489: named imports, the last declaration of a name winning, and dot imports *)
Definition named_imports (f : file) : gmap string string :=
  foldl (λ m i, if bool_decide (imported_as i = ".") then m else <[imported_as i := i.2]> m) ∅ (f_imports f).
Definition dot_imports (f : file) : list string :=
  (filter (λ i, imported_as i = ".") (f_imports f)).*2.

(** parser.go:48-98: what [Load] collects.  A method or function is kept with the file it is in. *)
Record rstruct := RStruct { rs_file : file; rs_tparams : list string; rs_fields : list expr; rs_methods : gmap string (file * signature) }.
Record loaded := Loaded {
  ld_types : gset string;
  ld_structs : gmap string rstruct;
  ld_ifaces : gmap string (gmap string (file * signature));
  ld_funcs : gmap string (file * signature) }.
Definition empty_loaded : loaded := Loaded ∅ ∅ ∅ ∅.

(** parser.go:539-551: the methods of an interface, and whether an embedded type stopped the loop *)
Fixpoint load_members (f : file) (ms : list member) (acc : gmap string (file * signature)) : gmap string (file * signature) * bool :=
  match ms with
  | [] => (acc, true)
  | MMethod n s :: ms => load_members f ms (<[n := (f, s)]> acc)
  | MEmbedded _ :: _ => (acc, false)
  end.
(** parser.go:496-589: [LoadStructsAndInterfaces]; [false] when it returns an error *)
Fixpoint load_types (f : file) (ds : list decl) (l : loaded) : loaded * bool :=
  match ds with
  | [] => (l, true)
  | DType n tps b :: ds =>
      let l := Loaded ({[n]} ∪ ld_types l) (ld_structs l) (ld_ifaces l) (ld_funcs l) in
      match b with
      | BInterface ms =>
          let '(m, ok) := load_members f ms ∅ in
          let l := Loaded (ld_types l) (ld_structs l) (<[n := m]> (ld_ifaces l)) (ld_funcs l) in
          if ok then load_types f ds l else (l, false)
      | BStruct fs =>
          load_types f ds (Loaded (ld_types l) (<[n := RStruct f tps fs ∅]> (ld_structs l)) (ld_ifaces l) (ld_funcs l))
      | BOther => load_types f ds l
      end
  | _ :: ds => load_types f ds l
  end.
(** parser.go:652-674: the receiver's name; "" for anything but a name or a pointer to a name, which no
    struct has (the branch that returns an error at once has the same effect) *)
Definition receiver_name (e : expr) : string :=
  match e with EStar (EIdent n) => n | EIdent n => n | _ => "" end.
(** parser.go:628-684: [LoadFuncs] *)
Fixpoint load_funcs (f : file) (ds : list decl) (l : loaded) : loaded * bool :=
  match ds with
  | [] => (l, true)
  | DFunc None n s :: ds =>
      load_funcs f ds (Loaded (ld_types l) (ld_structs l) (ld_ifaces l) (<[n := (f, s)]> (ld_funcs l)))
  | DFunc (Some r) n s :: ds =>
      match ld_structs l !! receiver_name r with
      | Some st =>
          let st := RStruct (rs_file st) (rs_tparams st) (rs_fields st) (<[n := (f, s)]> (rs_methods st)) in
          load_funcs f ds (Loaded (ld_types l) (<[receiver_name r := st]> (ld_structs l)) (ld_ifaces l) (ld_funcs l))
      | None => (l, false)
      end
  | _ :: ds => load_funcs f ds l
  end.
(** A loop over files that stops at the first error *)
Fixpoint over_files (g : file → list decl → loaded → loaded * bool) (fs : list file) (l : loaded) : loaded * bool :=
  match fs with
  | [] => (l, true)
  | f :: fs => let '(l, ok) := g f (f_decls f) l in if ok then over_files g fs l else (l, false)
  end.
(** parser.go:227-279.  [fs1] and [fs2] are the package's files in the two orders in which Go's map iteration
    happens to deliver them.  The error is dropped by the caller (parser.go:216), so what was loaded before
    it is what there is.  [LoadVars] is left out: it never fails. *)
Definition load_package (fs1 fs2 : list file) : loaded :=
  let '(l, ok) := over_files load_types fs1 empty_loaded in
  if ok then (over_files load_funcs fs2 l).1 else l.

(** ** Resolving *)

(** typename.go:36-55 *)
Definition basics : list string :=
  ["bool"; "string"; "int"; "int8"; "int16"; "int32"; "int64"; "uint"; "uint8"; "uint16"; "uint32"; "uint64";
   "byte"; "rune"; "float32"; "float64"; "complex64"; "complex128"; "error"].

(** parser.go:373-399.  [pkg] and [types] are the file's package and the types declared in it. *)
Definition resolve_ident (pkg : string) (types : gset string) (f : file) (tps : list string) (n : string) : ty :=
  if bool_decide (n ∈ basics) then TBasic n
  else if bool_decide (n = "any") then TAny
  else if bool_decide (n ∈ types) then TUser pkg n
  else if bool_decide (n ∈ tps) then TParam n
  else match dot_imports f with [p] => TUser p n | _ => TNil end.

(** parser.go:401-409 *)
Definition resolve_selector (f : file) (x n : string) : ty :=
  match named_imports f !! x with Some p => TUser p n | None => TNil end.

(** parser.go:413-457 *)
Fixpoint resolve (pkg : string) (types : gset string) (f : file) (tps : list string) (e : expr) : ty :=
  match e with
  | EIdent n => resolve_ident pkg types f tps n
  | EArray _ e => TSlice (resolve pkg types f tps e)
  | EMap k v => TMap (resolve pkg types f tps k) (resolve pkg types f tps v)
  | EInterface _ => TIface
  | ESelector (EIdent x) n => resolve_selector f x n
  | ESelector _ _ => TNil
  | EStar e => TPtr (resolve pkg types f tps e)
  | EEllipsis e => TEllipsis (resolve pkg types f tps e)
  | EChan CSend e => TSend (resolve pkg types f tps e)
  | EChan CRecv e => TRecv (resolve pkg types f tps e)
  | EChan CBoth e => TChan (resolve pkg types f tps e)
  | EFunc _ => TFunc
  | EStruct _ => TStruct
  | EIndex x _ => TGeneric (resolve pkg types f tps x) TNil
  | EOther _ => TNil
  end.

(** parser.go:324-342, 343-361: one parameter or result list; [None] is the "unable to resolve" error *)
Fixpoint parse_fields (pkg : string) (types : gset string) (f : file) (ps : fields) : option (list (string * ty)) :=
  match ps with
  | [] => Some []
  | (ns, e) :: ps =>
      match resolve pkg types f [] e with
      | TNil => None
      | t => match parse_fields pkg types f ps with
             | Some r => Some (match ns with [] => [("", t)] | _ => map (λ n, (n, t)) ns end ++ r)%list
             | None => None
             end
      end
  end.
(** parser.go:323-363 *)
Definition parse_func (pkg : string) (types : gset string) (n : string) (fs : file * signature) : option gofunc :=
  match parse_fields pkg types fs.1 (sg_params fs.2), parse_fields pkg types fs.1 (sg_results fs.2) with
  | Some a, Some r => Some (Func n a r)
  | _, _ => None
  end.

(** A loop over a Go map that stops at the first error; the order only matters to which error is reported. *)
Definition all_ok {A B} (g : string → A → option B) (m : gmap string A) : option (gmap string B) :=
  if bool_decide (map_Forall (λ n x, is_Some (g n x)) m) then Some (map_imap g m) else None.

(** parser.go:48-61 after [Parse] *)
Record package := Package {
  pk_name : string;
  pk_ifaces : gmap string (gmap string gofunc);
  pk_structs : gmap string (gmap string gofunc);
  pk_funcs : gmap string gofunc }.
(** parser.go:315-321: the fields of a struct *)
Definition fields_ok (pkg : string) (types : gset string) (s : rstruct) : bool :=
  forallb (λ e, bool_decide (resolve pkg types (rs_file s) (rs_tparams s) e ≠ TNil)) (rs_fields s).
(** parser.go:281-313; each error ends the parsing of the module *)
Definition parse_package (pkg : string) (l : loaded) : option package :=
  match all_ok (λ _, all_ok (parse_func pkg (ld_types l))) (ld_ifaces l),
        all_ok (λ _ s, if fields_ok pkg (ld_types l) s then all_ok (parse_func pkg (ld_types l)) (rs_methods s) else None) (ld_structs l),
        all_ok (parse_func pkg (ld_types l)) (ld_funcs l) with
  | Some i, Some s, Some f => Some (Package pkg i s f)
  | _, _, _ => None
  end.
(** One package of a module, from its source; the orders as for [load_package]. *)
Definition source_package (pkg : string) (fs1 fs2 : list file) : option package :=
  parse_package pkg (load_package fs1 fs2).
