(** * What Go source declares

    The scoping rules of Go, for the part of the language in [GoSrc_Model], and what a package of given
    source files contains. *)
From Verif Require Import GoSrc_Model.

(** What is known about other packages: the name each declares for itself, and the types it exports. *)
Record world := World { own_name : string → string; exports : string → string → Prop }.

(** ** Declarations *)
Definition declares_type (fs : list file) (f : file) (n : string) (tps : list string) (b : type_body) : Prop :=
  f ∈ fs ∧ DType n tps b ∈ f_decls f.
Definition declares_func (fs : list file) (f : file) (n : string) (s : signature) : Prop :=
  f ∈ fs ∧ DFunc None n s ∈ f_decls f.
Definition declares_method (fs : list file) (f : file) (st n : string) (s : signature) : Prop :=
  f ∈ fs ∧ (DFunc (Some (EIdent st)) n s ∈ f_decls f ∨ DFunc (Some (EStar (EIdent st))) n s ∈ f_decls f).
Definition is_type (fs : list file) (n : string) : Prop := ∃ f tps b, declares_type fs f n tps b.
Definition is_struct (fs : list file) (n : string) : Prop := ∃ f tps es, declares_type fs f n tps (BStruct es).
Definition is_iface (fs : list file) (n : string) : Prop := ∃ f tps ms, declares_type fs f n tps (BInterface ms).
Definition iface_method (fs : list file) (f : file) (i n : string) (s : signature) : Prop :=
  ∃ tps ms, declares_type fs f i tps (BInterface ms) ∧ MMethod n s ∈ ms.

(** ** Names *)

(** [f] imports the package [p] under the name [x]. *)
Definition imports_as (W : world) (f : file) (x p : string) : Prop :=
  (Some x, p) ∈ f_imports f ∨ ((None, p) ∈ f_imports f ∧ x = own_name W p).
(** The type name [n] comes from a dot import. *)
Definition dot_type (W : world) (f : file) (p n : string) : Prop := imports_as W f "." p ∧ exports W p n.

(** What a type expression in file [f] of package [pkg] stands for, inside a declaration with type
    parameters [tps]: a type parameter hides a declared type, which hides a predeclared one.  The lengths of
    arrays, the contents of literals and type arguments are not represented in [ty]. *)
Inductive denotes (W : world) (pkg : string) (fs : list file) (f : file) (tps : list string) : expr → ty → Prop :=
| den_param n : n ∈ tps → denotes W pkg fs f tps (EIdent n) (TParam n)
| den_local n : n ∉ tps → is_type fs n → denotes W pkg fs f tps (EIdent n) (TUser pkg n)
| den_dot p n : n ∉ tps → ¬ is_type fs n → dot_type W f p n → denotes W pkg fs f tps (EIdent n) (TUser p n)
| den_basic n : n ∉ tps → ¬ is_type fs n → (∀ p, ¬ dot_type W f p n) → n ∈ basics →
    denotes W pkg fs f tps (EIdent n) (TBasic n)
| den_any : "any" ∉ tps → ¬ is_type fs "any" → (∀ p, ¬ dot_type W f p "any") →
    denotes W pkg fs f tps (EIdent "any") TAny
| den_sel x p n : x ≠ "." → x ≠ "_" → imports_as W f x p → denotes W pkg fs f tps (ESelector (EIdent x) n) (TUser p n)
| den_array len e t : denotes W pkg fs f tps e t → denotes W pkg fs f tps (EArray len e) (TSlice t)
| den_map k v t u : denotes W pkg fs f tps k t → denotes W pkg fs f tps v u → denotes W pkg fs f tps (EMap k v) (TMap t u)
| den_star e t : denotes W pkg fs f tps e t → denotes W pkg fs f tps (EStar e) (TPtr t)
| den_ellipsis e t : denotes W pkg fs f tps e t → denotes W pkg fs f tps (EEllipsis e) (TEllipsis t)
| den_chan e t : denotes W pkg fs f tps e t → denotes W pkg fs f tps (EChan CBoth e) (TChan t)
| den_send e t : denotes W pkg fs f tps e t → denotes W pkg fs f tps (EChan CSend e) (TSend t)
| den_recv e t : denotes W pkg fs f tps e t → denotes W pkg fs f tps (EChan CRecv e) (TRecv t)
| den_interface s : denotes W pkg fs f tps (EInterface s) TIface
| den_func s : denotes W pkg fs f tps (EFunc s) TFunc
| den_struct s : denotes W pkg fs f tps (EStruct s) TStruct
| den_index e a t : denotes W pkg fs f tps e t → denotes W pkg fs f tps (EIndex e a) (TGeneric t TNil).

(** "a, b int, string" has the parameters a int, b int and an unnamed string. *)
Fixpoint expand (ps : fields) : list (string * expr) :=
  match ps with
  | [] => []
  | ([], e) :: ps => ("", e) :: expand ps
  | (ns, e) :: ps => map (λ n, (n, e)) ns ++ expand ps
  end.
Definition fields_denote (W : world) (pkg : string) (fs : list file) (f : file) (tps : list string) (ps : fields) (ts : list (string * ty)) : Prop :=
  Forall2 (λ a b, a.1 = b.1 ∧ denotes W pkg fs f tps a.2 b.2) (expand ps) ts.
(** [g] is the function [n] with signature [s]. *)
Definition func_denotes (W : world) (pkg : string) (fs : list file) (f : file) (n : string) (s : signature) (g : gofunc) : Prop :=
  fn_name g = n ∧ fields_denote W pkg fs f (sg_tparams s) (sg_params s) (fn_args g) ∧
  fields_denote W pkg fs f (sg_tparams s) (sg_results s) (fn_rets g).

(** [p] is what the files [fs] declare: their interfaces, structs and functions, with the types their
    signatures stand for, and nothing else.  The names "_" and (of functions) "init" may be declared many
    times and cannot be referred to, so they need not all be there. *)
Definition describes (W : world) (pkg : string) (fs : list file) (p : package) : Prop :=
  pk_name p = pkg ∧
  (∀ n, is_Some (pk_ifaces p !! n) ↔ is_iface fs n) ∧
  (∀ n, is_Some (pk_structs p !! n) ↔ is_struct fs n) ∧
  (∀ i m g, (∃ ms, pk_ifaces p !! i = Some ms ∧ ms !! m = Some g) →
     ∃ f s, iface_method fs f i m s ∧ func_denotes W pkg fs f m s g) ∧
  (∀ i m g f s, i ≠ "_" → m ≠ "_" → iface_method fs f i m s → func_denotes W pkg fs f m s g →
     ∃ ms, pk_ifaces p !! i = Some ms ∧ ms !! m = Some g) ∧
  (∀ st m g, (∃ ms, pk_structs p !! st = Some ms ∧ ms !! m = Some g) →
     ∃ f s, declares_method fs f st m s ∧ func_denotes W pkg fs f m s g) ∧
  (∀ st m g f s, m ≠ "_" → declares_method fs f st m s → func_denotes W pkg fs f m s g →
     ∃ ms, pk_structs p !! st = Some ms ∧ ms !! m = Some g) ∧
  (∀ n g, pk_funcs p !! n = Some g → ∃ f s, declares_func fs f n s ∧ func_denotes W pkg fs f n s g) ∧
  (∀ n g f s, n ≠ "_" → n ≠ "init" → declares_func fs f n s → func_denotes W pkg fs f n s g → pk_funcs p !! n = Some g).

(** ** Sources the parser handles *)

(** What the Go compiler guarantees: nothing is declared twice, and every type expression has a meaning. *)
Definition no_redeclaration (fs : list file) : Prop :=
  (∀ n f tps b f' tps' b', n ≠ "_" → declares_type fs f n tps b → declares_type fs f' n tps' b' →
     f = f' ∧ tps = tps' ∧ b = b') ∧
  (∀ f tps i ms n s s', n ≠ "_" → declares_type fs f i tps (BInterface ms) → MMethod n s ∈ ms → MMethod n s' ∈ ms → s = s') ∧
  (∀ st n f s f' s', n ≠ "_" → declares_method fs f st n s → declares_method fs f' st n s' → f = f' ∧ s = s') ∧
  (∀ n f s f' s', n ≠ "_" → n ≠ "init" → declares_func fs f n s → declares_func fs f' n s' → f = f' ∧ s = s').
Definition sig_typed (W : world) (pkg : string) (fs : list file) (f : file) (s : signature) : Prop :=
  ∀ ns e, (ns, e) ∈ sg_params s ++ sg_results s → ∃ t, denotes W pkg fs f (sg_tparams s) e t.
Definition well_typed (W : world) (pkg : string) (fs : list file) : Prop :=
  (∀ f n tps ms m s, declares_type fs f n tps (BInterface ms) → MMethod m s ∈ ms → sig_typed W pkg fs f s) ∧
  (∀ f n tps es e, declares_type fs f n tps (BStruct es) → e ∈ es → ∃ t, denotes W pkg fs f tps e t) ∧
  (∀ f r n s, f ∈ fs → DFunc r n s ∈ f_decls f → sig_typed W pkg fs f s).

(** What the parser needs beyond that.  Interfaces embed nothing; methods belong to structs, and functions
    and the receivers of methods have no type parameters; ... *)
Definition plain (fs : list file) : Prop :=
  (∀ f n tps ms e, declares_type fs f n tps (BInterface ms) → MEmbedded e ∉ ms) ∧
  (∀ f n tps ms m s, declares_type fs f n tps (BInterface ms) → MMethod m s ∈ ms → sg_tparams s = []) ∧
  (∀ f r n s, f ∈ fs → DFunc r n s ∈ f_decls f → sg_tparams s = []) ∧
  (∀ f r n s, f ∈ fs → DFunc (Some r) n s ∈ f_decls f → ∃ st, (r = EIdent st ∨ r = EStar (EIdent st)) ∧ is_struct fs st).
(** ... no type hides a predeclared one or a type of the package; ... *)
Definition no_hiding (W : world) (fs : list file) : Prop :=
  (∀ n, n ∈ "any" :: basics → ¬ is_type fs n ∧ (∀ f p, f ∈ fs → ¬ dot_type W f p n)) ∧
  (∀ f n tps b x, declares_type fs f n tps b → x ∈ tps → x ∉ "any" :: basics ∧ ¬ is_type fs x).
(** ... a file has at most one dot import, does not use a name for two packages, and a package imported
    without a name is called like the last element of its path. *)
Definition plain_imports (W : world) (f : file) : Prop :=
  (∀ p, (None, p) ∈ f_imports f → own_name W p = last_from "" p ∧ own_name W p ≠ "." ∧ own_name W p ≠ "_") ∧
  (∀ x p q, x ≠ "_" → imports_as W f x p → imports_as W f x q → p = q) ∧
  length (dot_imports f) ≤ 1.

Definition acceptable (W : world) (pkg : string) (fs : list file) : Prop :=
  no_redeclaration fs ∧ well_typed W pkg fs ∧ plain fs ∧ no_hiding W fs ∧ Forall (plain_imports W) fs.
