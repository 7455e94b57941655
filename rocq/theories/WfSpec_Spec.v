(** * What a workflow service is *)
From Verif Require Import GoSrc_Model GoSrc_Spec WfSpec_Model.

Definition fair (o : order) : Prop := ∀ A n (l : list A), ord o A n l ≡ₚ l.

(** The package [p] of some module in the set declares [x], as an interface, struct or function according to
    [part]. *)
Definition in_set {A} (ms : modset) (part : package → gmap string A) (x : found A) : Prop :=
  ∃ m pkgs k p, ms !! m = Some pkgs ∧ pkgs !! k = Some p ∧ pk_name p = fd_pkg x ∧ part p !! fd_name x = Some (fd_val x).
(** Packages are filed under their names. *)
Definition filed (ms : modset) : Prop := ∀ m pkgs k p, ms !! m = Some pkgs → pkgs !! k = Some p → pk_name p = k.

(** Every method takes a context first and returns an error last. *)
Definition context_type : ty := TUser "context" "Context".
Definition error_type : ty := TBasic "error".
Definition service_method (f : gofunc) : Prop :=
  (∃ a args, fn_args f = (a, context_type) :: args) ∧ (∃ rets e, fn_rets f = rets ++ [(e, error_type)]).
Definition service_iface (i : methods) : Prop := ∀ n f, i !! n = Some f → service_method f.

(** Takes a context first and returns a [t] and an error. *)
Definition constructor_of (t : ty) (f : gofunc) : Prop :=
  (∃ a args, fn_args f = (a, context_type) :: args) ∧ (∃ r e, fn_rets f = [(r, t); (e, error_type)]).

(** Every method of [i] is a method of [s] with the same types. *)
Definition satisfies (s i : methods) : Prop :=
  ∀ n f, i !! n = Some f → ∃ g, s !! n = Some g ∧ fn_name g = fn_name f ∧
    (fn_args g).*2 = (fn_args f).*2 ∧ (fn_rets g).*2 = (fn_rets f).*2.

(** Types without generic types, and without names that could not be resolved. *)
Fixpoint comparable_type (t : ty) : Prop :=
  match t with
  | TNil | TGeneric _ _ => False
  | TSlice t | TEllipsis t | TPtr t | TChan t | TRecv t | TSend t => comparable_type t
  | TMap k v => comparable_type k ∧ comparable_type v
  | _ => True
  end.
Definition comparable (i : methods) : Prop :=
  ∀ n f v, i !! n = Some f → v ∈ fn_args f ++ fn_rets f → comparable_type v.2.
Definition all_comparable (ms : modset) : Prop := ∀ i, in_set ms pk_ifaces i → comparable (fd_val i).

(** [sv] is a service for the type [n] of package [pkg] in module [m]: a service interface of the set, a
    struct of the set that satisfies it, and a constructor of the set.  If [n] is an interface it is that
    interface, and the constructor returns it.  If [n] is a struct it is that struct, and the constructor
    returns a pointer to it. *)
Definition service_for (ms : modset) (m pkg n : string) (sv : service) : Prop :=
  ∃ pkgs p, ms !! m = Some pkgs ∧ pkgs !! pkg = Some p ∧
  in_set ms pk_ifaces (sv_iface sv) ∧ in_set ms pk_structs (sv_struct sv) ∧ in_set ms pk_funcs (sv_constructor sv) ∧
  service_iface (fd_val (sv_iface sv)) ∧ satisfies (fd_val (sv_struct sv)) (fd_val (sv_iface sv)) ∧
  ((∃ i, pk_ifaces p !! n = Some i ∧ sv_iface sv = Found pkg n i ∧
         constructor_of (TUser pkg n) (fd_val (sv_constructor sv))) ∨
   (pk_ifaces p !! n = None ∧ ∃ s, pk_structs p !! n = Some s ∧ sv_struct sv = Found pkg n s ∧
         constructor_of (TPtr (TUser pkg n)) (fd_val (sv_constructor sv)))).

(** The types of a signature in the source. *)
Definition sig_types (W : world) (pkg : string) (fs : list file) (f : file) (s : signature) (args rets : list ty) : Prop :=
  ∃ a r, fields_denote W pkg fs f (sg_tparams s) (sg_params s) a ∧ fields_denote W pkg fs f (sg_tparams s) (sg_results s) r ∧
    a.*2 = args ∧ r.*2 = rets.
