(** * What is expected of generated namespaces *)
From Verif Require Export NsBuild_Model.

(** Text that means itself between quotes. *)
Fixpoint plain (s : string) : Prop :=
  match s with EmptyString => True | String c r => c ≠ dquote ∧ c ≠ backslash ∧ c ≠ newline ∧ plain r end.

(** The elements of a list without repetitions, in the order in which they first occur. *)
Fixpoint firsts (l : list string) : list string :=
  match l with [] => [] | x :: r => x :: filter (λ y, y ≠ x) (firsts r) end.

Definition inst_of (o : bop) : option string := match o with OInst n => Some n | _ => None end.
(** What is declared by a call, if it is valid. *)
Definition decl_of (o : bop) : option (string * bsrc) :=
  match o with
  | ODecl n code => Some (n, Raw code)
  | OCtor n c args => match ctor_body c args with Some b => Some (n, Gen b) | None => None end
  | _ => None
  end.
Definition first_decl (n : string) (os : list bop) : option bsrc := snd <$> head (filter (λ d, d.1 = n) (omap decl_of os)).
Definition req_of (o : bop) : option (string * string) := match o with ORequired n d => Some (n, d) | _ => None end.
Definition opt_of (o : bop) : option (string * string) := match o with OOptional n d => Some (n, d) | _ => None end.
Definition last_desc (f : bop → option (string * string)) (n : string) (os : list bop) : option string := snd <$> last (filter (λ d, d.1 = n) (omap f os)).
(** Names and descriptions need no escaping. *)
Definition plain_op (o : bop) : Prop :=
  match o with
  | ORequired n d | OOptional n d => plain n ∧ plain d
  | OInst n | ODecl n _ | OCtor n _ _ => plain n
  end.

(** The value of a constructor argument *)
Definition arg_value (get : string → option val) (a : garg) : option val :=
  match a with GValue v => Some (VStr v) | GNode n _ => get n | GMeta _ => None end.
Definition plain_arg (a : garg) : Prop := match a with GValue v => plain v | GNode n _ => plain n | GMeta _ => True end.
Definition is_meta (a : garg) : Prop := match a with GMeta _ => True | _ => False end.
(** The names of constructor arguments do not get in each other's way. *)
Definition names_ok (c : ctor) (args : list garg) : Prop :=
  ∀ i x n t, tail (c_args c) !! i = Some x → args !! i = Some (GNode n t) →
    x ≠ "n" ∧ x ≠ "_" ∧ x ≠ "nil" ∧ x ≠ c_pkg c ∧
    ∀ j y m u, i < j → tail (c_args c) !! j = Some y → args !! j = Some (GNode m u) → x ≠ y ∧ x ≠ u.
