(** * Vocabulary for C38 and C50: Go's grammar of types and its scoping of names *)
From Verif Require Export Imports_Model.

(** A Go type as the Go parser sees it. *)
Inductive gotype :=
  | GName (x : string) | GSel (x y : string) | GStar (g : gotype) | GSlice (g : gotype)
  | GMap (k v : gotype) | GChan (g : gotype) | GRecv (g : gotype) | GSend (g : gotype).

(** Go's grammar of types.  The arrow belongs to the leftmost [chan] possible (Go specification, "Channel types"):
    [chan] followed by an arrow is always a send-only channel. *)
Inductive parses : list tok → gotype → list tok → Prop :=
  | parses_sel x y r : parses (KId x :: KDot :: KId y :: r) (GSel x y) r
  | parses_name x r : (∀ r', r ≠ KDot :: r') → parses (KId x :: r) (GName x) r
  | parses_star s g r : parses s g r → parses (KStar :: s) (GStar g) r
  | parses_slice s g r : parses s g r → parses (KLB :: KRB :: s) (GSlice g) r
  | parses_map s k s' v r : parses s k (KRB :: s') → parses s' v r → parses (KMap :: KLB :: s) (GMap k v) r
  | parses_send s g r : parses s g r → parses (KChan :: KArrow :: s) (GSend g) r
  | parses_recv s g r : parses s g r → parses (KArrow :: KChan :: s) (GRecv g) r
  | parses_chan s g r : (∀ s', s ≠ KArrow :: s') → parses s g r → parses (KChan :: s) (GChan g) r.

(** An import declaration binds a name to a package: the given one or the package's own, which is taken to be
    the last component of its path. *)
Definition binds (lines : list (option string * string)) (name pkg : string) : Prop :=
  (Some name, pkg) ∈ lines ∨ (None, pkg) ∈ lines ∧ name = last_comp pkg.

Section means.
  (** [predeclared]: Go's predeclared type names. *)
  Context (predeclared : string → Prop) (loc : string) (lines : list (option string * string)).
  (** The type that a Go type means in a file of package [loc] with the imports [lines]. *)
  Inductive means : gotype → tname → Prop :=
    | means_basic x : predeclared x → means (GName x) (TBasic x)
    | means_local x : ¬ predeclared x → means (GName x) (TUser loc x)
    | means_sel x y p : binds lines x p → means (GSel x y) (TUser p y)
    | means_star g t : means g t → means (GStar g) (TPointer t)
    | means_slice g t : means g t → means (GSlice g) (TSlice t)
    | means_map g t g' t' : means g t → means g' t' → means (GMap g g') (TMap t t')
    | means_chan g t : means g t → means (GChan g) (TChan t)
    | means_recv g t : means g t → means (GRecv g) (TRecv t)
    | means_send g t : means g t → means (GSend g) (TSend t).

  (** The types that service methods are made of: basic types are predeclared, types of the package itself
      are not; no ellipsis, generics or types that Blueprint does not look into; and no
      (bidirectional) channel of receive-only channels. *)
  Inductive plain : tname → Prop :=
    | plain_basic x : predeclared x → plain (TBasic x)
    | plain_user p x : (p = loc → ¬ predeclared x) → plain (TUser p x)
    | plain_pointer t : plain t → plain (TPointer t)
    | plain_slice t : plain t → plain (TSlice t)
    | plain_map k v : plain k → plain v → plain (TMap k v)
    | plain_chan t : plain t → (∀ t', t ≠ TRecv t') → plain (TChan t)
    | plain_recv t : plain t → plain (TRecv t)
    | plain_send t : plain t → plain (TSend t).
End means.

(** The packages a type name mentions, outside of ellipses and generics. *)
Fixpoint mentions (t : tname) (p : string) : Prop :=
  match t with
  | TUser q _ => p = q
  | TPointer t | TSlice t | TChan t | TRecv t | TSend t => mentions t p
  | TMap k v => mentions k p ∨ mentions v p
  | _ => False
  end.
