(** * Remote calls: what a caller may expect of the arguments and results that are sent *)
From Verif Require Export Rpc_Model.
Set Default Proof Using "Type".

(** The fields of a struct in Go: every name of every declaration; an embedded field is named after its type. *)
Definition type_name (t : ty) : string := match t with TUser u => u.2 | TPtr (TUser u) => u.2 | _ => "" end.
Definition go_fields (ds : list fdecl) : list (string * ty) :=
  ds ≫= λ d, match fd_names d with [] => [(type_name (fd_type d), fd_type d)] | ns => (λ n, (n, fd_type d)) <$> ns end.
(** Go does not accept a struct that declares a field twice. *)
Definition go_code (cd : code) : Prop := ∀ u ds, cd !! u = Some ds → NoDup (go_fields ds).*1.

(** The types that are part of a type. *)
Inductive uses (cd : code) : ty → ty → Prop :=
| uses_refl t : uses cd t t
| uses_ptr t t' : uses cd t t' → uses cd (TPtr t) t'
| uses_key k v t' : uses cd k t' → uses cd (TMap k v) t'
| uses_value k v t' : uses cd v t' → uses cd (TMap k v) t'
| uses_elem t t' : uses cd t t' → uses cd (TSlice t) t'
| uses_field u ds n t t' : cd !! u = Some ds → (n, t) ∈ go_fields ds → uses cd t t' → uses cd (TUser u) t'.

(** The values of a type.  [bits] is the size of an int; float32 values are those that rounding leaves alone. *)
Section values.
  Context (bits : Z) (round32 : N → N) (cd : code).
  Definition signed (n z : Z) : Prop := (- 2 ^ (n - 1) ≤ z < 2 ^ (n - 1))%Z.
  Definition unsigned (n z : Z) : Prop := (0 ≤ z < 2 ^ n)%Z.
  Definition basic_value (b : basic) (v : bval) : Prop :=
    match b, v with
    | BBool, VBool _ | BString, VStr _ => True
    | BInt, VInt z => signed bits z
    | BInt8, VInt z => signed 8 z
    | BInt16, VInt z => signed 16 z
    | (BInt32 | BRune), VInt z => signed 32 z
    | BInt64, VInt z => signed 64 z
    | (BUint8 | BByte), VInt z => unsigned 8 z
    | BUint16, VInt z => unsigned 16 z
    | BUint32, VInt z => unsigned 32 z
    | (BUint | BUint64), VInt z => unsigned 64 z
    | BFloat32, VFloat x => round32 x = x
    | BFloat64, VFloat _ => True
    | _, _ => False
    end.
  Inductive has_type : gval → ty → Prop :=
  | ht_basic b v : basic_value b v → has_type (VB v) (TBasic b)
  | ht_struct u ds fs :
      cd !! u = Some ds → Forall2 (λ (f : string * gval) (d : string * ty), f.1 = d.1 ∧ has_type f.2 d.2) fs (go_fields ds) →
      has_type (VS fs) (TUser u)
  | ht_nil t : has_type (VP None) (TPtr t)
  | ht_ptr v t : has_type v t → has_type (VP (Some v)) (TPtr t)
  | ht_nil_map k v : has_type (VM None) (TMap k v)
  | ht_map l k v : Forall (λ e : bval * gval, has_type (VB e.1) k ∧ has_type e.2 v) l → has_type (VM (Some l)) (TMap k v)
  | ht_nil_slice t : has_type (VL None) (TSlice t)
  | ht_slice l t : Forall (λ v, has_type v t) l → has_type (VL (Some l)) (TSlice t).
End values.

(** The strings in a value. *)
Fixpoint strings_in (v : gval) : list string :=
  let str := λ b, match b with VStr s => [s] | _ => [] end in
  match v with
  | VB b => str b
  | VS fs => (fix go fs := match fs with [] => [] | (_, x) :: r => strings_in x ++ go r end) fs
  | VP None | VM None | VL None => []
  | VP (Some v) => strings_in v
  | VM (Some l) => (fix go l := match l with [] => [] | (k, x) :: r => str k ++ strings_in x ++ go r end) l
  | VL (Some l) => (fix go l := match l with [] => [] | x :: r => strings_in x ++ go r end) l
  end.

(** Two values are equal, but that a nil slice and an empty one are not told apart. *)
Inductive alike : gval → gval → Prop :=
| alike_basic b : alike (VB b) (VB b)
| alike_struct fs ws :
    (∀ n v, lookup_field n fs = Some v → ∃ w, lookup_field n ws = Some w ∧ alike v w) →
    (∀ n, lookup_field n fs = None → lookup_field n ws = None) →
    alike (VS fs) (VS ws)
| alike_slice o o' : Forall2 alike (default [] o) (default [] o') → alike (VL o) (VL o').

(** What arrives of a value: [None] is the zero value of the type.  Of a struct, the fields that are the first
    of their declaration; of a map, nothing. *)
Inductive arrives (cd : code) : ty → gval → option gval → Prop :=
| arr_basic b v : arrives cd (TBasic b) (VB v) (Some (VB v))
| arr_slice t o o' :
    Forall2 (λ v w, arrives cd t v (Some w)) (default [] o) (default [] o') → arrives cd (TSlice t) (VL o) (Some (VL o'))
| arr_struct u ds fs ws :
    cd !! u = Some ds →
    (∀ n ns t v, Fdecl (n :: ns) t ∈ ds → lookup_field n fs = Some v → arrives cd t v (lookup_field n ws)) →
    (∀ n, (∀ ns t, Fdecl (n :: ns) t ∉ ds) → lookup_field n ws = None) →
    arrives cd (TUser u) (VS fs) (Some (VS ws))
| arr_map k t o w : w = None ∨ w = Some (VM (Some [])) → arrives cd (TMap k t) (VM o) w.

(** A type whose every value holds a pointer to a struct that has fields. *)
Inductive holds_pointer (cd : code) : ty → Prop :=
| hp_pointer u ds n ns t : cd !! u = Some ds → Fdecl (n :: ns) t ∈ ds → holds_pointer cd (TPtr (TUser u))
| hp_field u ds n ns t : cd !! u = Some ds → Fdecl (n :: ns) t ∈ ds → holds_pointer cd t → holds_pointer cd (TUser u).

Definition no_pointers (cd : code) (ts : list ty) : Prop := ∀ t t', t ∈ ts → ¬ uses cd t (TPtr t').
Definition no_maps (cd : code) (ts : list ty) : Prop := ∀ t k v, t ∈ ts → ¬ uses cd t (TMap k v).
(** Every field of a struct has a declaration of its own, with a name. *)
Definition plain_fields (cd : code) (ts : list ty) : Prop :=
  ∀ t u ds d, t ∈ ts → uses cd t (TUser u) → cd !! u = Some ds → d ∈ ds → ∃ n, fd_names d = [n].
