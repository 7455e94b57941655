(** * Model of how a generated process gets its arguments, runtime/plugins/golang/namespace.go *)
From stdpp Require Export gmap list.
From Verif Require Export Names_Model.

(** What a name is defined as: by [Set] (121-124) the value, by [Define] (130-135) some build function of
    the program, or the function that only fails, of an optional argument nobody gave (329-333). *)
Inductive def := DValue (v : bytes) | DUser (k : nat) | DUnset.

(** 40-66: a NamespaceBuilder (without the list of nodes to instantiate, see RunNS for that). *)
Record builder := Builder {
  funcs : gmap bytes def;
  required : gset bytes;
  optional : gset bytes;
  parsed : bool }.
Definition new_builder : builder := Builder ∅ ∅ ∅ false.   (* 99-110 *)

Inductive op :=
| OSet (n v : bytes)
| ODefine (n : bytes) (k : nat)
| ORequired (n : bytes)
| OOptional (n : bytes).

Definition define (n : bytes) (d : def) (b : builder) : builder := Builder (<[n := d]> (funcs b)) (required b) (optional b) (parsed b).
(** [flags]: the names in the process-wide flag set.  flag.String (179, 191) panics when a flag is
    registered twice ([None]); the panics for names starting with "-" or holding "=" are not modelled. *)
Definition apply_op (o : op) (st : gset bytes * builder) : option (gset bytes * builder) :=
  let '(flags, b) := st in
  match o with
  | OSet n v => Some (flags, define n (DValue v) b)
  | ODefine n k => Some (flags, define n (DUser k) b)
  | ORequired n =>
      if bool_decide (n ∈ flags) then None
      else Some ({[n]} ∪ flags, Builder (funcs b) ({[n]} ∪ required b) (optional b) (parsed b))
  | OOptional n =>
      if bool_decide (n ∈ flags) then None
      else Some ({[n]} ∪ flags, Builder (funcs b) (required b) ({[n]} ∪ optional b) (parsed b))
  end.
Fixpoint apply_ops (os : list op) (st : gset bytes * builder) : option (gset bytes * builder) :=
  match os with
  | [] => Some st
  | o :: os => match apply_op o st with Some st' => apply_ops os st' | None => None end
  end.

(** What the process was started with: the flags on the command line, and the environment.  (Flags that
    are not registered make flag.Parse exit; that is not modelled.) *)
Record world := World { cmd : bytes → option bytes; env : bytes → option bytes }.
Definition flag_value (w : world) (n : bytes) : bytes := default [] (cmd w n).                    (* *node.flag *)
Definition env_value (w : world) (n : bytes) : bytes := default [] (env w (runtime_env_var n)).   (* os.Getenv *)

(** 305-316, 318-335: the loop bodies. *)
Definition parse_required (w : world) (b : builder) (n : bytes) : builder :=
  match funcs b !! n with
  | Some _ => b
  | None =>
      if bool_decide (flag_value w n ≠ []) then define n (DValue (flag_value w n)) b
      else if bool_decide (env_value w n ≠ []) then define n (DValue (env_value w n)) b
      else b
  end.
Definition parse_optional (w : world) (b : builder) (n : bytes) : builder :=
  match funcs b !! n with
  | Some _ => b
  | None =>
      if bool_decide (flag_value w n ≠ []) then define n (DValue (flag_value w n)) b
      else if bool_decide (env_value w n ≠ []) then define n (DValue (env_value w n)) b
      else define n DUnset b
  end.
(** 294-337.  Go iterates over the two maps in any order it likes: [ro] and [oo]. *)
Definition parse_flags (w : world) (ro oo : list bytes) (b : builder) : builder :=
  if parsed b then b
  else foldl (parse_optional w) (foldl (parse_required w) (Builder (funcs b) (required b) (optional b) true) ro) oo.
(** 339-354, with the names the enclosing namespaces have (357-368). *)
Definition missing (ro : list bytes) (parents : list (gset bytes)) (b : builder) : list bytes :=
  filter (λ n, funcs b !! n = None ∧ Forall (λ p : gset bytes, n ∉ p) parents) ro.
Inductive result := Missing (ns : list bytes) | Built (defs : gmap bytes def).
(** 209-230. *)
Definition build (w : world) (ro oo : list bytes) (b : builder) : builder * result :=
  let b := parse_flags w ro oo b in
  (b, match missing ro [] b with [] => Built (funcs b) | ms => Missing ms end).
(** 259-277. *)
Definition build_with_parent (parents : list (gset bytes)) (ro : list bytes) (b : builder) : result :=
  match missing ro parents b with [] => Built (funcs b) | ms => Missing ms end.
(** 372-390, for arguments: the value, or an error. *)
Definition get_arg (defs : gmap bytes def) (n : bytes) : option def :=
  match defs !! n with Some DUnset => None | d => d end.
