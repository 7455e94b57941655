(** * Model of artifact building and IR traversal: blueprint/pkg/ir/{builders,ir,irutil,buildcontext}.go *)
From Verif Require Export Names_Model.
Set Default Proof Using "Type".

(** An IR node that is a child of the application: the identity of the Go object, [Name()], its Go type
    and whether it implements ArtifactGenerator (ir.go:63-67).  Go types are numbers. *)
Record inode := INode { in_id : nat; in_name : bytes; in_type : nat; in_gen : bool }.
Global Instance inode_dec : EqDecision inode. Proof. solve_decision. Defined.

(** builders.go:16-18, 51-59: the registry maps a node type to a builder, here the builder's name.
    Registering a type again replaces its builder.  *)
Notation registry := (gmap nat bytes).
Definition register (r : registry) (b : nat * bytes) : registry := <[b.1 := b.2]> r.

(** What artifact generation does to the outside: a call of a build function with the nodes it is given
    (builders.go:79), the creation of a directory (ioutil.go CreateNodeDir; named by its last component)
    and a call of GenerateArtifacts of a node with that directory (builders.go:95). *)
Inductive act := ABuild (t : nat) (bname : bytes) (ns : list inode) | ADir (d : bytes) | AGen (n : inode) (d : bytes).
Global Instance act_dec : EqDecision act. Proof. solve_decision. Defined.

Section build.
  (** [assignable nt t]: reflect.Type.AssignableTo (builders.go:62).  [ok h a]: does the call [a] return nil
      after the calls [h]; build functions, generators and the file system are arbitrary. *)
  Context (assignable : nat → nat → bool) (ok : list act → act → bool).

  (** builders.go:61-63 *)
  Definition builds (t : nat) (n : inode) : bool := assignable (in_type n) t.

  (** One outside call: it is recorded; [None] if it fails. *)
  Definition call (h : list act) (a : act) : list act * bool := (h ++ [a], ok h a).

  (** builders.go:65-75: the split of the nodes. *)
  Fixpoint split_compat (t : nat) (ns : list inode) : list inode * list inode :=
    match ns with
    | [] => ([], [])
    | n :: r => let '(b, rem) := split_compat t r in if builds t n then (n :: b, rem) else (b, n :: rem)
    end.

  (** builders.go:65-84 *)
  Definition build_compatible (h : list act) (t : nat) (bname : bytes) (ns : list inode) : list act * option (list inode) :=
    let '(b, rem) := split_compat t ns in
    if bool_decide (0 < length b) then
      let '(h', o) := call h (ABuild t bname b) in (h', if o then Some rem else None)
    else (h, Some rem).

  (** builders.go:86-103 *)
  Fixpoint build_generators (h : list act) (ns : list inode) : list act * option (list inode) :=
    match ns with
    | [] => (h, Some [])
    | n :: r =>
        if in_gen n then
          let d := clean_name (in_name n) in
          let '(h1, o1) := call h (ADir d) in
          if o1 then
            let '(h2, o2) := call h1 (AGen n d) in
            if o2 then build_generators h2 r else (h2, None)
          else (h1, None)
        else
          let '(h1, rem) := build_generators h r in (h1, (n ::.) <$> rem)
    end.

  (** builders.go:114-119: the loop over the registry, in the order [bs] *)
  Fixpoint build_loop (h : list act) (bs : list (nat * bytes)) (ns : list inode) : list act * option (list inode) :=
    match bs with
    | [] => (h, Some ns)
    | (t, bname) :: bs' =>
        let '(h', rem) := build_compatible h t bname ns in
        match rem with Some ns' => build_loop h' bs' ns' | None => (h', None) end
    end.

  (** builders.go:105-141 and ir.go:91-93 (GenerateArtifacts of the application).  [isdir]: the output
      directory exists already; [mk]: MkdirAll succeeds.  [true] is the result nil. *)
  Definition build_all (isdir mk : bool) (bs : list (nat * bytes)) (ns : list inode) : list act * bool :=
    if isdir then ([], false) else
    if negb mk then ([], false) else
    let '(h1, r1) := build_loop [] bs ns in
    match r1 with
    | None => (h1, false)
    | Some ns1 =>
        let '(h2, r2) := build_generators h1 ns1 in
        match r2 with
        | None => (h2, false)
        | Some ns2 => (h2, bool_decide (length ns2 = 0))
        end
    end.
End build.

(** irutil.go:27-70.  [isT]: the type assertion node.(T). *)
Section filters.
  Context {A : Type} (isT : A → bool).
  Fixpoint filter_nodes (ns : list A) : list A :=
    match ns with [] => [] | n :: r => if isT n then n :: filter_nodes r else filter_nodes r end.
  Fixpoint remove_nodes (ns : list A) : list A :=
    match ns with [] => [] | n :: r => if negb (isT n) then n :: remove_nodes r else remove_nodes r end.
  (** irutil.go:40-49: the remaining ones and the matches, appended one by one *)
  Definition split_nodes (ns : list A) : list A * list A :=
    fold_left (λ acc n, if isT n then (acc.1, acc.2 ++ [n]) else (acc.1 ++ [n], acc.2)) ns ([], []).
End filters.

(** An IR tree.  [None]: the node does not implement HasIRChildren (ir.go:15-19).  The code follows
    pointers; a shared node is modelled by a copy at each place, and a cyclic IR is not a tree. *)
Inductive irtree (A : Type) := IRT (label : A) (kids : option (list (irtree A))).
Arguments IRT {A}.
Definition label {A} (t : irtree A) : A := match t with IRT a _ => a end.
Definition kids {A} (t : irtree A) : list (irtree A) := match t with IRT _ k => default [] k end.

(** ir.go:103-117 *)
Fixpoint get_nodes {A} (t : irtree A) : list A :=
  match t with
  | IRT a None => [a]
  | IRT a (Some ks) => [a] ++ concat (map get_nodes ks)
  end.

(** buildcontext.go:28-37; the nil map is the empty one *)
Definition visited (s : gset bytes) (x : bytes) : gset bytes * bool := ({[x]} ∪ s, bool_decide (x ∈ s)).
Fixpoint visit_all (s : gset bytes) (xs : list bytes) : list bool :=
  match xs with [] => [] | x :: r => let '(s', b) := visited s x in b :: visit_all s' r end.
