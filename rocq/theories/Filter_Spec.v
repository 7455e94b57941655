(** * What NoSQL queries mean

    Queries as abstract syntax, the bson document a user writes for each, and when a value satisfies one. *)
From stdpp Require Export pretty.
From Verif Require Import Filter_Model.

(** ** Paths *)
Inductive seg := Key (k : string) | Idx (i : N).
Definition seg_string (s : seg) : string := match s with Key k => k | Idx i => pretty i end.
(** "a.0.b" *)
Fixpoint path_string (p : list seg) : string :=
  match p with
  | [] => ""
  | [s] => seg_string s
  | s :: p => (seg_string s ++ "." ++ path_string p)%string
  end.
(** Field names contain no dot and are not numbers; indices fit in an int. *)
Definition wf_seg (s : seg) : Prop :=
  match s with Key k => has_dot k = false ∧ atoi k = None | Idx i => (i < 2 ^ 63)%N end.
Definition wf_path (p : list seg) : Prop := p ≠ [] ∧ Forall wf_seg p ∧ dollar (path_string p) = false.

(** One step of a path.  A field of an array (other than at the start) is the field of any element. *)
Inductive step (start : bool) : seg → val → val → Prop :=
| step_field k d v : field k d = Some v → step start (Key k) (VDoc d) v
| step_any k a d v : start = false → VDoc d ∈ a → field k d = Some v → step start (Key k) (VArr a) v
| step_index i a v : a !! N.to_nat i = Some v → step start (Idx i) (VArr a) v.
Inductive reach : bool → list seg → val → val → Prop :=
| reach_here b v : reach b [] v v
| reach_step b s p v w x : step b s v w → reach false p w x → reach b (s :: p) v x.

(** The value itself, or if it is an array any element. *)
Definition spread (w x : val) : Prop := match w with VArr a => x ∈ a | _ => x = w end.

(** ** Literals *)
Definition keys (d : doc) : list string := d.*1.
(** Literals a query may contain: no bson.E or bson.M, field names without dot or dollar, no array
    directly inside an array. *)
Fixpoint wf_lit (l : val) : Prop :=
  match l with
  | VE | VM => False
  | VDoc d => (fix go (d : doc) := match d with
      | [] => True | (k, x) :: d => dollar k = false ∧ has_dot k = false ∧ wf_lit x ∧ go d end) d
  | VArr a => (fix go (a : list val) := match a with
      | [] => True | x :: a => (match x with VArr _ => False | _ => True end) ∧ wf_lit x ∧ go a end) a
  | _ => True
  end.

(** When a value matches a literal.  Documents match field by field in any order and must have no other
    fields.  An array matches when the literal is, element by element, a prefix of it (see C19). *)
Fixpoint matches (E : env) (l v : val) {struct l} : Prop :=
  match l with
  | VInt _ z => int_value v = Some z
  | VFloat _ x => ∃ y, float_value E v = Some y ∧ f_eq E y x = true
  | VDoc ld => ∃ d, v = VDoc d ∧ (∀ k, k ∈ keys d → k ∈ keys ld) ∧
      (fix go (ld : doc) := match ld with
        | [] => True | (k, x) :: ld => (∃ y, field k d = Some y ∧ matches E x y) ∧ go ld end) ld
  | VArr la => (la = [] ∨ ∃ a, v = VArr a) ∧
      ∀ a, v = VArr a →
      (fix go (la a : list val) := match la, a with
        | [], _ => True | x :: la, y :: a => matches E x y ∧ go la a | _, _ => False end) la a
  | _ => deep_equal E v l = true
  end.

(** ** Queries *)
Inductive vop :=
| OpEq (l : val) | OpNe (l : val)
| OpGt (n : val) | OpGte (n : val) | OpLt (n : val) | OpLte (n : val)
| OpIn (ls : list val)
| OpRegex (re : string).
Inductive query :=
| QLit (p : list seg) (l : val)              (* field: literal *)
| QArr (p : list seg) (ls : list val)        (* field: [literals] *)
| QOps (p : list seg) (ops : list vop)       (* field: {$gt: .., ...} *)
| QAll (p : list seg) (ls : list val)        (* field: {$all: [..]} *)
| QElem (p : list seg) (qs : list query)     (* field: {$elemMatch: {..}} *)
| QAnd (qss : list (list query)) | QOr (qss : list (list query))
| QNor (qss : list (list query)) | QNot (qs : list query).

Definition op_bson (o : vop) : string * val :=
  match o with
  | OpEq l => ("$eq", l) | OpNe l => ("$ne", l)
  | OpGt n => ("$gt", n) | OpGte n => ("$gte", n) | OpLt n => ("$lt", n) | OpLte n => ("$lte", n)
  | OpIn ls => ("$in", VArr ls) | OpRegex re => ("$regex", VStr re)
  end.
Fixpoint query_bson (q : query) : string * val :=
  match q with
  | QLit p l => (path_string p, l)
  | QArr p ls => (path_string p, VArr ls)
  | QOps p ops => (path_string p, VDoc (map op_bson ops))
  | QAll p ls => (path_string p, VDoc [("$all", VArr ls)])
  | QElem p qs => (path_string p, VDoc [("$elemMatch", VDoc (map query_bson qs))])
  | QAnd qss => ("$and", VArr (map (λ qs, VDoc (map query_bson qs)) qss))
  | QOr qss => ("$or", VArr (map (λ qs, VDoc (map query_bson qs)) qss))
  | QNor qss => ("$nor", VArr (map (λ qs, VDoc (map query_bson qs)) qss))
  | QNot qs => ("$not", VDoc (map query_bson qs))
  end.

Definition numeric (v : val) : Prop := match v with VInt _ _ | VFloat _ _ => True | _ => False end.
Definition wf_op (E : env) (o : vop) : Prop :=
  match o with
  | OpEq l | OpNe l => wf_lit l
  | OpGt n | OpGte n | OpLt n | OpLte n => numeric n
  | OpIn ls => ∀ l, l ∈ ls → wf_lit l
  | OpRegex re => re_ok E re = true
  end.
Definition is_array (v : val) : Prop := match v with VArr _ => True | _ => False end.
Fixpoint wf_query (E : env) (q : query) : Prop :=
  let wfs := fix go (qs : list query) := match qs with [] => True | q :: qs => wf_query E q ∧ go qs end in
  let wfss := fix go (qss : list (list query)) := match qss with [] => True | qs :: qss => wfs qs ∧ go qss end in
  match q with
  | QLit p l => wf_path p ∧ wf_lit l ∧ ¬ is_array l
  | QArr p ls => wf_path p ∧ wf_lit (VArr ls)
  | QOps p ops => wf_path p ∧ ops ≠ [] ∧ ∀ o, o ∈ ops → wf_op E o
  | QAll p ls => wf_path p ∧ ∀ l, l ∈ ls → wf_lit l
  | QElem p qs => wf_path p ∧ wfs qs
  | QAnd qss | QOr qss | QNor qss => wfss qss
  | QNot qs => wfs qs
  end.

(** Comparison of a stored value [v] with a number [n]: as integers if [n] is an integer, and then only
    with stored integers; as floats if [n] is a float. *)
Definition compares (E : env) (c : cmp) (v n : val) : Prop :=
  match n with
  | VInt _ z => ∃ w, int_value v = Some w ∧
      match c with CEq => w = z | CGt => (z < w)%Z | CGte => (z ≤ w)%Z | CLt => (w < z)%Z | CLte => (w ≤ z)%Z end
  | VFloat _ x => ∃ w, float_value E v = Some w ∧
      match c with CEq => f_eq E w x | CGt => f_lt E x w | CGte => f_le E x w | CLt => f_lt E w x | CLte => f_le E w x end = true
  | _ => False
  end.
Definition op_sat (E : env) (o : vop) (v : val) : Prop :=
  match o with
  | OpEq l => matches E l v
  | OpNe l => ¬ matches E l v
  | OpGt n => compares E CGt v n | OpGte n => compares E CGte v n
  | OpLt n => compares E CLt v n | OpLte n => compares E CLte v n
  | OpIn ls => ∃ l, l ∈ ls ∧ matches E l v
  | OpRegex re => ∃ s, v = VStr s ∧ re_match E re s = true
  end.

(** When a value (document, or array element under $elemMatch) satisfies a query. *)
Fixpoint sat (E : env) (q : query) (v : val) {struct q} : Prop :=
  let all := fix go (qs : list query) (v : val) := match qs with [] => True | q :: qs => sat E q v ∧ go qs v end in
  let some := fix go (qss : list (list query)) (v : val) := match qss with [] => False | qs :: qss => all qs v ∨ go qss v end in
  match q with
  | QLit p l => ∃ w x, reach true p v w ∧ spread w x ∧ matches E l x
  | QArr p ls => ∃ w, reach true p v w ∧ matches E (VArr ls) w
  | QOps p ops => ∃ w x, reach true p v w ∧ spread w x ∧ ∀ o, o ∈ ops → op_sat E o x
  | QAll p ls => ∃ a, reach true p v (VArr a) ∧ ∀ l, l ∈ ls → ∃ x, x ∈ a ∧ matches E l x
  | QElem p qs => ∃ w x, reach true p v w ∧ spread w x ∧ all qs x
  | QAnd qss => (fix go (qss : list (list query)) := match qss with [] => True | qs :: qss => all qs v ∧ go qss end) qss
  | QOr qss => qss = [] ∨ some qss v
  | QNor qss => ¬ (qss = [] ∨ some qss v)
  | QNot qs => ¬ all qs v
  end.
(** A query document is the conjunction of its conditions. *)
Definition sats (E : env) (qs : list query) (v : val) : Prop := Forall (λ q, sat E q v) qs.
