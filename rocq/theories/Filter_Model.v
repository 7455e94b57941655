(** * Model of the NoSQL query language, runtime/plugins/simplenosqldb/query/{filter,parsefilter}.go

    Documents and queries are the same kind of value: what a Go variable of type [any] may hold. *)
From stdpp Require Export prelude list strings.
From Coq Require Export ZArith Ascii.
Set Default Proof Using "Type".

(** Go's integer types. *)
Inductive ity := TInt | TInt8 | TInt16 | TInt32 | TInt64.
Global Instance ity_eq_dec : EqDecision ity.
Proof. solve_decision. Defined.

(** Values.  A float is named by an integer standing for its float64 value (its bit pattern, say); what
    the float operations do is in the environment below.  [VOther] stands for any other comparable value:
    ObjectIDs, times, unsigned integers, .... *)
Inductive val :=
| VNil
| VBool (b : bool)
| VInt (t : ity) (z : Z)
| VFloat (single : bool) (x : Z)
| VStr (s : string)
| VOther (kind id : nat)
| VSlice (l : list val)             (* a Go slice that is not a bson.A, e.g. []string *)
| VE | VM                           (* a bson.E, a bson.M *)
| VArr (l : list val)               (* bson.A *)
| VDoc (d : list (string * val)).   (* bson.D *)
Notation doc := (list (string * val)).

(** What is outside the model: IEEE-754 arithmetic and the regexp package. *)
Record env := Env {
  f_eq : Z → Z → bool;         (* x == y *)
  f_lt : Z → Z → bool;         (* x < y *)
  f_le : Z → Z → bool;         (* x <= y *)
  f_of_int : Z → Z;            (* float64(i) *)
  f_add : bool → Z → Z → Z;    (* v + float(amount); single precision or not *)
  re_ok : string → bool;       (* regexp.Compile succeeds *)
  re_match : string → string → bool }.

(** filter.go:429-465 *)
Definition int_value (v : val) : option Z := match v with VInt _ z => Some z | _ => None end.
Definition float_value (E : env) (v : val) : option Z :=
  match v with VInt _ z => Some (f_of_int E z) | VFloat _ x => Some x | _ => None end.

(** reflect.DeepEqual on such values (filter.go:212-214).  Nil and empty slices, which it distinguishes,
    are not distinguished here, and its shortcut for identical backing arrays is ignored. *)
Fixpoint deep_equal (E : env) (a b : val) {struct a} : bool :=
  match a, b with
  | VNil, VNil | VE, VE | VM, VM => true
  | VBool x, VBool y => Bool.eqb x y
  | VInt t x, VInt u y => bool_decide (t = u) && Z.eqb x y
  | VFloat s x, VFloat t y => Bool.eqb s t && f_eq E x y
  | VStr x, VStr y => bool_decide (x = y)
  | VOther k x, VOther j y => Nat.eqb k j && Nat.eqb x y
  | VSlice l, VSlice r | VArr l, VArr r =>
      (fix go l r := match l, r with
        | [], [] => true
        | x :: l, y :: r => deep_equal E x y && go l r
        | _, _ => false end) l r
  | VDoc l, VDoc r =>
      (fix go (l r : doc) := match l, r with
        | [], [] => true
        | (k, x) :: l, (j, y) :: r => bool_decide (k = j) && (deep_equal E x y && go l r)
        | _, _ => false end) l r
  | _, _ => false
  end.

(** filter.go:22-90.  The elemMatch filter is never built by the parser and is left out. *)
Inductive cmp := CEq | CGt | CGte | CLt | CLte.
Inductive qfilter :=
| FSelect (field : string) (next : qfilter)
| FIndex (i : Z) (next : qfilter)
| FBroadcast (next : qfilter)
| FEquals (v : val)
| FCmpInt (z : Z) (c : cmp)
| FCmpFloat (x : Z) (c : cmp)
| FAnd (fs : list qfilter)
| FOr (fs : list qfilter)
| FNot (f : qfilter)
| FExists
| FExact (fields : list string)
| FRegex (re : string)
| FAll (fs : list qfilter).

(** strings.Split(s, ".") *)
Fixpoint split_dot (s : string) : list string :=
  match s with
  | EmptyString => [""%string]
  | String c s =>
      if bool_decide (c = "."%char) then ""%string :: split_dot s
      else match split_dot s with
           | w :: ws => String c w :: ws
           | [] => [String c ""]
           end
  end.
(** strings.HasPrefix(s, "$") and strings.Contains(s, ".") *)
Definition dollar (s : string) : bool := match s with String c _ => bool_decide (c = "$"%char) | _ => false end.
Fixpoint has_dot (s : string) : bool :=
  match s with EmptyString => false | String c s => bool_decide (c = "."%char) || has_dot s end.

(** strconv.Atoi: an optional sign, then decimal digits, within 64 bits. *)
Definition digit (c : ascii) : option Z :=
  let n := N_of_ascii c in
  if bool_decide (48 ≤ n ∧ n ≤ 57)%N then Some (Z.of_N n - 48)%Z else None.
Fixpoint digits (acc : Z) (s : string) : option Z :=
  match s with
  | EmptyString => Some acc
  | String c s => match digit c with Some d => digits (acc * 10 + d)%Z s | None => None end
  end.
Definition in_int64 (z : Z) : option Z := if bool_decide (- 2 ^ 63 ≤ z < 2 ^ 63)%Z then Some z else None.
Definition atoi (s : string) : option Z :=
  match s with
  | EmptyString => None
  | String c s' =>
      if bool_decide (c = "+"%char) then
        match s' with EmptyString => None | _ => match digits 0 s' with Some z => in_int64 z | None => None end end
      else if bool_decide (c = "-"%char) then
        match s' with EmptyString => None | _ => match digits 0 s' with Some z => in_int64 (- z) | None => None end end
      else match digits 0 s with Some z => in_int64 z | None => None end
  end.

(** filter.go:92-105; [first] says that the head of the list is splits[0]. *)
Fixpoint lookup_path (first : bool) (splits : list string) (next : qfilter) : qfilter :=
  match splits with
  | [] => next
  | s :: splits =>
      let next := lookup_path false splits next in
      match atoi s with
      | Some j => FIndex j next
      | None => let f := FSelect s next in if first then f else FBroadcast f
      end
  end.
Definition flookup (selector : string) (next : qfilter) : qfilter := lookup_path true (split_dot selector) next.

(** filter.go:119-127; note that an int is compared as an int. *)
Definition equals (E : env) (v : val) : qfilter :=
  match int_value v with
  | Some i => FCmpInt i CEq
  | None => match float_value E v with Some x => FCmpFloat x CEq | None => FEquals v end
  end.
(** filter.go:137-157 *)
Definition fand (fs : list qfilter) : qfilter := match fs with [] => FExists | [f] => f | _ => FAnd fs end.
Definition for_ (fs : list qfilter) : qfilter := match fs with [] => FExists | [f] => f | _ => FOr fs end.

(** ** Evaluation; [None] is a run-time panic *)
Definition all_opt {A} (f : A → option bool) : list A → option bool :=
  fix go l := match l with
  | [] => Some true
  | x :: l => match f x with Some true => go l | r => r end
  end.
Definition any_opt {A} (f : A → option bool) : list A → option bool :=
  fix go l := match l with
  | [] => Some false
  | x :: l => match f x with Some false => go l | r => r end
  end.

Definition cmp_int (c : cmp) (v z : Z) : bool :=
  match c with CEq => Z.eqb v z | CGt => Z.ltb z v | CGte => Z.leb z v | CLt => Z.ltb v z | CLte => Z.leb v z end.
Definition cmp_float (E : env) (c : cmp) (v z : Z) : bool :=
  match c with CEq => f_eq E v z | CGt => f_lt E z v | CGte => f_le E z v | CLt => f_lt E v z | CLte => f_le E v z end.

(** The first field of that name (filter.go:188-197). *)
Fixpoint field (k : string) (d : doc) : option val :=
  match d with [] => None | (j, v) :: d => if bool_decide (j = k) then Some v else field k d end.

(** filter.go:188-338 *)
Fixpoint fapply (E : env) (f : qfilter) (v : val) {struct f} : option bool :=
  match f with
  | FSelect k next => match v with VDoc d => match field k d with Some x => fapply E next x | None => Some false end | _ => Some false end
  | FIndex i next =>
      match v with
      | VArr a =>
          if bool_decide (i < Z.of_nat (length a))%Z
          then if bool_decide (i < 0)%Z then None   (* a[i] with a negative index *)
               else match a !! Z.to_nat i with Some x => fapply E next x | None => None end
          else Some false
      | _ => Some false
      end
  | FBroadcast next => match v with VArr a => any_opt (fapply E next) a | _ => fapply E next v end
  | FEquals x => Some (deep_equal E v x)
  | FCmpInt z c => Some (match int_value v with Some w => cmp_int c w z | None => false end)
  | FCmpFloat x c => Some (match float_value E v with Some w => cmp_float E c w x | None => false end)
  | FAnd fs =>
      (fix go fs := match fs with [] => Some true | f :: fs => match fapply E f v with Some true => go fs | r => r end end) fs
  | FOr fs =>
      (fix go fs := match fs with [] => Some false | f :: fs => match fapply E f v with Some false => go fs | r => r end end) fs
  | FNot f => match fapply E f v with Some b => Some (negb b) | None => None end
  | FExists => Some true
  | FExact fields => Some (match v with VDoc d => forallb (λ e, bool_decide (e.1 ∈ fields)) d | _ => false end)
  | FRegex re => Some (match v with VStr s => re_match E re s | _ => false end)
  | FAll fs =>
      match v with
      | VArr a =>
          (fix go fs := match fs with
            | [] => Some true
            | f :: fs => match any_opt (fapply E f) a with Some true => go fs | r => r end end) fs
      | _ => Some false
      end
  end.

(** ** Parsing; [None] is an error *)

(** parsefilter.go:86-99, 62-84 and 101-132.  In an array literal a nested bson.A is always an error
    (line 122 is reached whether or not the inner array parses). *)
Fixpoint parse_value (E : env) (v : val) {struct v} : option qfilter :=
  match v with
  | VE | VM => None
  | VDoc d =>
      (fix go (d : doc) (acc : list qfilter) (seen : list string) : option qfilter :=
        match d with
        | [] => Some (fand (acc ++ [FExact seen]))
        | (k, x) :: d =>
            if dollar k then None else if has_dot k then None
            else match parse_value E x with
                 | None => None
                 | Some f => go d (acc ++ [FSelect k f]) (seen ++ [k])
                 end
        end) d [] []
  | VArr a =>
      (fix go (a : list val) (i : Z) (acc : list qfilter) : option qfilter :=
        match a with
        | [] => Some (fand acc)
        | x :: a =>
            match x with
            | VArr _ => None
            | _ => match parse_value E x with None => None | Some f => go a (i + 1)%Z (acc ++ [FIndex i f]) end
            end
        end) a 0%Z []
  | _ => Some (equals E v)
  end.

(** parsefilter.go:396-425: Some None means "not a numeric operator". *)
Definition num_cmp (k : string) : option cmp :=
  if bool_decide (k = "$eq") then Some CEq else if bool_decide (k = "$gt") then Some CGt
  else if bool_decide (k = "$gte") then Some CGte else if bool_decide (k = "$lt") then Some CLt
  else if bool_decide (k = "$lte") then Some CLte else None.
Definition parse_numeric (E : env) (k : string) (v : val) : option qfilter :=
  match int_value v with
  | Some z => match num_cmp k with Some c => Some (FCmpInt z c) | None => None end
  | None => match float_value E v with
            | Some x => match num_cmp k with Some c => Some (FCmpFloat x c) | None => None end
            | None => None
            end
  end.
Definition slice_elems (v : val) : option (list val) :=
  match v with VSlice l | VArr l => Some l | VDoc d => Some (replicate (length d) VE) | _ => None end.
(** parsefilter.go:337-394; the elements of a bson.D, itself a slice, are bson.Es. *)
Definition parse_value_op (E : env) (k : string) (v : val) : option qfilter :=
  match parse_numeric E k v with
  | Some f => Some f
  | None =>
      if bool_decide (k = "$eq") then parse_value E v
      else if bool_decide (k = "$ne") then match parse_value E v with Some f => Some (FNot f) | None => None end
      else if bool_decide (k = "$in") then
        match slice_elems v with
        | None => None
        | Some l =>
            match mapM (parse_value E) l with
            | None => None
            | Some [] => Some (FNot FExists)
            | Some fs => Some (for_ fs)
            end
        end
      else if bool_decide (k = "$regex") then
        match v with VStr re => if re_ok E re then Some (FRegex re) else None | _ => None end
      else None
  end.
(** parsefilter.go:324-335 *)
Definition parse_value_ops (E : env) (d : doc) : option qfilter :=
  match mapM (λ e, parse_value_op E e.1 e.2) d with Some fs => Some (fand fs) | None => None end.

(** parsefilter.go:304-319: the first $exists decides.  It looks up the key "$exists", not the field. *)
Fixpoint parse_exists (d : doc) : option (option qfilter) :=
  match d with
  | [] => Some None
  | (k, v) :: d =>
      if bool_decide (k = "$exists") then
        match v with
        | VBool false => Some (Some (FNot (flookup k FExists)))
        | VBool true => Some None
        | _ => None
        end
      else parse_exists d
  end.

(** parsefilter.go:43-53, 27-41, 137-241, 249-300.  [parse_cond] is parseFilterCondition; parseQuery and
    parseQueries appear inlined as the local loops. *)
Fixpoint parse_cond (E : env) (k : string) (v : val) {struct v} : option qfilter :=
  let parse_query := fix go (d : doc) (acc : list qfilter) : option qfilter :=
    match d with
    | [] => Some (fand acc)
    | (k, x) :: d => match parse_cond E k x with Some f => go d (acc ++ [f]) | None => None end
    end in
  let parse_queries := fix gos (a : list val) (acc : list qfilter) : option (list qfilter) :=
    match a with
    | [] => Some acc
    | x :: a =>
        match x with
        | VDoc d => match parse_query d [] with Some f => gos a (acc ++ [f]) | None => None end
        | _ => None
        end
    end in
  if bool_decide (k = "$and") then
    match v with VArr a => match parse_queries a [] with Some fs => Some (fand fs) | None => None end | _ => None end
  else if bool_decide (k = "$not") then
    match v with VDoc d => match parse_query d [] with Some f => Some (FNot f) | None => None end | _ => None end
  else if bool_decide (k = "$or") then
    match v with VArr a => match parse_queries a [] with Some fs => Some (for_ fs) | None => None end | _ => None end
  else if bool_decide (k = "$nor") then
    match v with VArr a => match parse_queries a [] with Some fs => Some (FNot (for_ fs)) | None => None end | _ => None end
  else if dollar k then None
  else match v with
  | VDoc ops =>
      if existsb (λ e, dollar e.1) ops then
        (* array operators; Some None: there is none *)
        let array_ops := fix goa (ops : doc) (acc : list qfilter) : option (list qfilter) :=
          match ops with
          | [] => Some acc
          | (k', x) :: ops =>
              if bool_decide (k' = "$all") then
                match x with
                | VArr l => match mapM (parse_value E) l with Some fs => goa ops (acc ++ [FAll fs]) | None => None end
                | _ => None
                end
              else if bool_decide (k' = "$elemMatch") then
                match x with
                | VDoc d => match parse_query d [] with Some f => goa ops (acc ++ [FBroadcast f]) | None => None end
                | _ => None
                end
              else goa ops acc
          end in
        match array_ops ops [] with
        | None => None
        | Some (f :: fs) =>
            if bool_decide (length (f :: fs) = length ops) then Some (flookup k (fand (f :: fs))) else None
        | Some [] =>
            match parse_exists ops with
            | None => None
            | Some (Some f) => Some f
            | Some None => match parse_value_ops E ops with Some f => Some (flookup k (FBroadcast f)) | None => None end
            end
        end
      else match parse_value E v with Some f => Some (flookup k (FBroadcast f)) | None => None end
  | VArr a => match parse_value E v with Some f => Some (flookup k f) | None => None end
  | VE | VM => None
  | _ => Some (flookup k (FBroadcast (equals E v)))
  end.

(** parsefilter.go:43-53, 15-17 *)
Definition parse_filter (E : env) (d : doc) : option qfilter :=
  match mapM (λ e, parse_cond E e.1 e.2) d with Some fs => Some (fand fs) | None => None end.
