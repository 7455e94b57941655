(** * Model of generated imports and type names: plugins/golang/gogen/imports.go, plugins/golang/gocode/typename.go *)
From stdpp Require Export strings pretty gmap.
From Coq Require Export Ascii.
Set Default Proof Using "Type".
Open Scope string_scope.

(** typename.go:141-265.  Types that carry nothing ([InterfaceType], [AnyType], [FuncType], [StructType])
    are told apart by [k] in [TOpaque]. *)
Inductive opaque := OInterface | OAny | OFunc | OStruct.
Inductive tname :=
  | TBasic (n : string)
  | TUser (pkg n : string)
  | TSlice (t : tname)
  | TEllipsis (t : tname)
  | TPointer (t : tname)
  | TMap (k v : tname)
  | TChan (t : tname)
  | TRecv (t : tname)
  | TSend (t : tname)
  | TOpaque (k : opaque)
  | TGeneric (base param : tname)
  | TParam (n : string).

(** imports.go:20-26.  [packages]: package to imported name; [named] and [anonymous]: how it is imported;
    [seen]: the imported names in use. *)
Record imports := Imports {
  local : string; packages : gmap string string; named : gmap string string;
  anonymous : gset string; seen : gset string }.

(** imports.go:30-38 *)
Definition new_imports (pkg : string) : imports := Imports pkg ∅ ∅ ∅ ∅.

(** strings.Split(pkg, "/")[len-1] (imports.go:51-52; typename.go:267-270) *)
Fixpoint last_comp_from (cur s : string) : string :=
  match s with
  | EmptyString => cur
  | String c r => if bool_decide (c = "/"%char) then last_comp_from "" r else last_comp_from (cur +:+ String c "") r
  end.
Definition last_comp (s : string) : string := last_comp_from "" s.

(** imports.go:53-58: the loop that looks for an unused name, with fuel; the Go loop has no bound.  Names are
    numbered with an int, here a natural number without overflow. *)
Fixpoint pick (fuel : nat) (sn : gset string) (base name : string) (i : nat) : option string :=
  match fuel with
  | 0 => None
  | S f => if bool_decide (name ∈ sn) then pick f sn base (base +:+ pretty i) (i + 1) else Some name
  end.
Definition enough (sn : gset string) : nat := S (S (size sn)).

(** imports.go:43-70.  The result is "" for the local package. *)
Definition add_package (im : imports) (pkg : string) : imports * string :=
  if bool_decide (pkg = local im) then (im, "") else
  match packages im !! pkg with
  | Some name => (im, name)
  | None =>
      let base := last_comp pkg in
      match pick (enough (seen im)) (seen im) base base 2 with
      | None => (im, "")
      | Some name =>
          (Imports (local im) (<[pkg := name]> (packages im))
             (if bool_decide (name = base) then named im else <[pkg := name]> (named im))
             (if bool_decide (name = base) then {[pkg]} ∪ anonymous im else anonymous im)
             ({[name]} ∪ seen im), name)
      end
  end.

(** imports.go:79-111.  There is no case for Ellipsis and GenericType. *)
Fixpoint add_type (im : imports) (t : tname) : imports :=
  match t with
  | TUser pkg _ => (add_package im pkg).1
  | TPointer t | TSlice t | TChan t | TRecv t | TSend t => add_type im t
  | TMap k v => add_type (add_type im k) v
  | TBasic _ | TEllipsis _ | TOpaque _ | TGeneric _ _ | TParam _ => im
  end.

(** The text of a type name as the sequence of its tokens; blanks between tokens are dropped.  [KText] is text
    that is no type in Go (typename.go:308-322). *)
Inductive tok := KId (s : string) | KDot | KStar | KLB | KRB | KMap | KChan | KArrow | KDots | KText (s : string).
Global Instance tok_dec : EqDecision tok. Proof. solve_decision. Defined.

(** typename.go:272-330 *)
Fixpoint tname_string (t : tname) : list tok :=
  match t with
  | TBasic n => [KId n]
  | TUser pkg n => [KId (last_comp pkg); KDot; KId n]
  | TSlice t => KLB :: KRB :: tname_string t
  | TEllipsis t => KDots :: tname_string t
  | TPointer t => KStar :: tname_string t
  | TMap k v => KMap :: KLB :: tname_string k ++ KRB :: tname_string v
  | TChan t => KChan :: tname_string t
  | TRecv t => KArrow :: KChan :: tname_string t
  | TSend t => KChan :: KArrow :: tname_string t
  | TOpaque OAny => [KId "any"]
  | TOpaque OInterface => [KText "interface{.}"]
  | TOpaque OFunc => [KText "func(.){.}"]
  | TOpaque OStruct => [KText "struct{...}"]
  | TGeneric b p => tname_string b ++ KLB :: tname_string p ++ [KRB]
  | TParam n => [KId n]
  end.

(** imports.go:132-140 *)
Definition qualify (im : imports) (pkg n : string) : list tok :=
  if bool_decide (pkg = local im) then [KId n] else
  match packages im !! pkg with
  | Some name => [KId name; KDot; KId n]
  | None => [KText pkg; KDot; KId n]
  end.

(** imports.go:143-185 *)
Fixpoint name_of (im : imports) (t : tname) : imports * list tok :=
  let im := add_type im t in
  match t with
  | TBasic n => (im, [KId n])
  | TUser pkg n => (im, qualify im pkg n)
  | TPointer t => let '(im, s) := name_of im t in (im, KStar :: s)
  | TSlice t => let '(im, s) := name_of im t in (im, KLB :: KRB :: s)
  | TMap k v =>
      let '(im, sk) := name_of im k in
      let '(im, sv) := name_of im v in (im, KMap :: KLB :: sk ++ KRB :: sv)
  | TChan t => let '(im, s) := name_of im t in (im, KChan :: s)
  | TRecv t => let '(im, s) := name_of im t in (im, KArrow :: KChan :: s)
  | TSend t => let '(im, s) := name_of im t in (im, KChan :: KArrow :: s)
  | TEllipsis _ | TOpaque _ | TGeneric _ _ | TParam _ => (im, tname_string t)
  end.

(** imports.go:114-125: the lines of the import declaration in some order; [None]: without a name *)
Definition import_lines (im : imports) : list (option string * string) :=
  ((λ p, (None, p)) <$> elements (anonymous im)) ++ ((λ pn, (Some pn.2, pn.1)) <$> map_to_list (named im)).

(** What users of the struct call *)
Inductive iop := IAddPackage (pkg : string) | IAddType (t : tname) | INameOf (t : tname).
Definition istep (im : imports) (o : iop) : imports :=
  match o with
  | IAddPackage p => (add_package im p).1
  | IAddType t => add_type im t
  | INameOf t => (name_of im t).1
  end.
Definition irun (im : imports) (os : list iop) : imports := fold_left istep os im.

(** typename.go:332-…: Equals, by cases *)
Fixpoint tname_equals (a b : tname) : bool :=
  match a, b with
  | TBasic n, TBasic n' => bool_decide (n = n')
  | TUser p n, TUser p' n' => bool_decide (p = p') && bool_decide (n = n')
  | TSlice t, TSlice t' | TEllipsis t, TEllipsis t' | TPointer t, TPointer t'
  | TChan t, TChan t' | TRecv t, TRecv t' | TSend t, TSend t' => tname_equals t t'
  | TMap k v, TMap k' v' => tname_equals k k' && tname_equals v v'
  | TOpaque OInterface, TOpaque OInterface | TOpaque OAny, TOpaque OAny
  | TOpaque OFunc, TOpaque OFunc | TOpaque OStruct, TOpaque OStruct => true
  | TGeneric b p, TGeneric b' p' => tname_equals b b' && tname_equals p p'
  | TParam n, TParam n' => bool_decide (n = n')
  | _, _ => false
  end.
