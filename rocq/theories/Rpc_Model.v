(** * Model of the generated gRPC and Thrift marshalling code:
      plugins/grpc/grpccodegen/{protogen,marshallgen}.go, plugins/thrift/thriftcodegen/{thriftgen,marshallgen}.go

    The code generators, the generated Go code, and what the Go, protoc and thrift compilers and the
    wire formats do with it.  The last are not part of the repository; they are described here as far as
    the generated code depends on them. *)
From stdpp Require Export strings gmap list.
From Coq Require Export ZArith.
Set Default Proof Using "Type".
Open Scope list_scope.

Inductive plugin := Grpc | Thrift.

(** Predeclared Go types (golang/gocode/typename.go:33-52); [BOther] is any other of them. *)
Inductive basic :=
| BBool | BString | BInt | BInt8 | BInt16 | BInt32 | BInt64 | BUint | BUint8 | BUint16 | BUint32 | BUint64
| BByte | BRune | BFloat32 | BFloat64 | BOther.
Global Instance basic_dec : EqDecision basic. Proof. solve_decision. Defined.
(** Go: byte and uint8, rune and int32 are the same types. *)
Definition canon (b : basic) : basic := match b with BByte => BUint8 | BRune => BInt32 | b => b end.
Definition same_go (a b : basic) : bool := bool_decide (canon a = canon b).

(** gocode.TypeName: predeclared and user types, pointers, maps, slices; [TOther] is any other. *)
Notation uty := (string * string)%type.     (* package, name *)
Inductive ty := TBasic (b : basic) | TUser (u : uty) | TPtr (t : ty) | TMap (k v : ty) | TSlice (t : ty) | TOther.
Global Instance ty_dec : EqDecision ty. Proof. solve_decision. Defined.

(** A field declaration of a struct: [A, B int]; no names: an embedded field. *)
Record fdecl := Fdecl { fd_names : list string; fd_type : ty }.
(** The structs in the parsed code. *)
Notation code := (gmap uty (list fdecl)).

(** golang/goparser/parser.go:567-583: a field declaration gets the first of its names; embedded fields
    are skipped by protogen.go:299-304 and thriftgen.go:263-268. *)
Definition parsed_fields (ds : list fdecl) : list (string * ty) :=
  omap (λ d, match fd_names d with n :: _ => Some (n, fd_type d) | [] => None end) ds.

(** ** The types of the interface description languages *)
Inductive wt := WBool | WString | WSint32 | WSint64 | WUint32 | WUint64 | WFloat | WDouble | WUint8   (* proto; uint8 is none *)
              | WByte | WI16 | WI32 | WI64.                                                           (* thrift *)
Global Instance wt_dec : EqDecision wt. Proof. solve_decision. Defined.
(** protogen.go:324-332 [basicToGrpc], thriftgen.go:288-305 [basicToThirft]. *)
Definition basic_idl (p : plugin) (b : basic) : option wt :=
  match p, b with
  | _, BBool => Some WBool | _, BString => Some WString
  | Grpc, (BInt | BInt64) => Some WSint64 | Grpc, (BInt8 | BInt16 | BInt32) => Some WSint32
  | Grpc, (BUint | BUint64) => Some WUint64 | Grpc, (BUint8 | BUint16 | BUint32) => Some WUint32
  | Grpc, (BByte | BRune) => Some WUint8
  | Grpc, BFloat32 => Some WFloat | Grpc, BFloat64 => Some WDouble
  | Thrift, (BInt | BInt32) => Some WI32 | Thrift, BInt64 => Some WI64 | Thrift, BInt16 => Some WI16 | Thrift, BInt8 => Some WByte
  | Thrift, (BUint32 | BUint64 | BUint8 | BUint16) => Some WI64
  | Thrift, (BFloat32 | BFloat64) => Some WDouble
  | Thrift, (BByte | BRune) => Some WByte
  | _, _ => None
  end.
(** protogen.go:334-342 [grpcToBasic], thriftgen.go:307-315 [thriftToBasic]: the type that values are
    converted to.  "float" and "double" are not keys of the first: nothing is converted then. *)
Definition conv_type (p : plugin) (w : wt) : option basic :=
  match p, w with
  | _, WBool => Some BBool | _, WString => Some BString
  | Grpc, WSint32 => Some BInt32 | Grpc, WSint64 => Some BInt64 | Grpc, WUint32 => Some BUint32 | Grpc, WUint64 => Some BUint64
  | Grpc, WUint8 => Some BByte
  | Thrift, WByte => Some BByte | Thrift, WDouble => Some BFloat64 | Thrift, WI64 => Some BInt64 | Thrift, WI32 => Some BInt32 | Thrift, WI16 => Some BInt16
  | _, _ => None
  end.
(** The Go types that protoc and thrift generate; [None]: no type of that language. *)
Definition msg_type (p : plugin) (w : wt) : option basic :=
  match p, w with
  | _, WBool => Some BBool | _, WString => Some BString | _, WDouble => Some BFloat64
  | Grpc, WSint32 => Some BInt32 | Grpc, WSint64 => Some BInt64 | Grpc, WUint32 => Some BUint32 | Grpc, WUint64 => Some BUint64
  | Grpc, WFloat => Some BFloat32
  | Thrift, WByte => Some BInt8 | Thrift, WI16 => Some BInt16 | Thrift, WI32 => Some BInt32 | Thrift, WI64 => Some BInt64
  | _, _ => None
  end.

Inductive idl := IBasic (w : wt) | IBytes | IMsg (u : uty) | IMap (k v : idl) | IRep (t : idl).

(** protogen.go:344-365 [getMapKeyType]. *)
Definition map_key (t : ty) : option idl :=
  match t with
  | TBasic b => match basic_idl Grpc b with
                | Some (WBool | WString | WSint32 | WSint64 | WUint32 | WUint64) as w => IBasic <$> w
                | _ => None
                end
  | _ => None
  end.

(** Code generation: out of fuel ([None]), an error ([Some None]) or a result. *)
Notation gen A := (option (option A)).
Definition gbind {A B} (r : gen A) (f : A → gen B) : gen B :=
  match r with None => None | Some None => Some None | Some (Some a) => f a end.
Definition gret {A} (a : A) : gen A := Some (Some a).
Definition gfail {A} : gen A := Some None.
Definition glift {A} (o : option A) : gen A := Some o.
Arguments gret {_} _ /. Arguments gfail {_} /. Arguments glift {_} _ /.

Section gen.
  Context (p : plugin) (cd : code).
  (** The fields of the message for a struct. *)
  Definition fields_of (u : uty) : list (string * ty) := parsed_fields (default [] (cd !! u)).

  (** protogen.go:274-322, 367-433; thriftgen.go:241-286, 317-359: [getGRPCType], [getThriftType] with
      [GetOrAddMessage].  The state is the set of structs that messages were made for. *)
  Fixpoint get_type (fuel : nat) (st : gset uty) (t : ty) : gen (gset uty * idl) :=
    match fuel with
    | 0 => None
    | S fuel =>
        match t with
        | TUser u =>
            if bool_decide (u ∈ st) then gret (st, IMsg u) else
            match cd !! u with
            | None => gfail
            | Some ds =>
                gbind ((fix loop (fs : list (string * ty)) (st : gset uty) : gen (gset uty) :=
                          match fs with
                          | [] => gret st
                          | f :: r => gbind (get_type fuel st f.2) (λ x, loop r x.1)
                          end) (parsed_fields ds) ({[u]} ∪ st)) (λ st', gret (st', IMsg u))
            end
        | TBasic b => gbind (glift (basic_idl p b)) (λ w, gret (st, IBasic w))
        | TPtr t => get_type fuel st t
        | TMap k v =>
            match p with
            | Grpc => gbind (glift (map_key k)) (λ ki, gbind (get_type fuel st v) (λ x, gret (x.1, IMap ki x.2)))
            | Thrift => gbind (get_type fuel st k) (λ x, gbind (get_type fuel x.1 v) (λ y, gret (y.1, IMap x.2 y.2)))
            end
        | TSlice t =>
            match p, t with
            | Grpc, TBasic BByte => gret (st, IBytes)
            | Grpc, TMap _ _ => gfail
            | _, _ => gbind (get_type fuel st t) (λ x, gret (x.1, IRep x.2))
            end
        | TOther => gfail
        end
    end.

  (** protogen.go:222-243, thriftgen.go:197-218: the arguments (or results) of a method. *)
  Fixpoint make_fields (fuel : nat) (st : gset uty) (ts : list ty) : gen (gset uty * list idl) :=
    match ts with
    | [] => gret (st, [])
    | t :: r =>
        gbind (get_type fuel st t) (λ x,
        gbind (make_fields fuel x.1 r) (λ y, gret (y.1, x.2 :: y.2)))
    end.

  (** What protoc and thrift accept as the type of a field. *)
  Definition scalar_ok (i : idl) : bool :=
    match i with IBasic w => bool_decide (is_Some (msg_type p w)) | IBytes | IMsg _ => true | _ => false end.
  Fixpoint idl_ok (i : idl) : bool :=
    match p, i with
    | Grpc, IRep i => scalar_ok i
    | Grpc, IMap k v => scalar_ok v
    | Thrift, IRep i => idl_ok i
    | Thrift, IMap k v => idl_ok k && idl_ok v
    | _, _ => scalar_ok i
    end.
  (** The type of a field in the description, which does not depend on the state. *)
  Fixpoint idl_of (t : ty) : option idl :=
    match t with
    | TUser u => Some (IMsg u)
    | TBasic b => IBasic <$> basic_idl p b
    | TPtr t => idl_of t
    | TMap k v =>
        match p with
        | Grpc => ki ← map_key k; vi ← idl_of v; Some (IMap ki vi)
        | Thrift => ki ← idl_of k; vi ← idl_of v; Some (IMap ki vi)
        end
    | TSlice t =>
        match p, t with
        | Grpc, TBasic BByte => Some IBytes
        | Grpc, TMap _ _ => None
        | _, _ => IRep <$> idl_of t
        end
    | TOther => None
    end.
  Definition idl_field_ok (t : ty) : bool := match idl_of t with Some i => idl_ok i | None => false end.

  (** marshallgen.go [Marshall], [Unmarshall]: the types that they return no error for.  (A type that is in
      none of their cases yields no statement at all; there is none such after [get_type].) *)
  Definition has_stmt (t : ty) : bool :=
    match t with
    | TUser _ | TBasic _ => true
    | TPtr (TUser _ | TBasic _) => true
    | TMap _ (TUser _ | TBasic _) => true
    | TSlice (TUser _ | TBasic _) => true
    | _ => false
    end.

  (** Do the statements compile?  [msg.F = T(obj.f)] and [obj.f = S(msg.F)] if T is the type of the field of
      the message, or S itself if there is no T; [msg.F = obj.f] if the element types are the same;
      [make(map[K]*V)] likewise, K being the type of the source in gRPC and its conversion in Thrift.
      [obj.f = &*S(msg.F)], for a pointer to a basic type, never compiles. *)
  Definition elem_compiles (b : basic) : bool :=
    match basic_idl p b with
    | Some w => match msg_type p w with Some g => same_go b g | None => false end
    | None => false
    end.
  Definition go_compiles (t : ty) : bool :=
    match t with
    | TUser _ => true
    | TBasic b =>
        match basic_idl p b with
        | Some w => match msg_type p w with Some g => same_go (default b (conv_type p w)) g | None => false end
        | None => false
        end
    | TPtr (TUser _) => true
    | TMap (TBasic k) (TUser _) => elem_compiles k
    | TMap (TBasic k) (TBasic v) => elem_compiles k && elem_compiles v
    | TSlice (TUser _) => true
    | TSlice (TBasic b) => match p, b with Grpc, BByte => true | _, _ => elem_compiles b end
    | _ => false
    end.
  Definition field_ok (t : ty) : bool := idl_field_ok t && has_stmt t && go_compiles t.

  (** [names_ok]: names of fields and messages are accepted by all the compilers, do not clash, and are what
      protoc and thrift make of them. *)
  Context (names_ok : gset uty → list ty → bool).
  (** Code is generated for a method with these arguments (or results), and it compiles. *)
  Definition generates (fuel : nat) (ts : list ty) : bool :=
    match make_fields fuel ∅ ts with
    | Some (Some (st, _)) =>
        forallb field_ok ts && forallb (λ u, forallb (λ f, field_ok f.2) (fields_of u)) (elements st) && names_ok st ts
    | _ => false
    end.
End gen.

(** ** Values.  Integers, and floating point numbers as opaque numbers. *)
Inductive bval := VBool (b : bool) | VStr (s : string) | VInt (z : Z) | VFloat (x : N).
Global Instance bval_dec : EqDecision bval. Proof. solve_decision. Defined.
(** Go values, and values of generated message types, which are structs again, whose fields of message type
    are pointers.  A struct value lists its fields; a field that nothing was assigned to, and so has
    its zero value, may be left out.  Pointers are not shared.  [None] is nil. *)
Inductive gval :=
| VB (b : bval)
| VS (fs : list (string * gval))
| VP (o : option gval)
| VM (o : option (list (bval * gval)))
| VL (o : option (list gval)).

Fixpoint lookup_field {A} (n : string) (fs : list (string * A)) : option A :=
  match fs with [] => None | (n', x) :: r => if String.eqb n n' then Some x else lookup_field n r end.

(** Conversion to an integer type wraps around. *)
Definition wrap_s (bits z : Z) : Z := ((z + 2 ^ (bits - 1)) mod 2 ^ bits - 2 ^ (bits - 1))%Z.
Definition wrap_u (bits z : Z) : Z := (z mod 2 ^ bits)%Z.

Inductive res (A : Type) := Ok (a : A) | Panic | Stuck.
Arguments Ok {A} _. Arguments Panic {A}. Arguments Stuck {A}.
Definition rbind {A B} (r : res A) (f : A → res B) : res B := match r with Ok a => f a | Panic => Panic | Stuck => Stuck end.
Fixpoint rmap {A B} (f : A → res B) (l : list A) : res (list B) :=
  match l with [] => Ok [] | a :: r => rbind (f a) (λ b, rbind (rmap f r) (λ bs, Ok (b :: bs))) end.

Section run.
  (** [round32]: conversion to float32. *)
  Context (p : plugin) (cd : code) (round32 : N → N).

  Definition convert (b : basic) (v : bval) : res bval :=
    match b, v with
    | BBool, VBool x => Ok (VBool x)
    | BString, VStr s => Ok (VStr s)
    | (BInt | BInt64), VInt z => Ok (VInt (wrap_s 64 z))
    | (BInt32 | BRune), VInt z => Ok (VInt (wrap_s 32 z))
    | BInt16, VInt z => Ok (VInt (wrap_s 16 z))
    | BInt8, VInt z => Ok (VInt (wrap_s 8 z))
    | (BUint | BUint64), VInt z => Ok (VInt (wrap_u 64 z))
    | BUint32, VInt z => Ok (VInt (wrap_u 32 z))
    | BUint16, VInt z => Ok (VInt (wrap_u 16 z))
    | (BUint8 | BByte), VInt z => Ok (VInt (wrap_u 8 z))
    | BFloat32, VFloat x => Ok (VFloat (round32 x))
    | BFloat64, VFloat x => Ok (VFloat x)
    | _, _ => Stuck
    end.
  (** [T(obj.f)] of marshalling, with T from [conv_type]. *)
  Definition to_msg (b : basic) (v : bval) : res bval :=
    match basic_idl p b with
    | Some w => match conv_type p w with Some g => convert g v | None => Ok v end
    | None => Stuck
    end.

  (** grpccodegen/marshallgen.go:118-171, thriftcodegen/marshallgen.go:145-198: the statement for a field, and
      marshallgen.go:67-72 (105-110 in Thrift) for structs; [obj] is a pointer to the struct, nil is [VP None]. *)
  Fixpoint marshall (v : gval) (t : ty) {struct v} : res gval :=
    let sub := λ fs : list (string * gval),
      (fix go fs := match fs with [] => [] | (n, x) :: r => (n, marshall x) :: go r end) fs in
    let struct_msg := λ (u : uty) (fs : list (string * (ty → res gval))),
      rbind (rmap (λ f : string * ty, match lookup_field f.1 fs with Some m => rbind (m f.2) (λ x, Ok (f.1, x)) | None => Stuck end) (fields_of cd u))
            (λ ms, Ok (VP (Some (VS ms)))) in
    match t, v with
    | TUser u, VS fs => struct_msg u (sub fs)
    | TBasic b, VB x => rbind (to_msg b x) (λ y, Ok (VB y))
    | TPtr (TUser u), VP None => match fields_of cd u with [] => Ok (VP (Some (VS []))) | _ => Panic end
    | TPtr (TUser u), VP (Some (VS fs)) => struct_msg u (sub fs)
    | TMap _ (TUser u), VM o =>
        rbind (match o with None => Ok [] | Some l => (fix go l := match l with
                            | [] => Ok []
                            | (k, x) :: r => rbind (marshall x (TUser u)) (λ m, rbind (go r) (λ ms, Ok ((k, m) :: ms)))
                            end) l end) (λ ms, Ok (VM (Some ms)))
    | TMap _ (TBasic _), VM o => Ok (VM o)
    | TSlice (TUser u), VL o =>
        rbind (match o with None => Ok [] | Some l => (fix go l := match l with
                            | [] => Ok []
                            | x :: r => rbind (marshall x (TUser u)) (λ m, rbind (go r) (λ ms, Ok (m :: ms)))
                            end) l end) (λ ms, Ok (VL (match ms with [] => None | _ => Some ms end)))
    | TSlice (TBasic _), VL o => Ok (VL o)
    | _, _ => Stuck
    end.

  (** grpccodegen/marshallgen.go:173-226 with 75-79, thriftcodegen/marshallgen.go:200-253 with 113-117, into a field that has its zero
      value; [None]: it keeps it. *)
  Fixpoint unmarshall (m : gval) (t : ty) {struct m} : res (option gval) :=
    let sub := λ fs : list (string * gval),
      (fix go fs := match fs with [] => [] | (n, x) :: r => (n, unmarshall x) :: go r end) fs in
    let struct_val := λ (u : uty) (fs : list (string * (ty → res (option gval)))),
      rbind (rmap (λ f : string * ty, match lookup_field f.1 fs with Some g => rbind (g f.2) (λ x, Ok (pair f.1 <$> x)) | None => Stuck end) (fields_of cd u))
            (λ xs, Ok (Some (VS (omap id xs)))) in
    match t, m with
    | TUser u, VP (Some (VS fs)) => struct_val u (sub fs)
    | TUser u, VP None => match fields_of cd u with [] => Ok (Some (VS [])) | _ => Panic end
    | TBasic b, VB x => rbind (convert b x) (λ y, Ok (Some (VB y)))
    | TPtr (TUser u), _ => match fields_of cd u with [] => Ok None | _ => Panic end    (* obj.f is nil *)
    | TMap _ (TUser u), VM o =>                                                       (* objv is dropped *)
        rbind (match o with None => Ok () | Some l => (fix go l := match l with
                            | [] => Ok ()
                            | (_, x) :: r => rbind (unmarshall x (TUser u)) (λ _, go r)
                            end) l end) (λ _, Ok (Some (VM (Some []))))
    | TMap _ (TBasic _), VM o => Ok None                                              (* msg.F = obj.f *)
    | TSlice (TUser u), VL o =>
        rbind (match o with None => Ok [] | Some l => (fix go l := match l with
                            | [] => Ok []
                            | x :: r => rbind (unmarshall x (TUser u)) (λ w, rbind (go r) (λ ws, Ok (default (VS []) w :: ws)))
                            end) l end) (λ ws, Ok (Some (VL (Some ws))))
    | TSlice (TBasic _), VL o => Ok (Some (VL o))
    | _, _ => Stuck
    end.

  (** The wire formats: proto3 refuses strings that are not UTF-8; empty lists and maps are read as nil by
      the one and as empty ones by the other. *)
  Context (utf8 : string → bool).
  Definition norm {A} (o : option (list A)) : option (list A) :=
    match p, o with Grpc, Some [] => None | Thrift, None => Some [] | _, o => o end.
  Definition wire_basic (b : bval) : option bval :=
    match p, b with Grpc, VStr s => if utf8 s then Some b else None | _, _ => Some b end.
  Fixpoint wire (m : gval) : option gval :=
    match m with
    | VB b => VB <$> wire_basic b
    | VS fs => VS <$> (fix go fs := match fs with [] => Some [] | (n, x) :: r => y ← wire x; ys ← go r; Some ((n, y) :: ys) end) fs
    | VP None => Some (VP None)
    | VP (Some x) => VP ∘ Some <$> wire x
    | VM o => (λ l, VM (norm l)) <$>
              match o with
              | None => Some None
              | Some l => Some <$> (fix go l := match l with [] => Some [] | (k, x) :: r => k' ← wire_basic k; y ← wire x; ys ← go r; Some ((k', y) :: ys) end) l
              end
    | VL o => (λ l, VL (norm l)) <$>
              match o with
              | None => Some None
              | Some l => Some <$> (fix go l := match l with [] => Some [] | x :: r => y ← wire x; ys ← go r; Some (y :: ys) end) l
              end
    end.

  (** Arguments on their way from the caller's stub to the service (or results on their way back):
      grpccodegen/marshallgen.go:22-61, thriftcodegen/marshallgen.go:63-98. *)
  Inductive outcome := Delivered (ws : list (option gval)) | SenderPanics | ReceiverPanics | NotSent | Impossible.
  Definition transmit (ts : list ty) (vs : list gval) : outcome :=
    match rmap (λ vt : gval * ty, marshall vt.1 vt.2) (zip vs ts) with
    | Panic => SenderPanics
    | Stuck => Impossible
    | Ok ms =>
        match mapM wire ms with
        | None => NotSent
        | Some ms' =>
            match rmap (λ mt : gval * ty, unmarshall mt.1 mt.2) (zip ms' ts) with
            | Ok ws => Delivered ws
            | Panic => ReceiverPanics
            | Stuck => Impossible
            end
        end
    end.
End run.
