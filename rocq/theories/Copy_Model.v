(** * Model of copying results into caller variables: runtime/core/backend/reflect.go:19-49
      [CopyResult] and its compile-time twin blueprint/pkg/wiring/reflect.go:22-50 [copyResult] *)
From stdpp Require Export strings gmap.
From Coq Require Export ZArith.
Set Default Proof Using "Type".

(** Go types, as far as the code distinguishes them: int64 (for counters), other non-slice types,
    the empty interface, and slices.  Named slice types are not modelled. *)
Inductive gtype := TInt | TBase (n : nat) | TAny | TSlice (t : gtype).
#[global] Instance gtype_eq_dec : EqDecision gtype.
Proof. solve_decision. Defined.

(** Dynamic values ([any]): [VNil] is the nil interface; a slice carries its element type. *)
Inductive gval := VNil | VInt (z : Z) | VBase (n : nat) (data : nat) | VSlice (t : gtype) (vs : list gval).

(** reflect.TypeOf of a non-nil value. *)
Definition type_of (v : gval) : option gtype :=
  match v with
  | VNil => None
  | VInt _ => Some TInt
  | VBase n _ => Some (TBase n)
  | VSlice t _ => Some (TSlice t)
  end.

Inductive copied := COk (w : gval) | CErr | CPanic.

(** The element loop at reflect.go:31-38; [cp] copies one element. *)
Fixpoint copy_elems (cp : gval → copied) (vs : list gval) (acc : list gval) : option (list gval) * bool :=
  match vs with
  | [] => (Some (rev acc), false)
  | v :: vs' =>
      match cp v with
      | COk w => copy_elems cp vs' (w :: acc)
      | CErr => (None, false)
      | CPanic => (None, true)
      end
  end.

(** reflect.go:24-49 into a non-nil pointer to a variable of type [t]: the new content of the
    variable, or an error (the variable keeps its content: reflect.go:39 assigns only at the end), or
    a panic ([reflect.ValueOf(nil).Type()], reflect.go:42).  Recursion is on the destination type. *)
Fixpoint copy_result (v : gval) (t : gtype) {struct t} : copied :=
  match v, t with
  | VSlice _ vs, TSlice td =>
      match copy_elems (λ x, copy_result x td) vs [] with
      | (Some ws, _) => COk (VSlice td ws)
      | (None, true) => CPanic
      | (None, false) => CErr
      end
  | VNil, _ => CPanic
  | _, TAny => COk v
  | _, _ => if bool_decide (type_of v = Some t) then COk v else CErr
  end.

(** A destination argument: something that is not a usable pointer (reflect.go:25-27), or a pointer to
    a variable of the given type. *)
Inductive dest := DBad | DPtr (t : gtype).
Definition copy_to (v : gval) (d : dest) : copied :=
  match d with DBad => CErr | DPtr t => copy_result v t end.
