(** * Specification vocabulary for copying results *)
From Verif Require Import Copy_Model.

(** The data in a value, forgetting static element types. *)
Inductive tree := LNil | LInt (z : Z) | LBase (n data : nat) | LNode (l : list tree).
Fixpoint erase (v : gval) : tree :=
  match v with
  | VNil => LNil
  | VInt z => LInt z
  | VBase n d => LBase n d
  | VSlice _ vs => LNode (map erase vs)
  end.

(** [w] can be the content of a variable of type [t]. *)
Fixpoint has_type (w : gval) (t : gtype) {struct t} : Prop :=
  match t with
  | TAny => True
  | TInt => ∃ z, w = VInt z
  | TBase n => ∃ d, w = VBase n d
  | TSlice t' => ∃ vs, w = VSlice t' vs ∧ Forall (λ v, has_type v t') vs
  end.

(** Well-typed dynamic values. *)
Fixpoint wf (v : gval) : Prop :=
  match v with
  | VSlice t vs => Forall (λ v, has_type v t) vs ∧ fold_right (λ v P, wf v ∧ P) True vs
  | _ => True
  end.

(** No nil anywhere inside. *)
Fixpoint nil_free (v : gval) : Prop :=
  match v with
  | VNil => False
  | VSlice _ vs => fold_right (λ v P, nil_free v ∧ P) True vs
  | _ => True
  end.
