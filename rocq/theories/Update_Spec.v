(** * What NoSQL updates mean *)
From Verif Require Export Filter_Spec Update_Model.

(** The value at a path, if there is one. *)
Fixpoint get (p : list seg) (v : val) : option val :=
  match p with
  | [] => Some v
  | Key k :: p => match v with VDoc d => match field k d with Some x => get p x | None => None end | _ => None end
  | Idx i :: p => match v with VArr a => match a !! N.to_nat i with Some x => get p x | None => None end | _ => None end
  end.
(** Neither path passes through the place the other leads to. *)
Definition apart (p q : list seg) : Prop :=
  ∃ r s t p' q', p = r ++ s :: p' ∧ q = r ++ t :: q' ∧ s ≠ t.

(** Updates, and the bson document a user writes for each. *)
Inductive upd :=
| PSet (p : list seg) (v : val) | PPush (p : list seg) (v : val) | PAddToSet (p : list seg) (v : val)
| PPull (p : list seg) (l : val) | PPullWhere (p : list seg) (qs : list query)
| PInc (p : list seg) (t : ity) (a : Z)
| PUnset (p : list seg) (v : val).
Definition upd_bson (u : upd) : string * val :=
  let one op p v := (op, VDoc [(path_string p, v)]) in
  match u with
  | PSet p v => one "$set" p v | PPush p v => one "$push" p v | PAddToSet p v => one "$addToSet" p v
  | PPull p l => one "$pull" p l | PPullWhere p qs => one "$pull" p (VDoc (map query_bson qs))
  | PInc p t a => one "$inc" p (VInt t a) | PUnset p v => one "$unset" p v
  end%string.
Definition path_of (u : upd) : list seg :=
  match u with PSet p _ | PPush p _ | PAddToSet p _ | PPull p _ | PPullWhere p _ | PInc p _ _ | PUnset p _ => p end.
Definition is_unset (u : upd) : Prop := match u with PUnset _ _ => True | _ => False end.

(** Operands must marshal, not to null; $push, $addToSet and $pull operands have no $ keys; what $pull
    looks for is a literal that is no array or document, or else a query without top-level $ keys. *)
Definition wf_operand (U : uenv) (v : val) : Prop := ∃ w, normalise U v = Some w ∧ w ≠ VNil.
Definition wf_upd (E : env) (U : uenv) (u : upd) : Prop :=
  path_of u ≠ [] ∧ Forall wf_seg (path_of u) ∧
  match u with
  | PSet _ v => wf_operand U v
  | PPush _ v | PAddToSet _ v => wf_operand U v ∧ has_modifier v = false
  | PPull _ l => match l with VArr _ | VDoc _ | VE | VM => False | _ => True end
  | PPullWhere _ qs => Forall (wf_query E) qs ∧ Forall (λ q, dollar (query_bson q).1 = false) qs
  | PInc _ _ _ | PUnset _ _ => True
  end.

(** [r] is what is left of [l] when the elements with property [P] are taken out. *)
Inductive left_after (P : val → Prop) : list val → list val → Prop :=
| left_nil : left_after P [] []
| left_out x l r : P x → left_after P l r → left_after P (x :: l) r
| left_in x l r : ¬ P x → left_after P l r → left_after P (x :: l) (x :: r).

(** Integer addition in a Go type: the representative of the exact sum in the type's range. *)
Definition in_range (t : ity) (z : Z) : Prop := (- 2 ^ (bits t - 1) ≤ z < 2 ^ (bits t - 1))%Z.
Definition machine_sum (t : ity) (z a s : Z) : Prop := in_range t s ∧ ∃ k, (s = z + a + k * 2 ^ bits t)%Z.

(** The new value at the path from the old one, which is nil if there was none. *)
Definition effect (E : env) (U : uenv) (u : upd) (old new : val) : Prop :=
  match u with
  | PSet _ v => normalise U v = Some new
  | PPush _ v => ∃ w l, normalise U v = Some w ∧ (old = VArr l ∨ old = VNil ∧ l = []) ∧ new = VArr (l ++ [w])
  | PAddToSet _ v => ∃ w l, normalise U v = Some w ∧ (old = VArr l ∨ old = VNil ∧ l = []) ∧
      ((∃ x, x ∈ l ∧ deep_equal E w x = true) ∧ new = VArr l ∨
       (∀ x, x ∈ l → deep_equal E w x = false) ∧ new = VArr (l ++ [w]))
  | PPull _ lit => old = VNil ∧ new = VNil ∨ ∃ l r, old = VArr l ∧ new = VArr r ∧ left_after (matches E lit) l r
  | PPullWhere _ qs => old = VNil ∧ new = VNil ∨ ∃ l r, old = VArr l ∧ new = VArr r ∧ left_after (sats E qs) l r
  | PInc _ _ a =>
      (∃ t z s, (old = VInt t z ∨ old = VNil ∧ t = TInt64 ∧ z = 0%Z) ∧ new = VInt t s ∧ machine_sum t z a s) ∨
      (∃ sg x, old = VFloat sg x ∧ new = VFloat sg (f_add E sg x a))
  | PUnset _ _ => False
  end.

(** Every position in the path is that of the last element of an array, or of the first element of an
    array yet to be made, or one past the last element of an array without spare capacity. *)
Fixpoint fits (U : uenv) (p : list seg) (v : val) : Prop :=
  match p with
  | [] => True
  | Key k :: p => fits U p (match v with VDoc d => default VNil (field k d) | _ => VNil end)
  | Idx i :: p =>
      match v with
      | VArr a => (∃ a' x, a = a' ++ [x] ∧ length a' = N.to_nat i ∧ fits U p x) ∨
                  (length a = N.to_nat i ∧ stale U a = [] ∧ fits U p VNil)
      | _ => i = 0%N ∧ fits U p VNil
      end
  end.
(** Every position in the path is at or past the last element. *)
Fixpoint at_end (p : list seg) (v : val) : Prop :=
  match p with
  | [] => True
  | Key k :: p => match v with VDoc d => match field k d with Some x => at_end p x | None => True end | _ => True end
  | Idx i :: p => match v with VArr a => (length a ≤ N.to_nat i ∨ ∃ a' x, a = a' ++ [x] ∧ length a' = N.to_nat i ∧ at_end p x) | _ => True end
  end.
Definition keys_only (p : list seg) : Prop := Forall (λ s, match s with Key _ => True | Idx _ => False end) p.

(** What a user calls: parse the update document, then apply it. *)
Definition run_update (E : env) (U : uenv) (ud : doc) (d : doc) : option ures :=
  match parse_update E U ud with Some us => Some (apply_all E U us (VDoc d)) | None => None end.
