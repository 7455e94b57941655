(** * Properties of copying results (C48) *)
From Verif Require Import Copy_Model Copy_Spec Copy_Proof.

(** C48. Whenever CopyResult reports success, the destination holds the same data as the source and a
    value of the destination's type. *)
Theorem C48_copy_preserves_data :
  ∀ v t w, wf v → copy_result v t = COk w → erase w = erase v ∧ has_type w t ∧ wf w.
Proof. exact copy_sound. Qed.
Print Assumptions C48_copy_preserves_data.

(** Copying into a variable that can hold the value always succeeds, provided no nil is inside. *)
Theorem C48_copy_succeeds :
  ∀ v t, wf v → nil_free v → has_type v t → ∃ w, copy_result v t = COk w ∧ erase w = erase v.
Proof. exact copy_complete. Qed.
Print Assumptions C48_copy_succeeds.

(** It panics only on a nil value (alone or inside a slice). *)
Theorem C48_panics_only_on_nil : ∀ v t, copy_result v t = CPanic → ¬ nil_free v.
Proof. exact copy_panic. Qed.
Print Assumptions C48_panics_only_on_nil.

(** Success means the destination was a pointer to a variable that can hold the value; anything else is reported
    as an error, not a panic. *)
Theorem C48_only_into_pointers :
  ∀ v d, wf v →
    (∀ w, copy_to v d = COk w → ∃ t, d = DPtr t ∧ has_type w t ∧ erase w = erase v) ∧
    ((∀ t, d ≠ DPtr t) → copy_to v d = CErr).
Proof.
  intros v d Hv. split.
  - intros w. destruct d as [|t]; [done|]. intros Hc. destruct (copy_sound v t w Hv Hc) as (? & ? & _). by exists t.
  - intros H. destruct d as [|t]; [done|]. by destruct (H t).
Qed.
Print Assumptions C48_only_into_pointers.

Definition names : gval := VSlice TAny [VBase 1 10; VBase 1 11].
Example C48_nonvacuous :
  wf names ∧ nil_free names ∧ copy_result names (TSlice (TBase 1)) = COk (VSlice (TBase 1) [VBase 1 10; VBase 1 11]) ∧
  copy_result names (TSlice (TBase 2)) = CErr.
Proof. repeat split; repeat constructor. Qed.

(** And it does panic then: a nil stored in a cache, queue or IR node cannot be read back. *)
Theorem C48_never_panics_refuted : ¬ (∀ v t, wf v → has_type v t → copy_result v t ≠ CPanic).
Proof. intros H. by apply (H VNil TAny). Qed.
Print Assumptions C48_never_panics_refuted.
