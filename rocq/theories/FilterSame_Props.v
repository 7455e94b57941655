(** * Equality of stored values (C17, C20)

    [Filter_Spec] and [Update_Spec] say "the stored value equals the literal" through the model's own
    [deep_equal].  Here that relation is given independently of it. *)
From Verif Require Import Filter_Model Filter_Spec Filter_Proof Filter_Props.
From Verif Require Import Update_Model Update_Spec Update_Proof Update_Props.

(** The same value: the same Go type and the same contents, member by member and in order; floats are the
    same if the machine's == says so. *)
Inductive same (E : env) : val → val → Prop :=
| same_nil : same E VNil VNil
| same_e : same E VE VE
| same_m : same E VM VM
| same_bool b : same E (VBool b) (VBool b)
| same_int t z : same E (VInt t z) (VInt t z)
| same_float s x y : f_eq E x y = true → same E (VFloat s x) (VFloat s y)
| same_str s : same E (VStr s) (VStr s)
| same_other k i : same E (VOther k i) (VOther k i)
| same_slice l r : Forall2 (same E) l r → same E (VSlice l) (VSlice r)
| same_arr l r : Forall2 (same E) l r → same E (VArr l) (VArr r)
| same_doc l r : Forall2 (λ a b, a.1 = b.1 ∧ same E a.2 b.2) l r → same E (VDoc l) (VDoc r).

Lemma deep_equal_same E a : ∀ b, deep_equal E a b = true ↔ same E a b.
Proof.
  assert (∀ l, Forall (λ a, ∀ b, deep_equal E a b = true ↔ same E a b) l → ∀ r,
    (fix go l r := match l, r with
        | [], [] => true | x :: l, y :: r => deep_equal E x y && go l r | _, _ => false end) l r = true
      ↔ Forall2 (same E) l r) as Hl.
  { induction 1 as [|x l Hx _ IH]; intros [|y r]; simpl.
    - split; [constructor|done].
    - split; [done|inversion 1].
    - split; [done|inversion 1].
    - rewrite andb_true_iff, Hx, IH. split; [intros []; by constructor|by inversion 1]. }
  induction a as [|b|t z|s x|s|k i|l IH| | |l IH|d IH] using val_ind'; intros v; destruct v; simpl;
    try (split; [done|inversion 1; fail]); try (split; [constructor|done]).
  - rewrite Bool.eqb_true_iff. split; [intros ->; constructor|by inversion 1].
  - rewrite andb_true_iff, bool_decide_eq_true, Z.eqb_eq. split; [intros [-> ->]; constructor|by inversion 1].
  - rewrite andb_true_iff, Bool.eqb_true_iff. split; [intros [-> ?]; by constructor|by inversion 1].
  - rewrite bool_decide_eq_true. split; [intros ->; constructor|by inversion 1].
  - rewrite andb_true_iff, !Nat.eqb_eq. split; [intros [-> ->]; constructor|by inversion 1].
  - rewrite Hl by done. split; [by constructor|by inversion 1].
  - rewrite Hl by done. split; [by constructor|by inversion 1].
  - assert (∀ r, (fix go (l r : doc) := match l, r with
        | [], [] => true
        | (k, x) :: l, (j, y) :: r => bool_decide (k = j) && (deep_equal E x y && go l r)
        | _, _ => false end) d r = true ↔ Forall2 (λ a b, a.1 = b.1 ∧ same E a.2 b.2) d r) as Hd.
    { clear d0. induction IH as [|[k x] d Hx _ IH]; intros [|[j y] r]; simpl in *.
      - split; [constructor|done].
      - split; [done|inversion 1].
      - split; [done|inversion 1].
      - rewrite !andb_true_iff, bool_decide_eq_true, Hx, IH.
        split; [intros (? & ? & ?); by constructor|inversion 1; naive_solver]. }
    rewrite Hd. split; [by constructor|by inversion 1].
Qed.

(** C17. A literal other than a number, document or array matches the stored values that are the same as
    it, and no other. *)
Theorem C17_plain_literal_matches_same_value :
  ∀ E l v, match l with VInt _ _ | VFloat _ _ | VArr _ | VDoc _ => False | _ => True end →
    (matches E l v ↔ same E v l).
Proof. intros E l v Hl. destruct l; try done; apply deep_equal_same. Qed.
Print Assumptions C17_plain_literal_matches_same_value.

Example C17_plain_literal_nonvacuous :
  matches demo_env (VSlice [VStr "x"; VInt TInt 1]) (VSlice [VStr "x"; VInt TInt 1]) ∧
  ¬ matches demo_env (VSlice [VStr "x"]) (VSlice [VStr "x"; VInt TInt 1]) ∧
  ¬ matches demo_env (VSlice [VInt TInt 1]) (VSlice [VInt TInt8 1]).
Proof. by vm_compute. Qed.

(** C20. $addToSet, along a path of field names, that succeeds: the array at the path is unchanged if it has
    an element that is the same as the operand, and otherwise has the operand appended. *)
Theorem C20_add_to_set_is_by_value :
  ∀ E U p v d v', wf_upd E U (PAddToSet p v) → keys_only p →
    run_update E U [upd_bson (PAddToSet p v)] d = Some (v', UOk) →
    ∃ w l, normalise U v = Some w ∧
      (get p (VDoc d) = Some (VArr l) ∨ (get p (VDoc d) = Some VNil ∨ get p (VDoc d) = None) ∧ l = []) ∧
      (((∃ x, x ∈ l ∧ same E w x) ∧ get p v' = Some (VArr l)) ∨
       ((∀ x, x ∈ l → ¬ same E w x) ∧ get p v' = Some (VArr (l ++ [w])))).
Proof.
  intros E U p v d v' Hwf Hk Hrun.
  destruct (C20_update_effect_and_frame E U (PAddToSet p v) d v' Hwf (λ H, H) (C20_field_paths_fit U p _ Hk) Hrun)
    as (new & Hnew & (w & l & Hw & Hold & Heff) & _).
  exists w, l. simpl in *. split; [done|]. split.
  - destruct (get p (VDoc d)) as [x|]; simpl in Hold; destruct Hold as [Ho|[Ho ->]]; subst; eauto; done.
  - destruct Heff as [[(x & Hx & Hd) ->]|[Hd ->]].
    + left. split; [|done]. exists x. by rewrite deep_equal_same in Hd.
    + right. split; [|done]. intros x Hx. rewrite <- deep_equal_same. by rewrite Hd.
Qed.
Print Assumptions C20_add_to_set_is_by_value.

Example C20_add_to_set_nonvacuous :
  let u v := PAddToSet [Key "u"; Key "tags"] v in
  wf_upd demo_env demo_uenv (u (VArr [num 1])) ∧ keys_only (path_of (u VNil)) ∧
  (let d := [("u"%string, VDoc [("tags"%string, VArr [VArr [num 1; num 2]])])] in
   run_update demo_env demo_uenv [upd_bson (u (VArr [num 1]))] d =
     Some (VDoc [("u"%string, VDoc [("tags"%string, VArr [VArr [num 1; num 2]; VArr [num 1]])])], UOk) ∧
   run_update demo_env demo_uenv [upd_bson (u (VArr [num 1; num 2]))] d = Some (VDoc d, UOk)).
Proof.
  simpl. split_and!; try done; try (repeat constructor; done).
  unfold wf_upd. simpl. split_and!; try done; try (repeat constructor; done). exists (VArr [num 1]). done.
Qed.
