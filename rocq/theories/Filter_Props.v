(** * Properties of NoSQL queries (C17, C18, C19) *)
From Verif Require Import Filter_Model Filter_Spec Filter_Proof.

(** C17. For every float arithmetic and regexp engine, and every query document built from field
    conditions on (dotted) paths, the operators $eq $ne $gt $gte $lt $lte $in $regex $all $elemMatch and
    the connectives $and $or $nor $not, nested arbitrarily: the query is accepted, evaluating it never
    panics, and it holds of exactly the values that satisfy it. *)
Theorem C17_filter_means_query :
  ∀ E qs, Forall (wf_query E) qs →
    ∃ f, parse_filter E (map query_bson qs) = Some f ∧
      ∀ v, ∃ b, fapply E f v = Some b ∧ (b = true ↔ sats E qs v).
Proof. exact parse_filter_good. Qed.
Print Assumptions C17_filter_means_query.

Definition demo_env : env := Env Z.eqb Z.ltb Z.leb (λ z, 1000 * z)%Z (λ _ x a, x + 1000 * a)%Z (λ _, true) String.eqb.
Definition demo_query : list query :=
  [QOps [Key "user"; Key "age"] [OpGte (VInt TInt 18); OpLt (VFloat false 30500)];
   QNor [[QLit [Key "tags"] (VStr "x")]; [QElem [Key "items"] [QLit [Key "n"] (VInt TInt 1); QOps [Key "p"; Idx 0] [OpIn [VStr "a"; VNil]]]]]].
Definition demo_doc (age n : Z) : val :=
  VDoc [("_id", VOther 0 1); ("user", VDoc [("age", VInt TInt32 age)]);
        ("tags", VArr [VStr "y"; VStr "z"]);
        ("items", VArr [VDoc [("n", VInt TInt64 n); ("p", VArr [VStr "a"])]])]%string.
Example C17_nonvacuous :
  Forall (wf_query demo_env) demo_query ∧
  (∃ f, parse_filter demo_env (map query_bson demo_query) = Some f ∧
    fapply demo_env f (demo_doc 30 2) = Some true ∧ fapply demo_env f (demo_doc 31 2) = Some false ∧
    fapply demo_env f (demo_doc 30 1) = Some false).
Proof.
  split.
  - assert (∀ p, forallb (λ s, match s with Key k => negb (has_dot k) && match atoi k with None => true | _ => false end
        | Idx i => N.ltb i 1000 end) p = true → p ≠ [] → dollar (path_string p) = false → wf_path p) as Hp.
    { intros p Hp Hne Hd. split_and!; [done| |done]. apply Forall_forall. intros s Hs%elem_of_list_In.
      eapply forallb_forall in Hp; [|exact Hs]. destruct s as [k|i]; simpl.
      - apply andb_true_iff in Hp as [H1 H2]. destruct (atoi k); [done|]. by destruct (has_dot k).
      - apply N.ltb_lt in Hp. eapply N.lt_trans; [exact Hp|done]. }
    unfold demo_query. rewrite !Forall_cons, Forall_nil. cbn [wf_query]. split_and!; try done; try (by apply Hp); try (by intros []).
    + intros o. rewrite !elem_of_cons, elem_of_nil. intros [->|[->|[]]]; done.
    + intros o. rewrite !elem_of_cons, elem_of_nil. intros [->|[]]. intros l. rewrite !elem_of_cons, elem_of_nil.
      intros [->|[->|[]]]; done.
  - eexists. split; [vm_compute; reflexivity|]. by vm_compute.
Qed.

(** Where this meaning departs from the usual one.  An integer bound never matches a stored float ... *)
Theorem C17_integer_bound_matches_floats_refuted :
  ¬ (∀ E f s x z, (∀ a b, f_lt E a b = Z.ltb a b) → (∀ a, f_of_int E a = 1000 * a)%Z →
       parse_filter E [("a"%string, VDoc [("$gt"%string, VInt TInt z)])] = Some f → (f_of_int E z < x)%Z →
       fapply E f (VDoc [("a"%string, VFloat s x)]) = Some true).
Proof.
  intros H. specialize (H demo_env (FSelect "a" (FBroadcast (FCmpInt 1 CGt))) false 2500%Z 1%Z).
  assert (Some false = Some true) as [=]. rewrite <- H; try done.
Qed.
Print Assumptions C17_integer_bound_matches_floats_refuted.

(** ... a negative position in a path crashes the evaluation ... *)
Theorem C17_evaluation_never_panics_refuted :
  ¬ (∀ E d f v, parse_filter E d = Some f → fapply E f v ≠ None).
Proof.
  intros H. apply (H demo_env [("a.-1"%string, VInt TInt 1)] _ (VDoc [("a"%string, VArr [VInt TInt 1])]) eq_refl).
  by vm_compute.
Qed.
Print Assumptions C17_evaluation_never_panics_refuted.

(** ... and a document without the field does not satisfy $ne. *)
Theorem C17_ne_matches_missing_field_refuted :
  ¬ (∀ E f d k l, has_dot k = false → atoi k = None → dollar k = false → wf_lit l → field k d = None →
       parse_filter E [(k, VDoc [("$ne"%string, l)])] = Some f → fapply E f (VDoc d) = Some true).
Proof.
  intros H. specialize (H demo_env (FSelect "a" (FBroadcast (FNot (FCmpInt 1 CEq)))) [] "a"%string (VInt TInt 1)).
  assert (Some false = Some true) as [=]. by rewrite <- H.
Qed.
Print Assumptions C17_ne_matches_missing_field_refuted.

(** C18. {field: {$exists: false}} is accepted for every field, but what it tests is the absence of a
    field named "$exists": ... *)
Theorem C18_exists_false_tests_operator_name :
  ∀ E k, dollar k = false →
    ∃ f, parse_filter E [(k, VDoc [("$exists"%string, VBool false)])] = Some f ∧
      ∀ d, fapply E f (VDoc d) = Some (bool_decide (field "$exists" d = None)).
Proof. exact exists_false. Qed.
Print Assumptions C18_exists_false_tests_operator_name.

(** ... so documents that do have the field match as well. *)
Theorem C18_exists_false_excludes_present_refuted :
  ¬ (∀ E k f d, dollar k = false → has_dot k = false → atoi k = None →
       parse_filter E [(k, VDoc [("$exists"%string, VBool false)])] = Some f →
       fapply E f (VDoc d) = Some true → field k d = None).
Proof.
  intros H. specialize (H demo_env "a"%string _ [("a"%string, VNil)] eq_refl eq_refl eq_refl eq_refl).
  assert (Some VNil = None) as [=]. by apply H.
Qed.
Print Assumptions C18_exists_false_excludes_present_refuted.

(** {field: {$exists: true}} is always rejected. *)
Theorem C18_exists_true_rejected :
  ∀ E k, dollar k = false → parse_filter E [(k, VDoc [("$exists"%string, VBool true)])] = None.
Proof. exact exists_true. Qed.
Print Assumptions C18_exists_true_rejected.

Example C18_nonvacuous :
  dollar "a.b" = false ∧
  ∃ f, parse_filter demo_env [("a.b"%string, VDoc [("$exists"%string, VBool false)])] = Some f ∧
    fapply demo_env f (VDoc [("$exists"%string, VNil)]) = Some false ∧ fapply demo_env f (VDoc []) = Some true.
Proof. split; [done|]. eexists. split; [vm_compute; reflexivity|]. by vm_compute. Qed.

(** C19. {field: [l0, l1, ...]}, with at least one literal, matches exactly when the field holds an array
    that begins with values matching the literals one by one. *)
Theorem C19_array_literal_is_prefix :
  ∀ E p ls, wf_query E (QArr p ls) → ls ≠ [] →
    ∃ f, parse_filter E [query_bson (QArr p ls)] = Some f ∧ ∀ v, ∃ b, fapply E f v = Some b ∧
      (b = true ↔ ∃ a, reach true p v (VArr a) ∧ length ls ≤ length a ∧
         ∀ i l x, ls !! i = Some l → a !! i = Some x → matches E l x).
Proof. exact array_query. Qed.
Print Assumptions C19_array_literal_is_prefix.

Example C19_nonvacuous :
  wf_query demo_env (QArr [Key "a"] [VInt TInt 1; VStr "x"]) ∧
  ∃ f, parse_filter demo_env [query_bson (QArr [Key "a"] [VInt TInt 1; VStr "x"])] = Some f ∧
    fapply demo_env f (VDoc [("a"%string, VArr [VInt TInt32 1; VStr "x"])]) = Some true ∧
    fapply demo_env f (VDoc [("a"%string, VArr [VInt TInt32 1])]) = Some false.
Proof.
  split; [split; [|done]; split_and!; [done|repeat constructor|done]|]. eexists. split; [vm_compute; reflexivity|]. by vm_compute.
Qed.

(** So a longer array matches too, ... *)
Theorem C19_array_literal_exact_refuted :
  ¬ (∀ E f ls a, parse_filter E [("a"%string, VArr ls)] = Some f → fapply E f (VDoc [("a"%string, VArr a)]) = Some true →
       length a = length ls).
Proof.
  intros H. specialize (H demo_env _ [VInt TInt 1] [VInt TInt 1; VInt TInt 2] eq_refl eq_refl). done.
Qed.
Print Assumptions C19_array_literal_exact_refuted.

(** ... and the empty array literal matches any value at all. *)
Theorem C19_empty_literal_matches_anything :
  ∀ E v, ∃ f, parse_filter E [("a"%string, VArr [])] = Some f ∧ fapply E f (VDoc [("a"%string, v)]) = Some true.
Proof. intros E v. eexists. split; [reflexivity|]. done. Qed.
Print Assumptions C19_empty_literal_matches_anything.
