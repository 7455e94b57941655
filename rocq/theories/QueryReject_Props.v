(** * Malformed queries and updates (C17, C21) and the sizes of integers (C21) *)
From Verif Require Import Filter_Model Filter_Spec Filter_Proof Filter_Props.
From Verif Require Import Update_Model Update_Spec Update_Proof Update_Props.

Definition is_operator (k : string) : Prop := ∃ r, k = String "$" r.
Lemma dollar_operator k : is_operator k ↔ dollar k = true.
Proof.
  unfold is_operator, dollar. destruct k as [|c r]; [naive_solver|]. split.
  - intros [r' [= -> _]]. by destruct r.
  - intros H. exists r. f_equal. by destruct c as [[] [] [] [] [] [] [] []].
Qed.
Lemma mapM_none {A B} (f : A → option B) l x : x ∈ l → f x = None → mapM f l = None.
Proof.
  intros Hin Hx. destruct (mapM f l) as [r|] eqn:E; [|done]. apply mapM_Some in E.
  apply elem_of_list_lookup in Hin as [i Hi]. destruct (Forall2_lookup_l _ _ _ _ _ E Hi) as (y & _ & Hy). congruence.
Qed.

(** C17. A query with an operator that is not supported is an error: at the top level, ... *)
Theorem C17_unknown_operators_are_rejected :
  ∀ E d k v, (k, v) ∈ d → is_operator k → k ∉ ["$and"; "$not"; "$or"; "$nor"] → parse_filter E d = None.
Proof.
  intros E d k v Hin Hk Hn. unfold parse_filter. rewrite (mapM_none _ _ _ Hin); [done|]. simpl. apply dollar_operator in Hk.
  rewrite !elem_of_cons, elem_of_nil in Hn. destruct v; simpl; rewrite Hk, !bool_decide_eq_false_2 by tauto; done.
Qed.
Print Assumptions C17_unknown_operators_are_rejected.

(** ... and in the condition of a field, unless there is an $exists beside it ... *)
Theorem C17_unknown_condition_is_rejected :
  ∀ E d k ops op x, (k, VDoc ops) ∈ d → ¬ is_operator k → (op, x) ∈ ops → is_operator op →
    op ∉ ["$eq"; "$gt"; "$gte"; "$lt"; "$lte"; "$ne"; "$in"; "$regex"; "$all"; "$elemMatch"] →
    (∀ v, ("$exists", v) ∉ ops) → parse_filter E d = None.
Proof.
  intros E d k ops op x Hin Hk Hop Ho Hn Hex. unfold parse_filter. rewrite (mapM_none _ _ _ Hin); [done|]. cbn [fst snd].
  assert (dollar k = false) as Hk'. { destruct (dollar k) eqn:E'; [|done]. by apply dollar_operator in E'. }
  apply dollar_operator in Ho. rewrite !elem_of_cons, elem_of_nil in Hn.
  assert (∀ j, bool_decide (k = String "$" j) = false) as Hkd.
  { intros j. apply bool_decide_eq_false_2. intros ->. apply Hk. by exists j. }
  simpl. rewrite !Hkd, Hk'. assert (existsb (λ e, dollar e.1) ops = true) as ->.
  { apply existsb_exists. exists (op, x). split; [by apply elem_of_list_In|done]. }
  assert (parse_exists ops = Some None) as Hpe.
  { clear -Hex. induction ops as [|[j v] ops IH]; [done|]. simpl. rewrite bool_decide_eq_false_2.
    - apply IH. intros v' Hv'. apply (Hex v'). by right.
    - intros ->. apply (Hex v). by left. }
  assert (parse_value_ops E ops = None) as Hpv.
  { unfold parse_value_ops. rewrite (mapM_none _ _ _ Hop); [done|]. simpl. unfold parse_value_op.
    assert (parse_numeric E op x = None) as ->.
    { unfold parse_numeric, num_cmp. rewrite !bool_decide_eq_false_2 by tauto. destruct (int_value x); [done|]. by destruct (float_value E x). }
    rewrite !bool_decide_eq_false_2 by tauto. done. }
  match goal with |- context [match ?g ops [] with _ => _ end] => set (goa := g) end.
  assert (∀ o acc l, goa o acc = Some l → length l ≤ length acc + length o ∧ ((op, x) ∈ o → length l < length acc + length o)) as Hlen.
  { induction o as [|[j w] o IH]; intros acc l; cbn.
    - intros [= <-]. split; [lia|]. by intros ?%elem_of_nil.
    - case_bool_decide as Hj; [|case_bool_decide as Hj'].
      + destruct w; try done. match goal with |- context [mapM (parse_value E) ?a] => destruct (mapM (parse_value E) a) as [fs|] end; [|done]. intros [H1 H2]%IH. rewrite app_length in *. simpl in *.
        split; [lia|]. intros [[= -> _]|H]%elem_of_cons; [tauto|]. apply H2 in H. lia.
      + destruct w; try done. match goal with |- context [match ?q with Some f => goa o _ | None => None end] => destruct q end; [|done].
        intros [H1 H2]%IH. rewrite app_length in *. simpl in *. split; [lia|]. intros [[= -> _]|H]%elem_of_cons; [tauto|]. apply H2 in H. lia.
      + intros [H1 H2]%IH. split; [lia|]. intros _. lia. }
  destruct (goa ops []) as [[|f fs]|] eqn:Hg; [|rewrite bool_decide_eq_false_2; [done|]|done].
  - by rewrite Hpe, Hpv.
  - destruct (Hlen _ _ _ Hg) as [_ H]. specialize (H Hop). simpl in *. lia.
Qed.
Print Assumptions C17_unknown_condition_is_rejected.
(** ... in which case it is ignored. *)
Theorem C17_unknown_condition_beside_exists_refuted :
  ¬ (∀ E d k ops op x, (k, VDoc ops) ∈ d → ¬ is_operator k → (op, x) ∈ ops → is_operator op →
       op ∉ ["$eq"; "$gt"; "$gte"; "$lt"; "$lte"; "$ne"; "$in"; "$regex"; "$all"; "$elemMatch"; "$exists"] → parse_filter E d = None).
Proof.
  intros H. specialize (H demo_env [("a", VDoc [("$exists", VBool false); ("$foo", VNil)])] "a" [("$exists", VBool false); ("$foo", VNil)] "$foo" VNil).
  assert (parse_filter demo_env [("a", VDoc [("$exists", VBool false); ("$foo", VNil)])] = None) as E.
  { apply H; [by left|by intros [r ?]|right; by left|by exists "foo"|]. rewrite !elem_of_cons, elem_of_nil. naive_solver. }
  vm_compute in E. discriminate.
Qed.
Print Assumptions C17_unknown_condition_beside_exists_refuted.
Example C17_rejects_nonvacuous :
  parse_filter demo_env [("a", VInt TInt 1); ("$nand", VArr [])] = None ∧ parse_filter demo_env [("a", VDoc [("$gt", VInt TInt 1); ("$mod", VInt TInt 3)])] = None ∧
  parse_filter demo_env [("a", VDoc [("$gt", VInt TInt 1)])] ≠ None.
Proof. by vm_compute. Qed.

(** C21. An update with an operator that is not supported, one whose argument is not a document, or an $inc
    by anything but an integer is an error, and the document is left alone. *)
Theorem C21_malformed_updates_are_rejected :
  ∀ E U d doc op arg, (op, arg) ∈ d →
    (op ∉ ["$set"; "$unset"; "$inc"; "$push"; "$addToSet"; "$pull"] ∨
     (∀ args, arg ≠ VDoc args) ∨
     (op = "$inc" ∧ ∃ args k v, arg = VDoc args ∧ (k, v) ∈ args ∧ ∀ t z, v ≠ VInt t z)) →
    run_update E U d doc = None.
Proof.
  intros E U d doc op arg Hin H. assert (parse_update E U d = None) as Hp.
  { induction d as [|[o a] d IH]; [by apply elem_of_nil in Hin|]. simpl. unfold known_op. case_bool_decide as Ho; [|done].
    destruct a as [| | | | | | | | | |args]; try done.
    destruct (mapM (λ e, parse_one E U o e.1 e.2) args) as [us|] eqn:Em; [|done].
    apply elem_of_cons in Hin as [[= -> ->]|Hin]; [|by rewrite IH].
    exfalso. destruct H as [H|[H|(-> & args' & k & v & [= <-] & Hkv & Hv)]]; [done|by eapply H|].
    rewrite (mapM_none _ _ _ Hkv) in Em; [done|]. unfold parse_one. simpl. destruct v; try done. by destruct (Hv t z). }
  unfold run_update. by rewrite Hp.
Qed.
Print Assumptions C21_malformed_updates_are_rejected.
Example C21_malformed_nonvacuous : ∀ E U doc,
  run_update E U [("$inc", VDoc [("a", VStr "1")])] doc = None ∧ run_update E U [("$rename", VDoc [])] doc = None.
Proof.
  intros E U doc. split; (eapply C21_malformed_updates_are_rejected; [by left|]).
  - right. right. split; [done|]. eexists _, _, _. split; [done|]. split; [by left|]. done.
  - left. rewrite !elem_of_cons, elem_of_nil. naive_solver.
Qed.

(** The sizes of Go's integer types, on a 64 bit machine. *)
Definition least (t : ity) : Z :=
  match t with TInt8 => -128 | TInt16 => -32768 | TInt32 => -2147483648 | TInt | TInt64 => -9223372036854775808 end.
Definition greatest (t : ity) : Z :=
  match t with TInt8 => 127 | TInt16 => 32767 | TInt32 => 2147483647 | TInt | TInt64 => 9223372036854775807 end.
Definition values (t : ity) : Z :=
  match t with TInt8 => 256 | TInt16 => 65536 | TInt32 => 4294967296 | TInt | TInt64 => 18446744073709551616 end.
(** $inc adds and wraps around at the size of the stored integer. *)
Theorem C21_inc_wraps_at_size :
  ∀ E U p t ta z a d, p ≠ [] → Forall wf_seg p → fits U p (VDoc d) → get p (VDoc d) = Some (VInt t z) →
    ∃ v' s, run_update E U [upd_bson (PInc p ta a)] d = Some (v', UOk) ∧ get p v' = Some (VInt t s) ∧
      (least t ≤ s ≤ greatest t)%Z ∧ (∃ k, s = z + a + k * values t)%Z ∧ ((least t ≤ z + a ≤ greatest t)%Z → s = (z + a)%Z).
Proof.
  intros E U p t ta z a d H1 H2 H3 H4. destruct (C21_inc_adds_modulo_width E U p t ta z a d H1 H2 H3 H4) as (v' & s & Hr & Hg & [Hs Hk] & Hin & _).
  exists v', s. unfold in_range in *. destruct t; simpl in *; (split_and!; [done|done|lia|lia|done|intros; apply Hin; lia]).
Qed.
Print Assumptions C21_inc_wraps_at_size.
