(** * Properties of NoSQL updates (C20, C21) *)
From Coq Require Import Lia.
From Verif Require Import Update_Spec Update_Proof Filter_Props.

(** C20. For every document and every $set, $push, $addToSet, $pull or $inc along a path whose positions (if
    any) are at the end of their arrays: if the update succeeds then the addressed place holds the
    operator's result, and every place off the path holds what it held before. *)
Theorem C20_update_effect_and_frame :
  ∀ E U u d v', wf_upd E U u → ¬ is_unset u → fits U (path_of u) (VDoc d) →
    run_update E U [upd_bson u] d = Some (v', UOk) →
    ∃ new, get (path_of u) v' = Some new ∧ effect E U u (default VNil (get (path_of u) (VDoc d))) new ∧
      ∀ q, apart (path_of u) q → get q v' = get q (VDoc d).
Proof. exact run_update_spec. Qed.
Print Assumptions C20_update_effect_and_frame.

(** Paths of field names only always qualify. *)
Theorem C20_field_paths_fit : ∀ U p v, keys_only p → fits U p v.
Proof. exact keys_only_fits. Qed.
Print Assumptions C20_field_paths_fit.

(** It succeeds whenever the addressed place exists and the operator applies to what is there. *)
Theorem C20_update_succeeds :
  ∀ E U u d old new, wf_upd E U u → ¬ is_unset u →
    get (path_of u) (VDoc d) = Some old → effect E U u old new →
    ∃ v', run_update E U [upd_bson u] d = Some (v', UOk).
Proof. exact run_update_ok. Qed.
Print Assumptions C20_update_succeeds.

(** $unset takes out a field (of a document whose field names are distinct) or nulls an array element, and
    leaves every other place as it was, if the positions before the last step are at the end. *)
Theorem C20_unset_effect_and_frame :
  ∀ E U p s x d v', Forall wf_seg (p ++ [s]) → at_end p (VDoc d) →
    (∀ d', get p (VDoc d) = Some (VDoc d') → NoDup (keys d')) →
    run_update E U [upd_bson (PUnset (p ++ [s]) x)] d = Some (v', UOk) →
    get (p ++ [s]) v' = match s with
                        | Key _ => None
                        | Idx _ => match get (p ++ [s]) (VDoc d) with Some _ => Some VNil | None => None end
                        end ∧
    ∀ q, apart (p ++ [s]) q → get q v' = get q (VDoc d).
Proof. exact run_unset_spec. Qed.
Print Assumptions C20_unset_effect_and_frame.

(** An update document of several updates that fails at one of them leaves what those before it made of
    the document; in particular a single update that fails leaves the document as it was. *)
Theorem C20_failure_keeps_completed_prefix :
  ∀ E U us v v' r, apply_all E U us v = (v', r) → r ≠ UOk →
    ∃ us1 u us2, us = us1 ++ u :: us2 ∧ apply_all E U us1 v = (v', UOk) ∧ uapply E U u v' = (v', r).
Proof. exact apply_all_fail. Qed.
Print Assumptions C20_failure_keeps_completed_prefix.

Definition demo_uenv : uenv := UEnv Some (λ _, []).
Definition num (z : Z) : val := VInt TInt64 z.
Definition udoc : doc := [("n", num 1); ("u", VDoc [("tags", VArr [VStr "x"; VStr "y"]); ("k", VNil)]); ("z", VBool true)]%string.
Example C20_nonvacuous :
  let p := [Key "u"; Key "tags"; Idx 1] in
  let u := PAddToSet [Key "u"; Key "new"; Key "l"] (VStr "q") in
  wf_upd demo_env demo_uenv (PSet p (num 7)) ∧ fits demo_uenv p (VDoc udoc) ∧
  run_update demo_env demo_uenv [upd_bson (PSet p (num 7))] udoc =
    Some (VDoc [("n", num 1); ("u", VDoc [("tags", VArr [VStr "x"; num 7]); ("k", VNil)]); ("z", VBool true)]%string, UOk) ∧
  wf_upd demo_env demo_uenv u ∧ keys_only (path_of u) ∧
  run_update demo_env demo_uenv [upd_bson u] udoc =
    Some (VDoc [("n", num 1); ("u", VDoc [("tags", VArr [VStr "x"; VStr "y"]); ("k", VNil); ("new", VDoc [("l", VArr [VStr "q"])])]); ("z", VBool true)]%string, UOk) ∧
  at_end [Key "u"] (VDoc udoc) ∧
  run_update demo_env demo_uenv [upd_bson (PUnset [Key "u"; Key "tags"] VNil)] udoc =
    Some (VDoc [("n", num 1); ("u", VDoc [("k", VNil)]); ("z", VBool true)]%string, UOk) ∧
  apart p [Key "u"; Key "k"].
Proof.
  split; [|split; [|split; [|split; [|split; [|split; [|split; [|split]]]]]]].
  - split; [done|split; [by repeat constructor|]]. by exists (num 7).
  - left. by exists [VStr "x"], (VStr "y").
  - by vm_compute.
  - split; [done|split; [by repeat constructor|]]. split; [by exists (VStr "q")|done].
  - repeat constructor.
  - by vm_compute.
  - exact I.
  - by vm_compute.
  - by exists [Key "u"], (Key "tags"), (Key "k"), [Idx 1], [].
Qed.

(** What fails.  A position before the end loses the elements after it, for $set ... *)
Theorem C20_set_keeps_later_elements_refuted :
  ¬ (∀ E U u d v', wf_upd E U u → run_update E U [upd_bson u] d = Some (v', UOk) →
       ∀ q, apart (path_of u) q → get q v' = get q (VDoc d)).
Proof.
  intros H. specialize (H demo_env demo_uenv (PSet [Key "a"; Idx 0] (num 9)) [("a"%string, VArr [num 1; num 2; num 3])]
    (VDoc [("a"%string, VArr [num 9])])).
  assert (None = Some (num 2)) as [=]. change (get [Key "a"; Idx 1] (VDoc [("a"%string, VArr [num 9])]) =
    get [Key "a"; Idx 1] (VDoc [("a"%string, VArr [num 1; num 2; num 3])])).
  apply H; [|by vm_compute|by exists [Key "a"], (Idx 0), (Idx 1), [], []].
  split; [done|split; [by repeat constructor|]]. by exists (num 9).
Qed.
Print Assumptions C20_set_keeps_later_elements_refuted.

(** ... and even for $unset of something inside an earlier element. *)
Theorem C20_unset_keeps_later_elements_refuted :
  ¬ (∀ E U p x d v', p ≠ [] → Forall wf_seg p → run_update E U [upd_bson (PUnset p x)] d = Some (v', UOk) →
       ∀ q, apart p q → get q v' = get q (VDoc d)).
Proof.
  intros H. specialize (H demo_env demo_uenv [Key "a"; Idx 0; Key "b"] VNil [("a"%string, VArr [VDoc []; num 2])]
    (VDoc [("a"%string, VArr [VDoc []])])).
  assert (None = Some (num 2)) as [=]. change (get [Key "a"; Idx 1] (VDoc [("a"%string, VArr [VDoc []])]) =
    get [Key "a"; Idx 1] (VDoc [("a"%string, VArr [VDoc []; num 2])])).
  apply H; [done|repeat constructor|by vm_compute|]. by exists [Key "a"], (Idx 0), (Idx 1), [Key "b"], [].
Qed.
Print Assumptions C20_unset_keeps_later_elements_refuted.

(** An update document is not applied all or nothing. *)
Theorem C20_update_document_is_atomic_refuted :
  ¬ (∀ E U ud d v' r, run_update E U ud d = Some (v', r) → r ≠ UOk → v' = VDoc d).
Proof.
  intros H. specialize (H demo_env demo_uenv [upd_bson (PInc [Key "n"] TInt 1); upd_bson (PPush [Key "n"] (num 0))] [("n"%string, num 1)]
    (VDoc [("n"%string, num 2)]) UErr). assert (VDoc [("n"%string, num 2)] = VDoc [("n"%string, num 1)]) as [=]. apply H; [by vm_compute|done].
Qed.
Print Assumptions C20_update_document_is_atomic_refuted.

(** $pull from a field that does not exist makes the field, holding null. *)
Theorem C20_pull_makes_no_fields_refuted :
  ¬ (∀ E U p l d v', wf_upd E U (PPull p l) → get p (VDoc d) = None →
       run_update E U [upd_bson (PPull p l)] d = Some (v', UOk) → v' = VDoc d).
Proof.
  intros H. specialize (H demo_env demo_uenv [Key "a"] (num 1) [] (VDoc [("a"%string, VNil)])).
  assert (VDoc [("a"%string, VNil)] = VDoc []) as [=]. apply H; [|done|by vm_compute].
  split; [done|split; [by repeat constructor|done]].
Qed.
Print Assumptions C20_pull_makes_no_fields_refuted.

(** A field of the members of an array, which a query can name as "a.b", cannot be updated as "a.b". *)
Theorem C20_updates_reach_where_queries_do_refuted :
  ¬ (∀ E U p v d x, wf_upd E U (PSet p v) → reach true p (VDoc d) x →
       ∃ v', run_update E U [upd_bson (PSet p v)] d = Some (v', UOk)).
Proof.
  intros H. destruct (H demo_env demo_uenv [Key "a"; Key "b"] (num 1) [("a"%string, VArr [VDoc [("b"%string, num 0)]])] (num 0)) as [v' Hv'].
  - split; [done|split; [by repeat constructor|]]. by exists (num 1).
  - eapply reach_step; [by constructor|]. eapply reach_step; [|constructor]. eapply step_any; [done|by left|done].
  - by vm_compute in Hv'.
Qed.
Print Assumptions C20_updates_reach_where_queries_do_refuted.

(** C21. $inc on a stored integer, of any of Go's signed types and by any amount, succeeds and stores an
    integer of the same type: the sum if the type can hold it, and in any case the sum modulo the width. *)
Theorem C21_inc_adds_modulo_width :
  ∀ E U p t ta z a d, p ≠ [] → Forall wf_seg p → fits U p (VDoc d) → get p (VDoc d) = Some (VInt t z) →
    ∃ v' s, run_update E U [upd_bson (PInc p ta a)] d = Some (v', UOk) ∧
      get p v' = Some (VInt t s) ∧ machine_sum t z a s ∧ (in_range t (z + a) → s = (z + a)%Z) ∧
      ∀ q, apart p q → get q v' = get q (VDoc d).
Proof.
  intros E U p t ta z a d Hne Hp Hf Hg.
  assert (wf_upd E U (PInc p ta a)) as Hw by done.
  destruct (run_update_ok E U (PInc p ta a) d (VInt t z) (VInt t (wrap (bits t) (z + a))) Hw) as [v' Hv']; [by intros []|done| |].
  { left. exists t, z, (wrap (bits t) (z + a)). split_and!; auto. by apply machine_sum_wrap. }
  destruct (run_update_spec E U _ _ _ Hw ltac:(by intros []) Hf Hv') as (new & H1 & H2 & H3). simpl in H1, H2, H3.
  rewrite Hg in H2. simpl in H2. destruct H2 as [(t' & z' & s & Ho & -> & Hs)|(sg & x & [=] & _)].
  destruct Ho as [[= <- <-]|([=] & _)]. exists v', s. split_and!; [done|done|done| |done].
  intros Hr. apply machine_sum_wrap in Hs as ->. symmetry. apply wrap_unique; [apply bits_pos|done|]. exists 0%Z. lia.
Qed.
Print Assumptions C21_inc_adds_modulo_width.

(** Adding an amount and then its opposite restores the document, even across an overflow. *)
Theorem C21_inc_there_and_back :
  ∀ E U p t ta tb z a b d v', p ≠ [] → Forall wf_seg p → fits U p (VDoc d) →
    get p (VDoc d) = Some (VInt t z) → in_range t z → (a + b = 0)%Z →
    run_update E U [upd_bson (PInc p ta a)] d = Some (v', UOk) →
    ∃ d', v' = VDoc d' ∧ run_update E U [upd_bson (PInc p tb b)] d' = Some (VDoc d, UOk).
Proof. exact run_inc_back. Qed.
Print Assumptions C21_inc_there_and_back.

Example C21_nonvacuous :
  let d := [("a", VDoc [("c", VArr [num 0; VInt TInt8 127])])]%string in
  let p := [Key "a"; Key "c"; Idx 1] in
  fits demo_uenv p (VDoc d) ∧ get p (VDoc d) = Some (VInt TInt8 127) ∧ in_range TInt8 127 ∧
  run_update demo_env demo_uenv [upd_bson (PInc p TInt 3)] d =
    Some (VDoc [("a", VDoc [("c", VArr [num 0; VInt TInt8 (-126)])])]%string, UOk).
Proof. split_and!; [left; by exists [num 0], (VInt TInt8 127)|by vm_compute..]. Qed.
