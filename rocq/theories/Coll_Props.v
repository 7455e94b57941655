(** * Properties of NoSQL collections (C22, C23) *)
From Verif Require Import Coll_Spec Coll_Proof Update_Props Filter_Props.

(** C22. For every history of calls on a new collection, with queries and updates from the supported
    grammar: each reply and each change is the one specified for an ordered list of documents.  Inserts
    append; finds return the first, or all, matching documents in order and change nothing; deletes take
    out exactly those; updates and replacements change exactly those, in place; counts are true. *)
Theorem C22_collection_is_ordered_list :
  ∀ E U C cs s rs, Forall (wf_call E U) cs →
    exec_all E U C empty_coll (map op_of cs) = (s, rs) → meets_all E U C empty_coll cs rs s.
Proof. intros E U C cs s rs. apply exec_all_meets. Qed.
Print Assumptions C22_collection_is_ordered_list.

(** From any state, so also between any two calls. *)
Theorem C22_every_call_meets_its_specification :
  ∀ E U C s c s' r, wf_call E U c → exec E U C s (op_of c) = (s', r) → meets E U C s c r s'.
Proof. exact exec_meets. Qed.
Print Assumptions C22_every_call_meets_its_specification.

(** A call whose filter is malformed (ReplaceMany excepted) reports an error and changes nothing. *)
Theorem C22_malformed_filter_is_reported :
  ∀ E U C s o f s' r, filter_of o = Some f → parse_filter E f = None → exec E U C s o = (s', r) →
    s' = s ∧ ∃ v, r = Some (v, true).
Proof. exact bad_filter. Qed.
Print Assumptions C22_malformed_filter_is_reported.

(** After any history of inserts, finds and deletes, every document has an "_id". *)
Theorem C22_inserted_documents_have_ids :
  ∀ E U C cs s rs, Forall (wf_call E U) cs → Forall keeps_ids cs →
    exec_all E U C empty_coll (map op_of cs) = (s, rs) → ∀ d, d ∈ items s → "_id"%string ∈ keys d.
Proof. exact history_ids. Qed.
Print Assumptions C22_inserted_documents_have_ids.

Definition demo_cenv : cenv := CEnv (VOther 0) Some.
Definition has (k : string) (v : val) : list query := [QLit [Key k] v].
Lemma has_wf k z : wf_path [Key k] → Forall (wf_query demo_env) (has k (num z)).
Proof. intros Hk. constructor; [|constructor]. split; [done|]. split; [done|]. by intros []. Qed.
Definition demo_calls : list call :=
  [CInsertMany [ABson [("n", num 1)]; AValue (Some [("_id", num 9); ("n", num 2)]); ABson [("n", num 1); ("m", num 5)]];
   CFindMany (has "n" (num 1)); CUpdateMany (has "n" (num 1)) [PInc [Key "n"] TInt 1]; CDeleteOne (has "n" (num 2));
   CReplaceOne (has "m" (num 5)) (ABson [("x", num 0)]); CFindMany []]%string.
Example C22_nonvacuous :
  Forall (wf_call demo_env demo_uenv) demo_calls ∧
  exec_all demo_env demo_uenv demo_cenv empty_coll (map op_of demo_calls) =
    (Coll [[("_id", num 9); ("n", num 2)]; [("x", num 0)]] 2,
     [Some (Nothing, false);
      Some (Docs [[("_id", VOther 0 0); ("n", num 1)]; [("_id", VOther 0 1); ("n", num 1); ("m", num 5)]], false);
      Some (Count 2, false); Some (Nothing, false); Some (Count 1, false);
      Some (Docs [[("_id", num 9); ("n", num 2)]; [("x", num 0)]], false)])%string.
Proof.
  split; [|by vm_compute].
  assert (∀ k, has_dot k = false → atoi k = None → dollar k = false → wf_path [Key k]) as Hk.
  { intros k H1 H2 H3. split; [done|]. split; [|done]. constructor; [|constructor]. done. }
  unfold demo_calls. rewrite !list.Forall_cons, Forall_nil. cbn [wf_call].
  split; [done|]. split; [by apply has_wf, Hk|]. split.
  { split; [by apply has_wf, Hk|]. constructor; [|constructor]. split; [done|]. split; [|done]. constructor; [|constructor]. done. }
  split; [by apply has_wf, Hk|]. split; [by apply has_wf, Hk|]. by split.
Qed.

(** What fails: ReplaceMany reports a malformed filter as success, ... *)
Theorem C22_replacemany_reports_malformed_filter_refuted :
  ¬ (∀ E U C s f rs s' v e, parse_filter E f = None → exec E U C s (ReplaceMany f rs) = (s', Some (v, e)) → e = true).
Proof.
  intros H. specialize (H demo_env demo_uenv demo_cenv empty_coll [("a"%string, VDoc [("$exists"%string, VBool true)])] [] empty_coll (Count 0) false).
  assert (false = true) as [=]. apply H; by vm_compute.
Qed.
Print Assumptions C22_replacemany_reports_malformed_filter_refuted.

(** ... a replacement that cannot be encoded destroys the document it was to replace, ... *)
Theorem C22_failed_replacement_keeps_document_refuted :
  ¬ (∀ E U C s f a s' v, exec E U C s (ReplaceOne f a) = (s', Some (v, true)) → items s' = items s).
Proof.
  intros H. specialize (H demo_env demo_uenv demo_cenv (Coll [[("n"%string, num 1)]] 0) [] (AValue None) (Coll [[]] 0) (Count 1)).
  assert ([[]] = [[("n"%string, num 1)]]) as [=]. apply H. by vm_compute.
Qed.
Print Assumptions C22_failed_replacement_keeps_document_refuted.

(** ... a replacement does not keep the document's "_id", ... *)
Theorem C22_documents_always_have_ids_refuted :
  ¬ (∀ E U C cs s rs, Forall (wf_call E U) cs → exec_all E U C empty_coll (map op_of cs) = (s, rs) →
       ∀ d, d ∈ items s → "_id"%string ∈ keys d).
Proof.
  intros H. specialize (H demo_env demo_uenv demo_cenv [CInsertOne (ABson [("_id"%string, num 1)]); CReplaceOne [] (ABson [("x"%string, num 0)])]
    (Coll [[("x"%string, num 0)]] 0) [Some (Nothing, false); Some (Count 1, false)]).
  assert ("_id"%string ∈ ["x"%string]) as Hin; [|by set_solver].
  apply (H ltac:(repeat constructor) ltac:(by vm_compute) [("x"%string, num 0)]). by left.
Qed.
Print Assumptions C22_documents_always_have_ids_refuted.

(** ... and identifiers are not unique. *)
Theorem C22_ids_are_unique_refuted :
  ¬ (∀ E U C cs s rs, Forall (wf_call E U) cs → Forall keeps_ids cs → exec_all E U C empty_coll (map op_of cs) = (s, rs) →
       NoDup (map (field "_id") (items s))).
Proof.
  intros H. specialize (H demo_env demo_uenv demo_cenv [CInsertMany [ABson [("_id"%string, num 1)]; ABson [("_id"%string, num 1)]]]
    (Coll [[("_id"%string, num 1)]; [("_id"%string, num 1)]] 0) [Some (Nothing, false)]
    ltac:(repeat constructor) ltac:(repeat constructor) ltac:(by vm_compute)).
  simpl in H. apply list.NoDup_cons in H as [Hn _]. apply Hn. by left.
Qed.
Print Assumptions C22_ids_are_unique_refuted.

(** C23. Upsert replaces the first match, or else inserts one document (see [meets]); the collection grows
    exactly when it reports that nothing was replaced, and then by one. *)
Theorem C23_upsert_replaces_or_inserts :
  ∀ E U C s qs a s' r, Forall (wf_query E) qs →
    exec E U C s (Upsert (map query_bson qs) a) = (s', r) →
    meets E U C s (CUpsert qs a) r s' ∧
    ∃ b e, r = Some (Flag b, e) ∧
      length (items s') = (if b || e then length (items s) else S (length (items s)))%bool.
Proof.
  intros E U C s qs a s' r Hq H. split; [exact (exec_meets E U C s (CUpsert qs a) s' r Hq H)|exact (upsert_size E U C s qs a s' r Hq H)].
Qed.
Print Assumptions C23_upsert_replaces_or_inserts.

(** If the document satisfies the query then upserting it again replaces and does not grow the collection. *)
Theorem C23_upsert_converges :
  ∀ E U C s qs a s1 v s2 r2, Forall (wf_query E) qs →
    (∀ d, to_bson C a = Some d → holds E qs d) →
    (∀ d n, encoded a = Some d →
       if decide ("_id"%string ∈ keys d) then holds E qs d else holds E qs (("_id"%string, fresh_id C n) :: d)) →
    exec E U C s (Upsert (map query_bson qs) a) = (s1, Some (v, false)) →
    exec E U C s1 (Upsert (map query_bson qs) a) = (s2, r2) →
    ∃ e, r2 = Some (Flag true, e) ∧ length (items s2) = length (items s1).
Proof. exact upsert_again. Qed.
Print Assumptions C23_upsert_converges.

(** In particular UpsertID of a document that has that identifier. *)
Theorem C23_upsertid_converges :
  ∀ E U C k i a d d' s s1 v s2 r2,
    encoded a = Some d → field "_id" d = Some (VOther k i) →
    to_bson C a = Some d' → field "_id" d' = Some (VOther k i) →
    exec E U C s (UpsertID (VOther k i) a) = (s1, Some (v, false)) →
    exec E U C s1 (UpsertID (VOther k i) a) = (s2, r2) →
    ∃ e, r2 = Some (Flag true, e) ∧ length (items s2) = length (items s1).
Proof. exact upsertid_again. Qed.
Print Assumptions C23_upsertid_converges.

(** Without the identifier in the document, which the API asks for but does not check, every UpsertID
    inserts another copy. *)
Theorem C23_upsertid_converges_without_id_refuted :
  ¬ (∀ E U C k i a s s1 v s2 r2,
       exec E U C s (UpsertID (VOther k i) a) = (s1, Some (v, false)) →
       exec E U C s1 (UpsertID (VOther k i) a) = (s2, r2) → length (items s2) = length (items s1)).
Proof.
  intros H. specialize (H demo_env demo_uenv demo_cenv 0 7 (ABson [("n"%string, num 1)]) empty_coll).
  specialize (H (Coll [[("_id"%string, VOther 0 0); ("n"%string, num 1)]] 1) (Flag false)
    (Coll [[("_id"%string, VOther 0 0); ("n"%string, num 1)]; [("_id"%string, VOther 0 1); ("n"%string, num 1)]] 2) (Some (Flag false, false))).
  assert (2 = 1) as [=]. apply H; by vm_compute.
Qed.
Print Assumptions C23_upsertid_converges_without_id_refuted.

Example C23_nonvacuous :
  let a := ABson [("_id", VOther 0 7); ("n", num 1)]%string in
  exec demo_env demo_uenv demo_cenv (Coll [[("n"%string, num 3)]] 5) (UpsertID (VOther 0 7) a) =
    (Coll [[("n", num 3)]; [("_id", VOther 0 7); ("n", num 1)]]%string 5, Some (Flag false, false)) ∧
  exec demo_env demo_uenv demo_cenv (Coll [[("n", num 3)]; [("_id", VOther 0 7); ("n", num 0)]]%string 5) (UpsertID (VOther 0 7) a) =
    (Coll [[("n", num 3)]; [("_id", VOther 0 7); ("n", num 1)]]%string 5, Some (Flag true, false)).
Proof. split; by vm_compute. Qed.
