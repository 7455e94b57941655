(** * Exchanging the NoSQL backend *)
From Verif Require Import Mongo_Spec Filter_Proof Coll_Proof Mongo_Proof.
From Verif Require Import Filter_Props Update_Props Coll_Props.
From stdpp Require Import list.
Set Default Proof Using "Type".

(** C80. A history of portable calls gets the same replies from the in-memory backend and from MongoDB, with no error and
    no panic, and leaves the same documents in the same order. *)
Theorem C80_exchange :
  ∀ E U C S cs, (∀ d, s_order S d ≡ₚ d) → portable_all E U C S [] empty_coll cs →
    Forall2 (same_reply false) (runs (aexec E U C) empty_coll cs).2 (runs (mexec C S) empty_coll cs).2 ∧
    Forall2 sim (items (runs (aexec E U C) empty_coll cs).1) (items (runs (mexec C S) empty_coll cs).1).
Proof.
  intros E U C S cs HS Hp. destruct (simulated_all E U C S HS cs [] empty_coll Hp empty_coll) as (Hi & Hr & _); [|done].
  split; [done|]. split; [constructor|]. by intros x ?%elem_of_nil.
Qed.
Print Assumptions C80_exchange.
(** C80. Counts are the same too if every update changes each document it finds. *)
Theorem C80_counts :
  ∀ E U C S cs, (∀ d, s_order S d ≡ₚ d) → portable_all E U C S [] empty_coll cs → changing_all E U C empty_coll cs →
    Forall2 (same_reply true) (runs (aexec E U C) empty_coll cs).2 (runs (mexec C S) empty_coll cs).2.
Proof.
  intros E U C S cs HS Hp Hc. destruct (simulated_all E U C S HS cs [] empty_coll Hp empty_coll) as (_ & _ & Hr); [|auto].
  split; [done|]. split; [constructor|]. by intros x ?%elem_of_nil.
Qed.
Print Assumptions C80_counts.
(** C80. Neither the order of a document's fields nor a lost _id makes a difference to a query that does not read the
    _id. *)
Theorem C80_order_invisible :
  ∀ E qs d d', sim d d' → Forall (wf_query E) qs → Forall avoids_id qs → holds E qs d ↔ holds E qs d'.
Proof. intros E qs d d' Hs Hw Ha. apply holds_sim; auto. Qed.
Print Assumptions C80_order_invisible.
(** C80. So a filter is portable if the server gives the query its meaning, provided that it does not read the _id or
    every document still has one. *)
Theorem C80_filters :
  ∀ E S qs s, Forall (wf_query E) qs →
    (∃ g, s_match S (map query_bson qs) = Some g ∧ ∀ d, g d = true ↔ holds E qs d) →
    (∀ d, d ∈ items s → Forall avoids_id qs ∨ ∃ v, field "_id" d = Some v) →
    filter_agrees E S (map query_bson qs) s.
Proof. exact understood. Qed.
Print Assumptions C80_filters.

(** A server whose query and update languages are those of the in-memory backend. *)
Definition demo_server : server := Server
  (λ f, match parse_filter demo_env f with
        | Some q => Some (λ d, match fapply demo_env q (VDoc d) with Some b => b | None => false end) | None => None end)
  (λ u, match parse_update demo_env demo_uenv u with
        | Some us => Some (λ d, match update_doc demo_env demo_uenv us d with (e, UOk) => Some e | _ => None end) | None => None end)
  (λ p, List.filter (λ e, bool_decide (e.1 = "_id" ∨ e.1 ∈ keys p)%string))
  same_val
  (List.filter (λ e, negb (dollar e.1)))
  id.
Lemma demo_understands qs : Forall (wf_query demo_env) qs →
  ∃ g, s_match demo_server (map query_bson qs) = Some g ∧ ∀ d, g d = true ↔ holds demo_env qs d.
Proof.
  intros Hw. destruct (parse_qs demo_env qs Hw) as (q & Hq & Hg). eexists. split; [simpl; by rewrite Hq|].
  intros d. simpl. destruct (Hg d) as (b & -> & HP). done.
Qed.
Definition demo_history : list acall :=
  [AInsertMany [ABson [("_id", num 7); ("n", num 1); ("m", num 1)]; ABson [("n", num 2)]];
   AUpsert [("n", num 1)] (ABson [("m", num 5); ("n", num 1)]);
   AUpdate true [("n", num 1)] [("$inc", VDoc [("m", num 1)])];
   ADelete false [("n", num 2)];
   AFind true [("n", num 1)] [] All]%string.
Lemma demo_filter z s : filter_agrees demo_env demo_server [("n"%string, num z)] s.
Proof.
  change [("n"%string, num z)] with (map query_bson (has "n" (num z))).
  assert (Forall (wf_query demo_env) (has "n" (num z))) as Hw.
  { apply has_wf. split; [done|]. split; [|done]. constructor; [|constructor]. done. }
  apply C80_filters; [done|by apply demo_understands|]. intros d _. left. constructor; [|constructor]. done.
Qed.
Lemma demo_first many f s d : found demo_env many f s d → d ∈ items s ∧ selects demo_env f d.
Proof. destruct many; [done|]. intros (l1 & l2 & -> & _ & H). split; [set_solver|done]. Qed.
Example C80_nonvacuous :
  portable_all demo_env demo_uenv demo_cenv demo_server [] empty_coll demo_history ∧
  changing_all demo_env demo_uenv demo_cenv empty_coll demo_history ∧
  runs (aexec demo_env demo_uenv demo_cenv) empty_coll demo_history =
    (Coll [[("m", num 6); ("n", num 1)]] 1,
     [Some (Nothing, false); Some (Flag true, false); Some (Count 1, false); Some (Nothing, false);
      Some (Docs [[("m", num 6); ("n", num 1)]], false)])%string ∧
  runs (mexec demo_cenv demo_server) empty_coll demo_history =
    (Coll [[("_id", num 7); ("n", num 1); ("m", num 6)]] 1,
     [Some (Nothing, false); Some (Flag true, false); Some (Count 1, false); Some (Nothing, false);
      Some (Docs [[("_id", num 7); ("n", num 1); ("m", num 6)]], false)])%string.
Proof.
  set (s2 := Coll [[("m", num 5); ("n", num 1)]; [("_id", VOther 0 0); ("n", num 2)]]%string 1).
  assert (∀ d, found demo_env true [("n"%string, num 1)] s2 d → d = [("m", num 5); ("n", num 1)]%string) as Hf2.
  { intros d [Hd Hs]%demo_first. simpl in Hd. rewrite !elem_of_cons, elem_of_nil in Hd. destruct Hd as [->|[->|[]]]; [done|].
    destruct Hs as (q & [= <-] & H). vm_compute in H. done. }
  split; [|split; [|split; by vm_compute]].
  - eapply portable_cons.
    { split; [done|]. eapply insertable_cons with (d := [("_id", num 7); ("n", num 1); ("m", num 1)]%string).
      - split; [done|]. split; [done|]. apply (bool_decide_unpack _). by vm_compute.
      - by intros v ?%elem_of_nil.
      - eapply insertable_cons with (d := [("n", num 2)]%string); [|by intros v ->%elem_of_list_singleton|constructor].
        split; [done|]. split; [done|]. apply (bool_decide_unpack _). by vm_compute. }
    simpl aexec. eapply portable_cons.
    { assert (∀ x, found demo_env false [("n"%string, num 1)]
        (Coll [[("_id", num 7); ("n", num 1); ("m", num 1)]; [("_id", VOther 0 0); ("n", num 2)]]%string 1) x →
        x = [("_id", num 7); ("n", num 1); ("m", num 1)]%string) as Hf1.
      { intros d [Hd Hs]%demo_first. simpl in Hd. rewrite !elem_of_cons, elem_of_nil in Hd. destruct Hd as [->|[->|[]]]; [done|].
        destruct Hs as (q & [= <-] & H). vm_compute in H. done. }
      split; [apply demo_filter|]. exists [("m", num 5); ("n", num 1)]%string. split.
      { split; [done|]. split; [done|]. apply (bool_decide_unpack _). by vm_compute. }
      split; [intros x Hx; by left|]. split.
      { intros x k ->%Hf1. unfold keys. simpl. rewrite !elem_of_cons. tauto. }
      left. split; [|done]. eexists. exists []. eexists. split; [simpl; done|]. split; [by intros x ?%elem_of_nil|]. eexists. split; [done|]. by vm_compute. }
    change (aexec _ _ _ _ _).1 with s2. eapply portable_cons.
    { split; [done|]. split; [apply demo_filter|]. eexists _, _. split; [done|]. split; [done|]. split; [done|].
      intros d ->%Hf2. eexists. split; [done|]. intros d' Hs.
      assert (field "m" d' = Some (num 5)) as Hm by (by destruct (Hs "m"%string) as [<-|[? _]]).
      exists (set_field "m" (num 6) d'). simpl. unfold update_doc. simpl. rewrite Hm. split; [done|].
      assert ("m"%string ∈ keys d') as Hk by (apply field_keys; eauto). split.
      - intros k. rewrite field_set_field. simpl. destruct (decide (k = "m"%string)) as [->|Hne].
        + left. by rewrite !bool_decide_eq_true_2.
        + rewrite (bool_decide_eq_false_2 (k = "m"%string ∧ "m"%string ∈ keys d')) by tauto. specialize (Hs k). simpl in Hs.
          rewrite (bool_decide_eq_false_2 ("m"%string = k)) in * by congruence. done.
      - rewrite field_set_field. by rewrite bool_decide_eq_false_2 by naive_solver. }
    eapply portable_cons; [split; [done|apply demo_filter]|]. eapply portable_cons; [|constructor].
    split; [done|]. split; [done|]. split; [done|apply demo_filter].
  - apply changing_cons; [done|]. apply changing_cons; [done|]. apply changing_cons; [|apply changing_cons; [done|apply changing_cons; [done|constructor]]].
    change (aexec _ _ _ (aexec _ _ _ _ _).1 _).1 with s2. intros us d [= <-] ->%Hf2. exists "m"%string. split; [done|]. by vm_compute.
Qed.

(** C80 refuted without the conditions: each of these calls, after the same history, gets a different reply or leaves a
    different document. *)
Definition simple_run := runs (aexec demo_env demo_uenv demo_cenv) empty_coll.
Definition mongo_run := runs (mexec demo_cenv demo_server) empty_coll.
Definition one (d : doc) : acall := AInsertOne (ABson d).

(** Upsert replaces the document in memory, as documented; MongoDB merges the fields into it. *)
Theorem C80_upsert_refuted :
  let cs := [one [("_id", num 7); ("k", num 1); ("old", num 2)]; AUpsert [("k", num 1)] (ABson [("_id", num 7); ("k", num 1); ("new", num 3)])]%string in
  items (simple_run cs).1 = [[("_id", num 7); ("k", num 1); ("new", num 3)]]%string ∧
  items (mongo_run cs).1 = [[("_id", num 7); ("k", num 1); ("old", num 2); ("new", num 3)]]%string.
Proof. split; by vm_compute. Qed.
Print Assumptions C80_upsert_refuted.
(** An update that changes nothing counts 1 in memory and 0 in MongoDB. *)
Theorem C80_count_refuted :
  let cs := [one [("_id", num 7); ("status", num 1)]; AUpdate false [("_id", num 7)] [("$set", VDoc [("status", num 1)])]]%string in
  (simple_run cs).2 = [Some (Nothing, false); Some (Count 1, false)] ∧
  (mongo_run cs).2 = [Some (Nothing, false); Some (Count 0, false)].
Proof. split; by vm_compute. Qed.
Print Assumptions C80_count_refuted.
(** A document whose _id is taken is stored a second time in memory and refused by MongoDB. *)
Theorem C80_duplicate_refuted :
  let cs := [one [("_id", num 7); ("n", num 1)]; one [("_id", num 7); ("n", num 2)]]%string in
  (simple_run cs).2 = [Some (Nothing, false); Some (Nothing, false)] ∧ length (items (simple_run cs).1) = 2 ∧
  (mongo_run cs).2 = [Some (Nothing, false); Some (Nothing, true)] ∧ length (items (mongo_run cs).1) = 1.
Proof. split_and!; by vm_compute. Qed.
Print Assumptions C80_duplicate_refuted.
(** A replacement with another _id is accepted in memory and refused by MongoDB. *)
Theorem C80_replace_id_refuted :
  let cs := [one [("_id", num 7); ("n", num 1)]; AReplaceOne [("n", num 1)] (ABson [("_id", num 8); ("n", num 1)])]%string in
  simple_run cs = (Coll [[("_id", num 8); ("n", num 1)]]%string 0, [Some (Nothing, false); Some (Count 1, false)]) ∧
  mongo_run cs = (Coll [[("_id", num 7); ("n", num 1)]]%string 0, [Some (Nothing, false); Some (Count 0, true)]).
Proof. split; by vm_compute. Qed.
Print Assumptions C80_replace_id_refuted.
(** A replacement without _id makes the document unreachable by its _id in memory, not in MongoDB. *)
Theorem C80_lost_id_refuted :
  let cs := [one [("_id", num 7); ("n", num 1)]; AReplaceOne [("n", num 1)] (ABson [("n", num 2)]); AFind false [("_id", num 7)] [] One]%string in
  last (simple_run cs).2 = Some (Some (Docs [], false)) ∧
  last (mongo_run cs).2 = Some (Some (Docs [[("_id", num 7); ("n", num 2)]], false))%string.
Proof. split; by vm_compute. Qed.
Print Assumptions C80_lost_id_refuted.
(** Inserting no documents is fine in memory and an error in MongoDB; of documents one of which cannot be encoded the
    ones before it are inserted in memory and none in MongoDB. *)
Theorem C80_insert_many_refuted :
  (simple_run [AInsertMany []]).2 = [Some (Nothing, false)] ∧ (mongo_run [AInsertMany []]).2 = [Some (Nothing, true)] ∧
  let cs := [AInsertMany [ABson [("_id", num 7)]; AValue None]]%string in
  length (items (simple_run cs).1) = 1 ∧ items (mongo_run cs).1 = [].
Proof. split_and!; by vm_compute. Qed.
Print Assumptions C80_insert_many_refuted.
(** Reading one result of FindMany, or all results of FindOne, works in memory and is an error in MongoDB. *)
Theorem C80_cursor_refuted :
  let d := [("_id", num 7)]%string in
  (simple_run [one d; AFind true [] [] One; AFind false [] [] All]).2 = [Some (Nothing, false); Some (Docs [d], false); Some (Docs [d], false)] ∧
  (mongo_run [one d; AFind true [] [] One; AFind false [] [] All]).2 = [Some (Nothing, false); Some (Nothing, true); Some (Nothing, true)].
Proof. split; by vm_compute. Qed.
Print Assumptions C80_cursor_refuted.
(** A projection is ignored in memory; two of them are an error in MongoDB. *)
Theorem C80_projection_refuted :
  let d := [("_id", num 7); ("a", num 1); ("b", num 2)]%string in
  let p := [("a", num 1)]%string in
  (simple_run [one d; AFind true [] [p] All; AFind true [] [p; p] All]).2 = [Some (Nothing, false); Some (Docs [d], false); Some (Docs [d], false)] ∧
  (mongo_run [one d; AFind true [] [p] All; AFind true [] [p; p] All]).2 =
    [Some (Nothing, false); Some (Docs [[("_id", num 7); ("a", num 1)]], false); Some (Nothing, true)]%string.
Proof. split; by vm_compute. Qed.
Print Assumptions C80_projection_refuted.
(** ReplaceMany is not implemented for MongoDB. *)
Theorem C80_replace_many_refuted :
  let cs := [one [("_id", num 7); ("n", num 1)]; AReplaceMany [("n", num 1)] [ABson [("_id", num 7); ("n", num 2)]]]%string in
  simple_run cs = (Coll [[("_id", num 7); ("n", num 2)]]%string 0, [Some (Nothing, false); Some (Count 1, false)]) ∧
  mongo_run cs = (Coll [[("_id", num 7); ("n", num 1)]]%string 0, [Some (Nothing, false); Some (Count 0, true)]).
Proof. split; by vm_compute. Qed.
Print Assumptions C80_replace_many_refuted.
